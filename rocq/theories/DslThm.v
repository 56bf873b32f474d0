(** Text of the Core DSL: numbers, lines, and the reader of YAML documents. *)
From Coq Require Import List ZArith QArith Qcanon Reals Bool String Ascii DecimalString DecimalZ DecimalFacts Lia Lra.
From Verif Require Import Base Xr Samp Lgamma Prims Cgpm Trans Views Crosscat Sample Lib Dsl SpecDsl.
Import ListNotations.
Local Open Scope string_scope.
Local Open Scope Z_scope.

(** ** Characters of a text *)

Fixpoint every (P : ascii -> bool) (s : string) : bool :=
  match s with EmptyString => true | String a s' => P a && every P s' end.

Lemma every_app : forall P s t, every P (s ++ t) = every P s && every P t.
Proof. induction s as [|a s IH]; intros t; [reflexivity|]. cbn. rewrite IH. apply andb_assoc. Qed.

Lemma every_imp : forall (P Q : ascii -> bool) s, (forall a, P a = true -> Q a = true) -> every P s = true -> every Q s = true.
Proof.
  induction s as [|a s IH]; intros F E; [reflexivity|]. cbn in *. apply andb_prop in E as [E1 E2].
  rewrite (F _ E1), IH; auto.
Qed.

Definition is_digit (a : ascii) : bool := Nat.leb 48 (nat_of_ascii a) && Nat.leb (nat_of_ascii a) 57.
Definition is_numeral (a : ascii) : bool := is_digit a || Ascii.eqb a "-".
Definition other (c a : ascii) : bool := negb (Ascii.eqb a c).

Lemma digit_other : forall c a, is_digit c = false -> is_digit a = true -> other c a = true.
Proof.
  intros c a C A. unfold other. destruct (Ascii.eqb_spec a c) as [->|]; [congruence|reflexivity].
Qed.

Lemma numeral_other : forall c a, is_numeral c = false -> is_numeral a = true -> other c a = true.
Proof.
  intros c a C A. unfold other. destruct (Ascii.eqb_spec a c) as [->|]; [congruence|reflexivity].
Qed.

Lemma app_assoc_s : forall a b c : string, (a ++ b) ++ c = a ++ (b ++ c).
Proof. induction a as [|x a IH]; intros; [reflexivity|]. cbn. now rewrite IH. Qed.

Lemma app_nil_s : forall a : string, a ++ "" = a.
Proof. induction a as [|x a IH]; [reflexivity|]. cbn. now rewrite IH. Qed.

(** ** Splitting *)

Lemma split_none : forall c s, every (other c) s = true -> split_at c s = [s].
Proof.
  induction s as [|a s IH]; intros E; [reflexivity|]. cbn in *. apply andb_prop in E as [E1 E2].
  unfold other in E1. destruct (Ascii.eqb a c); [discriminate|]. rewrite IH by auto. reflexivity.
Qed.

Lemma split_first : forall c s t, every (other c) s = true -> split_at c (s ++ String c t) = s :: split_at c t.
Proof.
  induction s as [|a s IH]; intros t E; cbn in *.
  - rewrite Ascii.eqb_refl. reflexivity.
  - apply andb_prop in E as [E1 E2]. unfold other in E1. destruct (Ascii.eqb a c); [discriminate|].
    rewrite IH by auto. reflexivity.
Qed.

Lemma remove_char_none : forall c s, every (other c) s = true -> remove_char c s = s.
Proof.
  induction s as [|a s IH]; intros E; [reflexivity|]. cbn in *. apply andb_prop in E as [E1 E2].
  unfold other in E1. destruct (Ascii.eqb a c); [discriminate|]. now rewrite IH.
Qed.

Lemma remove_char_app : forall c s t, remove_char c (s ++ t) = remove_char c s ++ remove_char c t.
Proof.
  induction s as [|a s IH]; intros t; [reflexivity|]. cbn. destruct (Ascii.eqb a c); rewrite IH; reflexivity.
Qed.

(** ** Numerals *)

Lemma uint_digits : forall u, every is_digit (NilEmpty.string_of_uint u) = true.
Proof. induction u; cbn; rewrite ?IHu; reflexivity. Qed.

Lemma nz_uint_digits : forall u, every is_digit (NilZero.string_of_uint u) = true.
Proof. destruct u; try (apply (uint_digits (Decimal.D0 u)) || apply uint_digits); try reflexivity; apply uint_digits. Qed.

Lemma format_d_numeral : forall z, every is_numeral (format_d z) = true.
Proof.
  intros z. unfold format_d, NilZero.string_of_int. destruct (Z.to_int z) as [u|u].
  - eapply every_imp; [|apply nz_uint_digits]. intros a A. unfold is_numeral. now rewrite A.
  - cbn [every]. apply andb_true_intro. split; [reflexivity|].
    eapply every_imp; [|apply nz_uint_digits]. intros a A. unfold is_numeral. now rewrite A.
Qed.

Lemma to_int_nonnil : forall z, Z.to_int z <> Decimal.Pos Decimal.Nil /\ Z.to_int z <> Decimal.Neg Decimal.Nil.
Proof.
  intros z. assert (E := DecimalZ.of_to z). destruct z as [|p|p]; cbn in *.
  - split; discriminate.
  - split; intros Q; [|discriminate]. injection Q as Q. rewrite Q in E. discriminate.
  - split; intros Q; [discriminate|]. injection Q as Q. rewrite Q in E. discriminate.
Qed.

Lemma int_of_format_d : forall z, NilZero.int_of_string (format_d z) = Some (Z.to_int z).
Proof. intros z. unfold format_d. destruct (to_int_nonnil z). now apply NilZero.isi. Qed.

Lemma format_d_nonneg : forall z, 0 <= z -> exists u, format_d z = NilZero.string_of_uint u /\ Z.to_int z = Decimal.Pos u.
Proof.
  intros z L. destruct z as [|p|p]; [| |lia].
  - exists (Decimal.D0 Decimal.Nil). split; reflexivity.
  - eexists. split; reflexivity.
Qed.

Lemma uint_of_format_d : forall z, 0 <= z -> exists u, NilZero.uint_of_string (format_d z) = Some u /\ Z.of_int (Decimal.Pos u) = z.
Proof.
  intros z L. destruct (format_d_nonneg z L) as [u [E1 E2]]. exists u. rewrite E1. split.
  - apply NilZero.usu. intros ->. now apply (proj1 (to_int_nonnil z)).
  - rewrite <- E2. apply DecimalZ.of_to.
Qed.

(** No numeral is empty. *)
Lemma format_d_nonempty : forall z, exists a s, format_d z = String a s.
Proof.
  intros z. assert (E := int_of_format_d z). destruct (format_d z); [discriminate E|eauto].
Qed.

Lemma uint_of_string_dot : forall s t, NilEmpty.uint_of_string (s ++ String "." t) = None.
Proof.
  induction s as [|a s IH]; intros t; cbn.
  - destruct (NilEmpty.uint_of_string t); reflexivity.
  - rewrite IH. destruct a as [[] [] [] [] [] [] [] []]; reflexivity.
Qed.

Lemma int_of_string_dot : forall s t, NilZero.int_of_string (s ++ String "." t) = None.
Proof.
  intros s t.
  assert (U : forall s', NilZero.uint_of_string (s' ++ String "." t) = None).
  { intros s'. unfold NilZero.uint_of_string. destruct (s' ++ String "." t) eqn:Q; [destruct s'; discriminate|].
    rewrite <- Q. apply uint_of_string_dot. }
  destruct s as [|a s].
  - unfold NilZero.int_of_string. cbn [append]. change (String "." t) with ("" ++ String "." t). rewrite U. reflexivity.
  - unfold NilZero.int_of_string. cbn [append]. change (String a (s ++ String "." t)) with (String a s ++ String "." t).
    rewrite !U. destruct (Ascii.eqb a "-"); reflexivity.
Qed.

(** The four decimals are read back. *)
Lemma decimals_read : forall z, 0 <= z < 10000 ->
  exists u, NilZero.uint_of_string (decimals z) = Some u /\ Z.of_int (Decimal.Pos u) = z.
Proof.
  assert (A : forallb (fun z => match NilZero.uint_of_string (decimals z) with
              | Some u => (Z.of_int (Decimal.Pos u) =? z)%Z | None => false end) (zrange (Z.to_nat 10000)) = true) by (vm_compute; reflexivity).
  intros z L. rewrite forallb_forall in A. specialize (A z).
  assert (In z (zrange (Z.to_nat 10000))).
  { unfold zrange. apply in_map_iff. exists (Z.to_nat z). split; [lia|]. apply in_seq. split; [lia|]. rewrite Nat.add_0_l. apply Z2Nat.inj_lt; lia. }
  specialize (A H). destruct (NilZero.uint_of_string (decimals z)) as [u|]; [|discriminate].
  exists u. split; [reflexivity|]. now apply Z.eqb_eq.
Qed.

Lemma digit_is_digit : forall z, is_digit (digit (z mod 10)) = true.
Proof.
  intros z. assert (L := Z.mod_pos_bound z 10 eq_refl). unfold digit.
  assert (C : z mod 10 = 0 \/ z mod 10 = 1 \/ z mod 10 = 2 \/ z mod 10 = 3 \/ z mod 10 = 4 \/ z mod 10 = 5
              \/ z mod 10 = 6 \/ z mod 10 = 7 \/ z mod 10 = 8 \/ z mod 10 = 9) by lia.
  repeat (destruct C as [-> | C]; [reflexivity|]). rewrite C. reflexivity.
Qed.

Lemma decimals_digits : forall z, every is_digit (decimals z) = true.
Proof.
  intros z. unfold decimals. cbn [every]. rewrite !digit_is_digit. reflexivity.
Qed.

(** ** Rounding *)

Lemma round4_nonneg : forall q, (0 <= q)%Qc -> 0 <= round4 q.
Proof.
  intros q L. unfold round4. unfold Qcle in L. cbn in L. unfold Qle in L. cbn in L.
  assert (N : 0 <= Qnum (this q)) by lia.
  assert (D := Z.div_pos (Qnum (this q) * 10000) (Zpos (Qden (this q)))).
  specialize (D ltac:(lia) ltac:(lia)).
  destruct (2 * _ ?= _); [destruct (Z.even _)| |]; lia.
Qed.

(** What becomes of a number when it is written and read back. *)
Definition written (q : Qc) : Qc :=
  if is_int q then q
  else if qltb q 0%Qc then (- (qz (round4 (- q)) / qz 10000))%Qc else (qz (round4 q) / qz 10000)%Qc.

Lemma qltb_lt : forall a b, qltb a b = true <-> (a < b)%Qc.
Proof.
  intros a b. unfold qltb. destruct (Qclt_le_dec a b) as [L|L]; split; intros X; auto; try discriminate.
  exfalso. exact (Qclt_not_le _ _ X L).
Qed.

Lemma first_digit : forall z a s, 0 <= z -> format_d z = String a s -> a <> "-"%char.
Proof.
  intros z a s L E ->. destruct (format_d_nonneg z L) as [u [E1 _]]. rewrite E1 in E.
  assert (D := nz_uint_digits u). rewrite E in D. discriminate D.
Qed.

Lemma read_format_f4 : forall q, read_float (format_f4 q) =
  Some (if qltb q 0%Qc then (- (qz (round4 (- q)) / qz 10000))%Qc else (qz (round4 q) / qz 10000)%Qc).
Proof.
  intros q. unfold format_f4.
  set (neg := qltb q 0%Qc). set (a := round4 (if neg then - q else q)%Qc).
  assert (A0 : 0 <= a).
  { apply round4_nonneg. unfold neg. destruct (qltb q 0%Qc) eqn:E.
    - apply qltb_lt in E. apply Qclt_le_weak in E. change 0%Qc with (- 0)%Qc. now apply Qcopp_le_compat.
    - destruct (Qclt_le_dec q 0) as [L|L]; auto. apply qltb_lt in L. congruence. }
  assert (D0 : 0 <= a / 10000) by (apply Z.div_pos; lia).
  destruct (decimals_read (a mod 10000) (Z.mod_pos_bound a 10000 eq_refl)) as [u [U1 U2]].
  assert (V : forall sgn, sgn = "" \/ sgn = "-" ->
    split_at "." (sgn ++ format_d (a / 10000) ++ "." ++ decimals (a mod 10000)) = [(sgn ++ format_d (a / 10000))%string; decimals (a mod 10000)]).
  { intros sgn S.
    rewrite <- app_assoc_s. change ("." ++ decimals (a mod 10000)) with (String "." (decimals (a mod 10000))).
    rewrite split_first.
    - rewrite split_none; [reflexivity|]. eapply every_imp; [|apply decimals_digits].
      intros c C. now apply (digit_other ".").
    - rewrite every_app. apply andb_true_intro. split; [destruct S as [-> | ->]; reflexivity|].
      eapply every_imp; [|apply format_d_numeral]. intros c C. now apply (numeral_other "."). }
  assert (M : (Z.abs (a / 10000) * Z.pow 10 (Z.of_nat (String.length (decimals (a mod 10000)))) + Z.of_int (Decimal.Pos u))%Z = a).
  { rewrite U2. change (String.length (decimals (a mod 10000))) with 4%nat. change (Z.pow 10 (Z.of_nat 4)) with 10000.
    rewrite Z.abs_eq by lia. rewrite (Z.div_mod a 10000) at 3; lia. }
  unfold read_float. destruct neg eqn:NE.
  - rewrite (V "-") by auto. change ("-" ++ format_d (a / 10000)) with (String "-" (format_d (a / 10000))).
    destruct (uint_of_format_d _ D0) as [w [W1 W2]].
    unfold NilZero.int_of_string. change (Ascii.eqb "-" "-") with true. cbv iota. rewrite W1. cbn [option_map]. rewrite U1.
    assert (AB : Z.abs (Z.of_int (Decimal.Neg w)) = Z.abs (a / 10000)).
    { change (Z.of_int (Decimal.Neg w)) with (- Z.of_int (Decimal.Pos w)). rewrite W2. apply Z.abs_opp. }
    rewrite AB, M. reflexivity.
  - rewrite (V "") by auto. cbn [append]. destruct (format_d_nonempty (a / 10000)) as [c [s F]].
    assert (NC := first_digit _ _ _ D0 F).
    rewrite int_of_format_d, U1, DecimalZ.of_to, M, F. f_equal. fold a.
    destruct c as [[] [] [] [] [] [] [] []]; try reflexivity; now destruct NC.
Qed.

(** A written number is read back as its rounded value. *)
Lemma scalar_number : forall q, scalar (number_text q) = YNum (written q).
Proof.
  intros q. unfold scalar, number_text, written. destruct (is_int q) eqn:I.
  - rewrite int_of_format_d, DecimalZ.of_to. f_equal.
    symmetry. now apply is_int_spec.
  - assert (E : NilZero.int_of_string (format_f4 q) = None).
    { unfold format_f4. rewrite <- app_assoc_s. apply int_of_string_dot. }
    rewrite E, read_format_f4. reflexivity.
Qed.

Lemma qz_10000 : qz 10000 <> 0%Qc.
Proof. intros X. apply (f_equal qr) in X. rewrite qr_qz, qr_0 in X. lra. Qed.

Lemma qr_parts : forall q, qr q = (IZR (Qnum (this q)) / IZR (Zpos (Qden (this q))))%R.
Proof. intros q. reflexivity. Qed.

Lemma round4_close : forall q, (Rabs (IZR (round4 q) / 10000 - qr q) <= / 20000)%R.
Proof.
  intros q. rewrite qr_parts. set (n := Qnum (this q)). set (d := Zpos (Qden (this q))).
  assert (D : 0 < d) by (unfold d; lia).
  assert (B : - d <= 2 * (round4 q * d - n * 10000) <= d).
  { unfold round4. fold n d. assert (M := Z.div_mod (n * 10000) d ltac:(lia)).
    assert (L := Z.mod_pos_bound (n * 10000) d D). set (f := n * 10000 / d) in *. set (r := (n * 10000) mod d) in *.
    destruct (2 * r ?= d) eqn:C; [apply Z.compare_eq in C; destruct (Z.even f)
      |rewrite Z.compare_lt_iff in C|rewrite Z.compare_gt_iff in C]; nia. }
  destruct B as [B1 B2]. apply IZR_le in B1, B2. rewrite opp_IZR in B1. rewrite mult_IZR, minus_IZR, !mult_IZR in B1, B2.
  assert (DR : (0 < IZR d)%R) by (apply IZR_lt; lia).
  apply Rabs_le. set (a := IZR (round4 q)) in *. set (x := IZR n) in *. set (y := IZR d) in *.
  assert (E : (a / 10000 - x / y = (a * y - x * 10000) * / (10000 * y))%R) by (field; lra).
  assert (F : (/ 20000 = (y / 2) * / (10000 * y))%R) by (field; lra).
  assert (P : (0 < / (10000 * y))%R) by (apply Rinv_0_lt_compat; lra).
  rewrite E, F. split.
  - rewrite Ropp_mult_distr_l. apply Rmult_le_compat_r; lra.
  - apply Rmult_le_compat_r; lra.
Qed.

Lemma written_rounded : forall q, rounded q (written q).
Proof.
  intros q. unfold rounded, written, four_decimals.
  destruct (is_int q) eqn:I.
  - split.
    + exists (trunc q * 10000). apply qr_inj. rewrite qr_div by apply qz_10000. rewrite !qr_qz, mult_IZR.
      apply is_int_spec in I. rewrite I at 1. rewrite qr_qz. field.
    + replace (qr q - qr q)%R with 0%R by ring. rewrite Rabs_R0. lra.
  - destruct (qltb q 0%Qc) eqn:N.
    + split.
      * exists (- round4 (- q)). apply qr_inj. rewrite qr_opp, !qr_div by apply qz_10000. rewrite !qr_qz, opp_IZR. field.
      * rewrite qr_opp, qr_div by apply qz_10000. rewrite !qr_qz.
        assert (C := round4_close (- q)%Qc). rewrite qr_opp in C. rewrite <- Rabs_Ropp.
        match goal with |- (Rabs ?a <= _)%R => match type of C with (Rabs ?b <= _)%R => replace a with b by ring end end.
        exact C.
    + split; [exists (round4 q); reflexivity|]. rewrite qr_div by apply qz_10000. rewrite !qr_qz. apply round4_close.
Qed.

Lemma rounded_exact : forall q x, four_decimals q -> rounded q x -> x = q.
Proof.
  intros q x [z ->] [[w ->] C]. apply qr_inj. rewrite !qr_div in * by apply qz_10000. rewrite !qr_qz in *.
  assert (w = z); [|now subst].
  assert (E : (IZR w / 10000 - IZR z / 10000 = IZR (w - z) / 10000)%R) by (rewrite minus_IZR; field).
  rewrite E in C. destruct (Z.eq_dec w z) as [|NE]; auto. exfalso.
  assert (H1 : (1 <= Rabs (IZR (w - z)))%R).
  { rewrite <- abs_IZR. apply IZR_le. lia. }
  unfold Rdiv in C. rewrite Rabs_mult, (Rabs_pos_eq (/ 10000)) in C by lra. lra.
Qed.
