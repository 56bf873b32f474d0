(** Regressions and forests. (Proofs.) *)
From Coq Require Import List ZArith QArith Qcanon Reals Bool String Permutation Lia Lra.
From Verif Require Import Base Xr Samp Lgamma Prims Cgpm Lib SpecPrims PrimsInv PrimsDens Meta MetaThm Regress SpecRegress.
Import ListNotations.
Local Open Scope Z_scope.

(** ** Levels *)

(** The pairs self.levels is made of. *)
Definition lpairs (ins : list Z) (ls : list (option Z)) : list (Z * Z) :=
  flat_map (fun p => match truthy (snd p) with Some n => [(fst p, n)] | None => [] end) (combine ins ls).

Lemma levels_pairs : forall ins ls i l, has_levels ins ls i l <->
  In (i, l) (lpairs ins ls).
Proof.
  intros ins. induction ins as [|j ins IH]; intros [|o ls] i l; try (split; intros H; [inversion H|destruct H]).
  unfold lpairs in *. cbn [combine flat_map snd fst]. rewrite in_app_iff, <- IH. split.
  - intros H. inversion H as [i' l' ins' ls' NZ|j' o' ins' ls' i' l' H']; subst; [left|right; exact H'].
    destruct l; [congruence|now left|now left].
  - intros [H|H]; [|constructor; exact H]. destruct o as [n|]; cbn in H; [|contradiction].
    destruct n; cbn in H; try contradiction; destruct H as [H|[]]; injection H as <- <-; constructor; discriminate.
Qed.

Lemma pairs_keys : forall ins ls, NoDup ins ->
  NoDup (keys (lpairs ins ls)).
Proof.
  intros ins. induction ins as [|j ins IH]; intros [|o ls] ND; unfold lpairs in *; cbn [combine flat_map]; try constructor.
  inversion ND as [|? ? NI ND']; subst. cbn [snd fst].
  assert (SUB : forall ins ls k, In k (keys (lpairs ins ls)) -> In k ins).
  { clear. intros ins. induction ins as [|j ins IH]; intros [|o ls] k; unfold lpairs in *; cbn [combine flat_map]; try (intros []).
    unfold keys. rewrite map_app, in_app_iff. intros [H|H].
    - destruct (truthy (snd (j, o))); cbn in H; [destruct H as [<-|[]]; now left|contradiction].
    - right. eapply IH. exact H. }
  destruct (truthy o) as [n|]; cbn [app].
  - cbn [keys map fst]. constructor; [|apply IH; exact ND']. intros H. apply NI. eapply SUB. exact H.
  - apply IH. exact ND'.
Qed.

Lemma level_lookup : forall ins ls i l, NoDup ins -> (lookup i (level_dict ins ls) = Some l <-> has_levels ins ls i l).
Proof.
  intros ins ls i l ND. change (level_dict ins ls) with (dict_of (lpairs ins ls)). assert (NK := pairs_keys ins ls ND). rewrite dict_of_NoDup by exact NK.
  rewrite levels_pairs. split; [apply lookup_In|]. intros H. apply In_lookup; assumption.
Qed.

Lemma level_none : forall ins ls i, NoDup ins -> lookup i (level_dict ins ls) = None -> forall l, ~ has_levels ins ls i l.
Proof. intros ins ls i ND H l HL. apply level_lookup in HL; [congruence|exact ND]. Qed.

(** ** Codes *)

Lemma Qclt_qz : forall a b, (Qclt (qz a) (qz b)) <-> a < b.
Proof. intros a b. unfold Qclt. rewrite !this_qz. unfold Qlt. cbn. lia. Qed.

Lemma lt_dec_qz : forall a b, (if Qclt_le_dec (qz a) (qz b) then true else false) = (a <? b).
Proof.
  intros a b. destruct (Qclt_le_dec (qz a) (qz b)) as [H|H].
  - symmetry. apply Z.ltb_lt. exact (proj1 (Qclt_qz a b) H).
  - symmetry. apply Z.ltb_ge. apply Z.nlt_ge. intros L. exact (Qclt_not_le _ _ (proj2 (Qclt_qz a b) L) H).
Qed.

Lemma in_range_vz : forall z l, in_range (vz z) l = (0 <=? z) && (z <? l).
Proof.
  intros z l. unfold in_range, vz. rewrite <- (lt_dec_qz z l). replace (0 <=? z) with (negb (z <? 0)) by (rewrite Z.leb_antisym; reflexivity).
  rewrite <- (lt_dec_qz z 0). destruct (Qclt_le_dec (qz z) (qz 0)); [reflexivity|]. destruct (Qclt_le_dec (qz z) (qz l)); reflexivity.
Qed.

Lemma coded_length : forall l a, List.length (coded l a) = Z.to_nat (l - 1).
Proof.
  intros l a. unfold coded. destruct a as [n|]; [|apply repeat_length].
  assert (H : forall A (x : A) m k, List.length (set_nth k x m) = List.length m).
  { intros A x m. induction m as [|y m IH]; intros [|k]; cbn; auto. }
  rewrite H. apply repeat_length.
Qed.

Lemma nth_set : forall {A} (l : list A) n m x d, (n < List.length l)%nat -> nth m (set_nth n x l) d = if Nat.eqb m n then x else nth m l d.
Proof.
  intros A l. induction l as [|y l IH]; intros n m x d H; cbn in H; [lia|].
  destruct n as [|n]; destruct m as [|m]; cbn; auto. apply IH. lia.
Qed.

Lemma nth_zeros : forall n m, nth m (repeat (vz 0) n) (vz 0) = vz 0.
Proof. induction n as [|n IH]; intros [|m]; cbn; auto. Qed.

Lemma coded_inj : forall l a b, (forall n, a = Some n -> (n < Z.to_nat (l - 1))%nat) -> (forall n, b = Some n -> (n < Z.to_nat (l - 1))%nat) ->
  coded l a = coded l b -> a = b.
Proof.
  assert (ONE : vz 1 <> vz 0) by (intros E; apply vz_inj in E; discriminate).
  assert (AT : forall l n, (n < Z.to_nat (l - 1))%nat -> forall m, nth m (coded l (Some n)) (vz 0) = if Nat.eqb m n then vz 1 else vz 0).
  { intros l n H m. unfold coded. rewrite nth_set by (rewrite repeat_length; exact H). rewrite nth_zeros. reflexivity. }
  assert (NO : forall l m, nth m (coded l None) (vz 0) = vz 0) by (intros; apply nth_zeros).
  intros l a b HA HB E. destruct a as [n|], b as [m|]; auto.
  - assert (X := AT l n (HA n eq_refl) n). rewrite E, (AT l m (HB m eq_refl)), Nat.eqb_refl in X.
    destruct (Nat.eqb n m) eqn:EQ; [apply Nat.eqb_eq in EQ; subst; reflexivity|congruence].
  - assert (X := AT l n (HA n eq_refl) n). rewrite E, NO, Nat.eqb_refl in X. congruence.
  - assert (X := AT l m (HB m eq_refl) m). rewrite <- E, NO, Nat.eqb_refl in X. congruence.
Qed.

(** The place of the 1 in the code of a category. *)
Definition place (l z : Z) : option nat := if z <? l - 1 then Some (Z.to_nat z) else None.

Lemma linreg_code : forall codes i l z, lookup i codes = Some l -> 0 <= z < l ->
  dummy_code_linreg codes i (vz z) = Ok (coded l (place l z)).
Proof.
  intros codes i l z L R. unfold dummy_code_linreg. rewrite L, in_range_vz.
  replace (0 <=? z) with true by (symmetry; apply Z.leb_le; lia). replace (z <? l) with true by (symmetry; apply Z.ltb_lt; lia).
  cbn [andb oassert obind vz]. unfold place. rewrite <- lt_dec_qz. destruct (Qclt_le_dec (qz z) (qz (l - 1))); [|reflexivity].
  rewrite is_int_qz, trunc_qz. reflexivity.
Qed.

Lemma forest_code : forall codes i l z, lookup i codes = Some l -> 0 <= z < l ->
  dummy_code_forest codes i (vz z) = Ok (coded l (place l z)).
Proof.
  intros codes i l z L R. unfold dummy_code_forest. rewrite L. unfold vz at 1. change (VQ (qz z)) with (vz z). rewrite in_range_vz.
  replace (0 <=? z) with true by (symmetry; apply Z.leb_le; lia). replace (z <? l) with true by (symmetry; apply Z.ltb_lt; lia).
  cbn [andb oassert obind]. rewrite is_int_qz. cbn [oassert obind]. unfold place. rewrite <- lt_dec_qz. destruct (Qclt_le_dec (qz z) (qz (l - 1))); [|reflexivity].
  rewrite trunc_qz. reflexivity.
Qed.

Lemma place_inj : forall l z z', 0 <= z < l -> 0 <= z' < l -> coded l (place l z) = coded l (place l z') -> z = z'.
Proof.
  intros l z z' R R' E. apply coded_inj in E.
  - unfold place in E. destruct (z <? l - 1) eqn:A, (z' <? l - 1) eqn:B; try discriminate.
    + injection E as E. lia.
    + apply Z.ltb_ge in A, B. lia.
  - intros n. unfold place. destruct (z <? l - 1) eqn:A; [|discriminate]. intros H. injection H as <-. apply Z.ltb_lt in A. lia.
  - intros n. unfold place. destruct (z' <? l - 1) eqn:A; [|discriminate]. intros H. injection H as <-. apply Z.ltb_lt in A. lia.
Qed.

(** Codes a code function gives to single inputs. *)
Definition width_of (codes : dict Z Z) (i : Z) : nat := match lookup i codes with Some l => Z.to_nat (l - 1) | None => 1%nat end.

(** The total width. *)
Lemma dimension_length : forall t, dimension t = code_length t.
Proof.
  intros t. unfold dimension, code_length, widths. f_equal. induction (t_levels t) as [|o ls IH]; [reflexivity|]. cbn [map fold_right].
  rewrite IH. destruct o as [n|]; [|cbn [truthy]; lia]. destruct n; cbn [truthy Z.eqb]; lia.
Qed.

Lemma widths_sum : forall ins ls, NoDup ins -> List.length ls = List.length ins ->
  (forall i l, has_levels ins ls i l -> 1 <= l) ->
  Z.of_nat (list_sum (map (fun i => width_of (level_dict ins ls) i) ins)) = fold_right Z.add 0 (widths ls).
Proof.
  intros ins ls ND LE POS.
  assert (G : forall ins' ls', List.length ls' = List.length ins' -> (forall i l, has_levels ins' ls' i l -> has_levels ins ls i l) ->
    (forall i, In i ins' -> (exists l, has_levels ins ls i l) -> exists l, has_levels ins' ls' i l) -> NoDup ins' ->
    Z.of_nat (list_sum (map (fun i => width_of (level_dict ins ls) i) ins')) = fold_right Z.add 0 (widths ls')).
  { induction ins' as [|j ins' IH]; intros [|o ls'] LE' H1 H2 ND'; try discriminate; [reflexivity|].
    inversion ND' as [|? ? NI ND'']; subst. change (list_sum (map (fun i => width_of (level_dict ins ls) i) (j :: ins'))) with (width_of (level_dict ins ls) j + list_sum (map (fun i => width_of (level_dict ins ls) i) ins'))%nat.
    change (widths (o :: ls')) with ((match truthy o with Some n => n - 1 | None => 1 end) :: widths ls'). cbn [fold_right]. rewrite Nat2Z.inj_add.
    rewrite (IH ls').
    - f_equal. unfold width_of. destruct (truthy o) as [n|] eqn:T.
      + assert (HL : has_levels (j :: ins') (o :: ls') j n).
        { destruct o as [m|]; [|discriminate]. destruct m; cbn in T; try discriminate; injection T as <-; constructor; discriminate. }
        apply H1 in HL. rewrite (proj2 (level_lookup ins ls j n ND) HL). assert (X := POS _ _ HL). lia.
      + destruct (lookup j (level_dict ins ls)) as [n|] eqn:L; [|reflexivity].
        apply level_lookup in L; [|exact ND]. destruct (H2 j (or_introl eq_refl)) as [m HL]; [eauto|].
        exfalso. inversion HL as [? ? ? ? NZ|? ? ? ? ? ? HL']; subst.
        * destruct m; [congruence| |]; discriminate.
        * apply levels_pairs in HL'. unfold lpairs in HL'. apply in_flat_map in HL'. destruct HL' as ([k q] & Hk & Hq).
          apply in_combine_l in Hk. cbn in Hq. destruct (truthy q); [|contradiction]. destruct Hq as [Hq|[]]. injection Hq as -> _. contradiction.
    - cbn in LE'. lia.
    - intros i l H. apply H1. constructor. exact H.
    - intros i Hi E. destruct (H2 i (or_intror Hi) E) as [l HL]. inversion HL as [? ? ? ? NZ|? ? ? ? ? ? HL']; subst; [contradiction|eauto].
    - exact ND''. }
  apply G; auto. 
Qed.

(** ** The code of an input vector *)

(** The codes of the single inputs. *)
Definition codes_of (code : dict Z Z -> Z -> val -> out (list val)) (t : table) (inp : row) : list (out (list val)) :=
  map (fun i => do x <- dget i inp; code (level_dict (t_ins t) (t_levels t)) i x) (t_ins t).

Lemma process_codes : forall code t inp, process_inputs code t inp =
  do ys <- oseq (codes_of code t inp);
  do _ <- oassert (Z.of_nat (List.length (List.concat ys)) =? dimension t - 1);
  Ok (vz 1 :: List.concat ys).
Proof. reflexivity. Qed.

Lemma oseq_Ok : forall {A} (l : list (out A)) ys, oseq l = Ok ys <-> l = map Ok ys.
Proof.
  intros A l. induction l as [|[a|e] l IH]; intros ys.
  - cbn. split; [intros H; injection H as <-; reflexivity|]. destruct ys; [reflexivity|discriminate].
  - cbn [oseq obind]. destruct (oseq l) as [zs|e] eqn:E; cbn [obind].
    + split.
      * intros H. injection H as <-. cbn. f_equal. apply IH. reflexivity.
      * intros H. destruct ys as [|y ys]; [discriminate|]. cbn in H. injection H as -> H. apply IH in H. congruence.
    + split; [discriminate|]. intros H. destruct ys as [|y ys]; [discriminate|]. cbn in H. injection H as -> H. apply IH in H. discriminate.
  - cbn. split; [discriminate|]. destruct ys; discriminate.
Qed.

Lemma concat_len : forall {A} (ys : list (list A)), List.length (List.concat ys) = list_sum (map (@List.length A) ys).
Proof. intros A ys. induction ys as [|y ys IH]; [reflexivity|]. cbn [List.concat map]. rewrite app_length, IH. reflexivity. Qed.

(** A list of inputs each of which gets a code of its width. *)
Lemma process_ok : forall code t inp f, NoDup (t_ins t) -> List.length (t_levels t) = List.length (t_ins t) ->
  (forall i l, has_levels (t_ins t) (t_levels t) i l -> 1 <= l) ->
  (forall i, In i (t_ins t) -> exists x, lookup i inp = Some x /\ code (level_dict (t_ins t) (t_levels t)) i x = Ok (f i x)
     /\ List.length (f i x) = width_of (level_dict (t_ins t) (t_levels t)) i) ->
  process_inputs code t inp = Ok (vz 1 :: List.concat (map (fun i => f i (match lookup i inp with Some x => x | None => VNan end)) (t_ins t))).
Proof.
  intros code t inp f ND LE POS H. rewrite process_codes.
  assert (E : codes_of code t inp = map Ok (map (fun i => f i (match lookup i inp with Some x => x | None => VNan end)) (t_ins t))).
  { unfold codes_of. rewrite map_map. apply map_ext_in. intros i Hi. destruct (H i Hi) as (x & L & Cd & _). unfold dget. rewrite L. cbn [obind]. exact Cd. }
  rewrite (proj2 (oseq_Ok _ _) E). cbn [obind].
  assert (W : Z.of_nat (List.length (List.concat (map (fun i => f i (match lookup i inp with Some x => x | None => VNan end)) (t_ins t)))) = dimension t - 1).
  { rewrite concat_len, map_map. unfold dimension. rewrite <- (widths_sum (t_ins t) (t_levels t) ND LE POS). rewrite Z.add_simpl_l. do 2 f_equal.
    apply map_ext_in. intros i Hi. destruct (H i Hi) as (x & L & _ & W). rewrite L. exact W. }
  rewrite W, Z.eqb_refl. reflexivity.
Qed.

(** The code of a value, where there is one. *)
Definition code_linreg (t : table) (i : Z) (x : val) : list val :=
  match lookup i (level_dict (t_ins t) (t_levels t)) with
  | None => [x]
  | Some l => match x with VQ q => coded l (place l (trunc q)) | VNan => [] end
  end.

Definition code_forest (t : table) (i : Z) (x : val) : list val :=
  match lookup i (level_dict (t_ins t) (t_levels t)) with
  | None => [x]
  | Some l => match x with VQ q => coded l (place l (trunc q)) | VNan => repeat VNan (Z.to_nat (l - 1)) end
  end.

Lemma legal_code : forall t inp i, NoDup (t_ins t) -> legal t inp -> In i (t_ins t) ->
  exists x, lookup i inp = Some x /\ dummy_code_linreg (level_dict (t_ins t) (t_levels t)) i x = Ok (code_linreg t i x)
    /\ List.length (code_linreg t i x) = width_of (level_dict (t_ins t) (t_levels t)) i.
Proof.
  intros t inp i ND LG Hi. destruct (LG i Hi) as (x & L & CT). exists x. split; [exact L|].
  unfold code_linreg, width_of. destruct (lookup i (level_dict (t_ins t) (t_levels t))) as [l|] eqn:LV.
  - destruct (CT l) as (z & -> & R); [apply level_lookup; assumption|]. rewrite (linreg_code _ i l z LV R). cbn [vz]. rewrite trunc_qz.
    split; [reflexivity|apply coded_length].
  - split; [|reflexivity]. unfold dummy_code_linreg. rewrite LV. reflexivity.
Qed.

Lemma missing_code : forall t inp i, NoDup (t_ins t) -> legal_or_missing t inp -> In i (t_ins t) ->
  exists x, lookup i inp = Some x /\ dummy_code_forest (level_dict (t_ins t) (t_levels t)) i x = Ok (code_forest t i x)
    /\ List.length (code_forest t i x) = width_of (level_dict (t_ins t) (t_levels t)) i.
Proof.
  intros t inp i ND LG Hi. destruct (LG i Hi) as (x & L & CT). exists x. split; [exact L|].
  unfold code_forest, width_of. destruct (lookup i (level_dict (t_ins t) (t_levels t))) as [l|] eqn:LV.
  - destruct (CT l) as [(z & -> & R)|(-> & P)]; [apply level_lookup; assumption| |].
    + rewrite (forest_code _ i l z LV R). cbn [vz]. rewrite trunc_qz. split; [reflexivity|apply coded_length].
    + unfold dummy_code_forest. rewrite LV. split; [reflexivity|apply repeat_length].
  - split; [|reflexivity]. unfold dummy_code_forest. rewrite LV. reflexivity.
Qed.

Lemma has_levels_in : forall ins ls i l, has_levels ins ls i l -> In i ins.
Proof. induction 1; [now left|now right]. Qed.

Lemma legal_pos : forall t inp, legal t inp -> forall i l, has_levels (t_ins t) (t_levels t) i l -> 1 <= l.
Proof. intros t inp LG i l HL. destruct (LG i (has_levels_in _ _ _ _ HL)) as (x & _ & CT). destruct (CT l HL) as (z & _ & R). lia. Qed.

Lemma missing_pos : forall t inp, legal_or_missing t inp -> forall i l, has_levels (t_ins t) (t_levels t) i l -> 1 <= l.
Proof. intros t inp LG i l HL. destruct (LG i (has_levels_in _ _ _ _ HL)) as (x & _ & CT). destruct (CT l HL) as [(z & _ & R)|[_ P]]; lia. Qed.

(** The whole vector. *)
Definition vector (f : Z -> val -> list val) (t : table) (inp : row) : list val :=
  vz 1 :: List.concat (map (fun i => f i (match lookup i inp with Some x => x | None => VNan end)) (t_ins t)).

Lemma linreg_vector : forall t inp, NoDup (t_ins t) -> List.length (t_levels t) = List.length (t_ins t) -> legal t inp ->
  process_inputs dummy_code_linreg t inp = Ok (vector (code_linreg t) t inp).
Proof. intros t inp ND LE LG. apply process_ok; auto; [eapply legal_pos; eauto|]. intros i Hi. apply legal_code; assumption. Qed.

Lemma forest_vector : forall t inp, NoDup (t_ins t) -> List.length (t_levels t) = List.length (t_ins t) -> legal_or_missing t inp ->
  process_inputs dummy_code_forest t inp = Ok (vector (code_forest t) t inp).
Proof. intros t inp ND LE LG. apply process_ok; auto; [eapply missing_pos; eauto|]. intros i Hi. apply missing_code; assumption. Qed.

Lemma process_length : forall code t inp y, process_inputs code t inp = Ok y -> Z.of_nat (List.length y) = code_length t.
Proof.
  intros code t inp y H. rewrite process_codes in H. destruct (oseq (codes_of code t inp)) as [ys|e]; cbn [obind] in H; [|discriminate].
  destruct (Z.of_nat (List.length (List.concat ys)) =? dimension t - 1) eqn:E; cbn [oassert obind] in H; [|discriminate].
  injection H as <-. apply Z.eqb_eq in E. rewrite <- dimension_length. cbn [List.length]. lia.
Qed.

(** Equal concatenations of lists of the same lengths. *)
Lemma concat_inj : forall {A B} (f g : A -> list B) l, (forall i, In i l -> List.length (f i) = List.length (g i)) ->
  List.concat (map f l) = List.concat (map g l) -> forall i, In i l -> f i = g i.
Proof.
  intros A B f g l. induction l as [|a l IH]; intros LE E i Hi; [destruct Hi|]. cbn [map List.concat] in E.
  assert (SP : forall (u v u' v' : list B), List.length u = List.length u' -> u ++ v = u' ++ v' -> u = u' /\ v = v').
  { clear. induction u as [|x u IH]; intros v [|x' u'] v' L E; try discriminate; [auto|]. cbn in E. injection E as -> E.
    destruct (IH v u' v') as [-> ->]; [cbn in L; lia|exact E|auto]. }
  destruct (SP _ _ _ _ (LE a (or_introl eq_refl)) E) as [E1 E2]. destruct Hi as [<-|Hi]; [exact E1|].
  apply IH; auto. intros j Hj. apply LE. right. exact Hj.
Qed.

Lemma linreg_injective : forall t u v y, NoDup (t_ins t) -> List.length (t_levels t) = List.length (t_ins t) -> legal t u -> legal t v ->
  process_inputs dummy_code_linreg t u = Ok y -> process_inputs dummy_code_linreg t v = Ok y ->
  forall i, In i (t_ins t) -> lookup i u = lookup i v.
Proof.
  intros t u v y ND LE LU LV EU EV i Hi. rewrite linreg_vector in EU, EV by assumption.
  assert (E : vector (code_linreg t) t u = vector (code_linreg t) t v) by congruence. unfold vector in E. injection E as E.
  assert (EI := concat_inj (fun i => code_linreg t i match lookup i u with Some x => x | None => VNan end)
    (fun i => code_linreg t i match lookup i v with Some x => x | None => VNan end) (t_ins t)).
  assert (X : code_linreg t i match lookup i u with Some x => x | None => VNan end = code_linreg t i match lookup i v with Some x => x | None => VNan end).
  { apply EI; auto. intros j Hj. destruct (legal_code t u j ND LU Hj) as (x & -> & _ & W). destruct (legal_code t v j ND LV Hj) as (x' & -> & _ & W'). congruence. }
  destruct (LU i Hi) as (x & Lx & Cx). destruct (LV i Hi) as (x' & Lx' & Cx'). rewrite Lx, Lx' in *. f_equal. unfold code_linreg in X.
  destruct (lookup i (level_dict (t_ins t) (t_levels t))) as [l|] eqn:LL; [|injection X as X; exact X].
  apply level_lookup in LL; [|exact ND]. destruct (Cx l LL) as (z & -> & R). destruct (Cx' l LL) as (z' & -> & R'). cbn [vz] in X. rewrite !trunc_qz in X.
  f_equal. eapply place_inj; eauto.
Qed.

Lemma forest_injective : forall t u v y, NoDup (t_ins t) -> List.length (t_levels t) = List.length (t_ins t) ->
  legal_or_missing t u -> legal_or_missing t v ->
  process_inputs dummy_code_forest t u = Ok y -> process_inputs dummy_code_forest t v = Ok y ->
  forall i, In i (t_ins t) -> (forall l, has_levels (t_ins t) (t_levels t) i l -> 2 <= l) -> lookup i u = lookup i v.
Proof.
  intros t u v y ND LE LU LV EU EV i Hi TWO. rewrite forest_vector in EU, EV by assumption.
  assert (E : vector (code_forest t) t u = vector (code_forest t) t v) by congruence. unfold vector in E. injection E as E.
  assert (EI := concat_inj (fun i => code_forest t i match lookup i u with Some x => x | None => VNan end)
    (fun i => code_forest t i match lookup i v with Some x => x | None => VNan end) (t_ins t)).
  assert (X : code_forest t i match lookup i u with Some x => x | None => VNan end = code_forest t i match lookup i v with Some x => x | None => VNan end).
  { apply EI; auto. intros j Hj. destruct (missing_code t u j ND LU Hj) as (x & -> & _ & W). destruct (missing_code t v j ND LV Hj) as (x' & -> & _ & W'). congruence. }
  destruct (LU i Hi) as (x & Lx & Cx). destruct (LV i Hi) as (x' & Lx' & Cx'). rewrite Lx, Lx' in *. f_equal. unfold code_forest in X.
  destruct (lookup i (level_dict (t_ins t) (t_levels t))) as [l|] eqn:LL; [|injection X as X; exact X].
  apply level_lookup in LL; [|exact ND]. assert (T2 := TWO l LL).
  assert (MIX : forall a, repeat VNan (Z.to_nat (l - 1)) <> coded l a).
  { intros a EQ. assert (IN : In VNan (coded l a)). { rewrite <- EQ. destruct (Z.to_nat (l - 1)) eqn:K; [lia|now left]. }
    assert (ALL : forall k w m, (forall b, In b m -> b <> VNan) -> w <> VNan -> forall b, In b (set_nth k w m) -> b <> VNan).
    { clear. intros k w m. revert k. induction m as [|c m IH]; intros [|k] HM Hw b Hb; cbn in Hb; try contradiction.
      - destruct Hb as [<-|Hb]; [exact Hw|]. apply HM. now right.
      - destruct Hb as [<-|Hb]; [apply HM; now left|]. eapply IH; eauto. intros d Hd. apply HM. now right. }
    assert (RP : forall b, In b (repeat (vz 0) (Z.to_nat (l - 1))) -> b <> VNan) by (intros b Hb; apply repeat_spec in Hb; subst; discriminate).
    unfold coded in IN. destruct a as [n|]; [eapply ALL; [exact RP| |exact IN|reflexivity]; discriminate|eapply RP; eauto]. }
  destruct (Cx l LL) as [(z & -> & R)|(-> & P)]; destruct (Cx' l LL) as [(z' & -> & R')|(-> & P')]; cbn [vz] in X; rewrite ?trunc_qz in X.
  - f_equal. eapply place_inj; eauto.
  - symmetry in X. exfalso. eapply MIX. exact X.
  - exfalso. eapply MIX. exact X.
  - reflexivity.
Qed.

(** ** Rejection *)

Lemma oseq_err : forall {A} (l : list (out A)) e, In (Err e) l -> exists e', oseq l = Err e' /\ In (Err e') l.
Proof.
  intros A l e. induction l as [|[a|e0] l IH]; intros H; [destruct H| |].
  - destruct H as [H|H]; [discriminate|]. destruct (IH H) as (e' & E & Hin). exists e'. cbn. rewrite E. split; [reflexivity|now right].
  - exists e0. split; [reflexivity|now left].
Qed.

Lemma process_err : forall code t inp i x e, In i (t_ins t) -> lookup i inp = Some x ->
  code (level_dict (t_ins t) (t_levels t)) i x = Err e -> exists e', process_inputs code t inp = Err e' /\ In (Err e') (codes_of code t inp).
Proof.
  intros code t inp i x e Hi L Cd. rewrite process_codes.
  destruct (oseq_err (codes_of code t inp) e) as (e' & E & Hin).
  - unfold codes_of. apply in_map_iff. exists i. split; [|exact Hi]. unfold dget. rewrite L. exact Cd.
  - exists e'. rewrite E. split; [reflexivity|exact Hin].
Qed.

Lemma in_range_num : forall q l, in_range (VQ q) l = true <-> (Qcle 0 q /\ Qclt q (qz l)).
Proof.
  intros q l. unfold in_range. rewrite qz_0. destruct (Qclt_le_dec q 0) as [A|A].
  - split; [discriminate|]. intros [B _]. exfalso. exact (Qclt_not_le _ _ A B).
  - destruct (Qclt_le_dec q (qz l)) as [B|B]; split; auto; try discriminate. intros [_ D]. exfalso. exact (Qclt_not_le _ _ D B).
Qed.

Lemma linreg_range : forall codes i l x, lookup i codes = Some l -> out_of_range l x -> dummy_code_linreg codes i x = Err AssertionError.
Proof.
  intros codes i l x L OR. unfold dummy_code_linreg. rewrite L. assert (E : in_range x l = false).
  { destruct OR as [->|(q & -> & OR)]; [reflexivity|]. apply Bool.not_true_is_false. intros H. apply in_range_num in H. destruct H as [A B].
    destruct OR as [OR|OR]; [exact (Qclt_not_le _ _ OR A)|exact (Qclt_not_le _ _ B OR)]. }
  rewrite E. reflexivity.
Qed.

Lemma forest_range : forall codes i l x, lookup i codes = Some l -> x <> VNan -> ~ category l x -> dummy_code_forest codes i x = Err AssertionError.
Proof.
  intros codes i l x L NN NC. unfold dummy_code_forest. rewrite L. destruct x as [|q]; [congruence|].
  destruct (in_range (VQ q) l) eqn:E; [|reflexivity]. cbn [oassert obind]. destruct (is_int q) eqn:IQ; [|reflexivity]. exfalso. apply NC.
  apply is_int_spec in IQ. exists (trunc q). unfold vz. rewrite <- IQ. split; [reflexivity|]. rewrite IQ in E. change (VQ (qz (trunc q))) with (vz (trunc q)) in E. rewrite in_range_vz in E.
  apply andb_true_iff in E. destruct E as [A B]. apply Z.leb_le in A. apply Z.ltb_lt in B. lia.
Qed.

(** One bad input among good ones. *)
Lemma reject : forall code t inp i x e, In i (t_ins t) -> lookup i inp = Some x -> code (level_dict (t_ins t) (t_levels t)) i x = Err e ->
  (forall j, In j (t_ins t) -> j <> i -> exists x', lookup j inp = Some x' /\ exists y, code (level_dict (t_ins t) (t_levels t)) j x' = Ok y) ->
  process_inputs code t inp = Err e.
Proof.
  intros code t inp i x e Hi L Cd OK. destruct (process_err code t inp i x e Hi L Cd) as (e' & E & Hin). rewrite E.
  unfold codes_of in Hin. apply in_map_iff in Hin. destruct Hin as (j & Ej & Hj). destruct (Z.eq_dec j i) as [->|NE].
  - unfold dget in Ej. rewrite L in Ej. cbn [obind] in Ej. congruence.
  - destruct (OK j Hj NE) as (x' & L' & y & C'). unfold dget in Ej. rewrite L' in Ej. cbn [obind] in Ej. congruence.
Qed.

(** ** Histories *)

(** What always holds of a table. *)
Definition sound (t : table) : Prop :=
  NoDup (keys (t_data t)) /\ keys (t_yraw t) = keys (t_data t) /\ keys (t_ydum t) = keys (t_data t) /\
  List.length (t_levels t) = List.length (t_ins t) /\
  (forall r y, In (r, y) (t_ydum t) -> Z.of_nat (List.length y) = code_length t) /\
  Z.of_nat (List.length (t_data t)) <= t_N t.

Lemma new_sound : forall outs ins levels t, new_table outs ins levels = Ok t -> sound t /\ t_N t = 0 /\ t_data t = [] /\ t_ydum t = [].
Proof.
  intros outs ins levels t H. unfold new_table in H. destruct outs as [|o [|? ?]]; try discriminate.
  destruct (negb (Nat.eqb (List.length ins) 0)); cbn [oassert obind] in H; [|discriminate].
  destruct (negb (memb o ins)); cbn [oassert obind] in H; [|discriminate].
  destruct (Nat.eqb (List.length levels) (List.length ins)) eqn:E; cbn [oassert obind] in H; [|discriminate].
  apply Nat.eqb_eq in E. injection H as <-. cbn. repeat split; auto; try constructor; try (cbn; lia).
Qed.

(** What observe does. *)
Lemma observe_cases : forall code t rid obs inp,
  (exists e, table_observe code t rid obs inp = (t, Err e)) \/
  (exists x y, lookup rid (t_data t) = None /\ keys obs = [t_out t] /\ lookup (t_out t) obs = Some x /\ process_inputs code t inp = Ok y /\
     table_observe code t rid obs inp = (mkTable (t_out t) (t_ins t) (t_levels t) (t_N t + 1) (dset rid x (t_data t))
       (dset rid (map (fun i => lookup i inp) (t_ins t)) (t_yraw t)) (dset rid y (t_ydum t)), Ok tt)).
Proof.
  intros code t rid obs inp. unfold table_observe. destruct (dmem rid (t_data t)) eqn:M; [left; eauto|].
  destruct (eqb (keys obs) [t_out t]) eqn:K; cbn [negb]; [|left; eauto].
  unfold dget. destruct (lookup (t_out t) obs) as [x|] eqn:L; [|left; eauto].
  destruct (process_inputs code t inp) as [y|e] eqn:P; [|left; eauto].
  right. exists x, y. unfold dmem in M. destruct (lookup rid (t_data t)); [discriminate|]. apply eqb_true in K. auto 8.
Qed.

Lemma lookup_keys : forall {V W} (d : dict Z V) (d' : dict Z W) k, keys d' = keys d -> lookup k d = None -> lookup k d' = None.
Proof.
  intros V W d d' k E L. apply lookup_None. rewrite E. apply lookup_None. exact L.
Qed.

Lemma lookup_keys_some : forall {V W} (d : dict Z V) (d' : dict Z W) k v, keys d' = keys d -> lookup k d = Some v -> exists w, lookup k d' = Some w.
Proof.
  intros V W d d' k v E L. destruct (lookup k d') as [w|] eqn:L'; [eauto|]. assert (X := lookup_keys d' d k (eq_sym E) L'). congruence.
Qed.

Lemma observe_sound : forall code t rid obs inp, sound t -> sound (fst (table_observe code t rid obs inp)).
Proof.
  intros code t rid obs inp S. destruct (observe_cases code t rid obs inp) as [(e & ->)|(x & y & L & _ & _ & P & ->)]; [exact S|].
  destruct S as (ND & K1 & K2 & LE & W & LN). assert (L1 := lookup_keys _ (t_yraw t) rid K1 L). assert (L2 := lookup_keys _ (t_ydum t) rid K2 L).
  cbn [fst]. unfold sound. cbn [t_data t_yraw t_ydum t_levels t_ins t_N]. rewrite !dset_fresh by assumption.
  unfold keys in *. rewrite !map_app, K1, K2. cbn [map fst].
  split; [|split; [reflexivity|split; [reflexivity|split; [exact LE|split]]]].
  - rewrite <- (dset_fresh (t_data t) rid x L) at 1 || idtac. assert (X := NoDup_keys_dset (t_data t) rid x ND). rewrite dset_fresh in X by exact L. unfold keys in X. rewrite map_app in X. exact X.
  - intros r z Hin. change (code_length _) with (code_length t). apply in_app_iff in Hin. destruct Hin as [Hin|[Hin|[]]]; [eapply W; eauto|].
    injection Hin as <- <-. eapply process_length. exact P.
  - rewrite app_length. cbn [List.length]. lia.
Qed.

Lemma ddel_keys : forall {V W} (d : dict Z V) (d' : dict Z W) k, keys d' = keys d -> keys (ddel k d') = keys (ddel k d).
Proof.
  intros V W d. induction d as [|[a b] d IH]; intros [|[a' b'] d'] k E; try discriminate; [reflexivity|].
  cbn in E. injection E as -> E. cbn [ddel]. destruct (eq_dec k a); [exact E|]. cbn. f_equal. apply IH. exact E.
Qed.

Lemma ddel_length : forall {V} (d : dict Z V) k v, lookup k d = Some v -> List.length d = Datatypes.S (List.length (ddel k d)).
Proof. intros V d k v L. exact (Permutation_length (ddel_perm d k v L)). Qed.

(** What unobserve does to a table a user can bring about. *)
Lemma unobserve_cases : forall t rid, sound t ->
  (lookup rid (t_data t) = None /\ table_unobserve t rid = (t, Err KeyError)) \/
  (exists x, lookup rid (t_data t) = Some x /\ table_unobserve t rid =
     (mkTable (t_out t) (t_ins t) (t_levels t) (t_N t) (ddel rid (t_data t)) (ddel rid (t_yraw t)) (ddel rid (t_ydum t)), Err TypeError)).
Proof.
  intros t rid (ND & K1 & K2 & _). unfold table_unobserve. destruct (lookup rid (t_data t)) as [x|] eqn:L; [|left; auto]. right. exists x. split; [reflexivity|].
  destruct (lookup_keys_some _ (t_yraw t) rid x K1 L) as (w & ->). destruct (lookup_keys_some _ (t_ydum t) rid x K2 L) as (w' & ->). reflexivity.
Qed.

Lemma unobserve_sound : forall t rid, sound t -> sound (fst (table_unobserve t rid)).
Proof.
  intros t rid S. destruct (unobserve_cases t rid S) as [(_ & ->)|(x & L & ->)]; [exact S|]. destruct S as (ND & K1 & K2 & LE & W & LN).
  cbn [fst]. unfold sound. cbn [t_data t_yraw t_ydum t_levels t_ins t_N].
  split; [apply NoDup_keys_ddel; exact ND|]. split; [apply ddel_keys; exact K1|]. split; [apply ddel_keys; exact K2|]. split; [exact LE|]. split.
  - intros r y Hin. change (code_length _) with (code_length t). apply (W r).
    revert Hin. clear. induction (t_ydum t) as [|[a b] d IH]; [intros []|]. cbn [ddel]. destruct (eq_dec rid a); [intros H; now right|]. intros [H|H]; [now left|right; auto].
  - assert (X := ddel_length _ _ _ L). lia.
Qed.

Lemma kept_sound : forall code t, kept_table code t -> sound t.
Proof.
  induction 1 as [outs ins levels t H|t rid obs inp K IH|t rid K IH].
  - apply new_sound in H. tauto.
  - apply observe_sound. exact IH.
  - apply unobserve_sound. exact IH.
Qed.

(** The count once it is too high stays too high. *)
Lemma excess_observe : forall code t rid obs inp, Z.of_nat (List.length (t_data t)) < t_N t ->
  let t' := fst (table_observe code t rid obs inp) in Z.of_nat (List.length (t_data t')) < t_N t'.
Proof.
  intros code t rid obs inp H. destruct (observe_cases code t rid obs inp) as [(e & ->)|(x & y & L & _ & _ & P & ->)]; [exact H|].
  cbn. rewrite dset_fresh by exact L. rewrite app_length. cbn [List.length]. lia.
Qed.

Lemma excess_unobserve : forall t rid, sound t -> Z.of_nat (List.length (t_data t)) < t_N t ->
  let t' := fst (table_unobserve t rid) in Z.of_nat (List.length (t_data t')) < t_N t'.
Proof.
  intros t rid S H. destruct (unobserve_cases t rid S) as [(_ & ->)|(x & L & ->)]; [exact H|]. cbn. assert (X := ddel_length _ _ _ L). lia.
Qed.

Lemma linreg_observe_table : forall g rid obs inp, lr_table (fst (linreg_observe g rid obs inp)) = fst (table_observe dummy_code_linreg (lr_table g) rid obs inp).
Proof. intros. unfold linreg_observe. destruct (table_observe _ _ _ _ _). reflexivity. Qed.

Lemma linreg_unobserve_table : forall g rid, lr_table (fst (linreg_unobserve g rid)) = fst (table_unobserve (lr_table g) rid).
Proof. intros. unfold linreg_unobserve. destruct (table_unobserve _ _). reflexivity. Qed.

Lemma fresh_sound : forall g, fresh_linreg g -> sound (lr_table g) /\ t_N (lr_table g) = 0 /\ t_data (lr_table g) = [] /\ t_ydum (lr_table g) = [].
Proof.
  intros g (outs & ins & levels & a & b & mu & V & H). unfold new_linreg in H. destruct (new_table outs ins levels) as [t|e] eqn:E; cbn [obind] in H; [|discriminate].
  injection H as <-. cbn [lr_table]. eapply new_sound. exact E.
Qed.

Lemma used_sound : forall g g', used g g' -> sound (lr_table g) -> sound (lr_table g').
Proof.
  induction 1 as [g|g g' rid obs inp U IH|g g' rid U IH]; intros S; [exact S| |].
  - rewrite linreg_observe_table. apply observe_sound. auto.
  - rewrite linreg_unobserve_table. apply unobserve_sound. auto.
Qed.

Lemma used_excess : forall g g', used g g' -> sound (lr_table g) -> Z.of_nat (List.length (t_data (lr_table g))) < t_N (lr_table g) ->
  Z.of_nat (List.length (t_data (lr_table g'))) < t_N (lr_table g').
Proof.
  induction 1 as [g|g g' rid obs inp U IH|g g' rid U IH]; intros S H; [exact H| |].
  - rewrite linreg_observe_table. apply excess_observe. auto.
  - rewrite linreg_unobserve_table. apply excess_unobserve; [eapply used_sound; eauto|auto].
Qed.

Lemma used_same : forall g g', used g g' -> t_out (lr_table g') = t_out (lr_table g) /\ t_ins (lr_table g') = t_ins (lr_table g) /\ t_levels (lr_table g') = t_levels (lr_table g).
Proof.
  induction 1 as [g|g g' rid obs inp U IH|g g' rid U IH]; [auto| |].
  - rewrite linreg_observe_table. destruct (observe_cases dummy_code_linreg (lr_table g') rid obs inp) as [(e & ->)|(x & y & _ & _ & _ & _ & ->)]; cbn; exact IH.
  - rewrite linreg_unobserve_table. unfold table_unobserve. destruct (lookup rid (t_data (lr_table g'))); [|exact IH].
    destruct (lookup rid (t_yraw (lr_table g'))); [|exact IH]. destruct (lookup rid (t_ydum (lr_table g'))); exact IH.
Qed.

(** With a count too high nothing can be computed. *)
Lemma excess_posterior : forall t a b mu V, sound t -> Z.of_nat (List.length (t_data t)) < t_N t ->
  posterior_hypers (t_N t) (values (t_ydum t)) (values (t_data t)) a b mu V = Err AssertionError.
Proof.
  intros t a b mu V (ND & K1 & K2 & _) H. unfold posterior_hypers. replace (t_N t =? 0) with false by (symmetry; apply Z.eqb_neq; lia).
  assert (LY : List.length (values (t_ydum t)) = List.length (t_data t)).
  { unfold values. rewrite map_length. unfold keys in K2. assert (X := f_equal (@List.length Z) K2). rewrite !map_length in X. exact X. }
  rewrite LY. replace (Z.of_nat (List.length (t_data t)) =? t_N t) with false by (symmetry; apply Z.eqb_neq; lia). reflexivity.
Qed.
