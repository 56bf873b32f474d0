(** Proofs about random partitions (C47). *)
From Coq Require Import List ZArith QArith Qcanon Reals Bool String Permutation Sorted Lia Lra FunctionalExtensionality.
From Verif Require Import Base Xr Samp Lgamma Prims Cgpm Lib SpecPrims PrimsInv PrimsDens PrimsThm PrimsThm2
  SpecComp CompInv CompDens CompThm SpecSim SimShape SimLaw SpecTable Walks SpecWalks SpecViews Sample SpecSample ProgressThm.
Import ListNotations.
Local Open Scope Z_scope.

(** ** One choice *)

Lemma choice_shape : forall ws, choice ws = Ret (Err ValueError) \/
  (qsum ws <> 0%Qc /\ (forall w, In w ws -> (0 <= qr (w / qsum ws)%Qc)%R) /\
   choice ws = Flip (map qr (map (fun w => w / qsum ws)%Qc ws)) (fun i => Ret (Ok i))).
Proof.
  intros ws. unfold choice. unfold eqb. destruct (eq_dec (qsum ws) 0%Qc) as [E|NE]; [left; reflexivity|].
  destruct (existsb _ _) eqn:X; [left; reflexivity|]. right. split; [exact NE|]. split; [|reflexivity].
  intros w Hw. assert (Y : qltb (w / qsum ws)%Qc 0%Qc = false).
  { destruct (qltb (w / qsum ws)%Qc 0%Qc) eqn:Q; [|reflexivity]. rewrite <- X. symmetry. apply existsb_exists.
    exists (w / qsum ws)%Qc. split; [|exact Q]. apply in_map_iff. exists w. auto. }
  apply qltb_false in Y. rewrite qr_0 in Y. exact Y.
Qed.

Lemma probs_one : forall ws, qsum ws <> 0%Qc -> rsum (map qr (map (fun w => w / qsum ws)%Qc ws)) = 1%R.
Proof.
  intros ws NE. rewrite map_map. rewrite (rsum_ext _ (fun w => qr w / qr (qsum ws))%R).
  - rewrite (rsum_div qr). rewrite <- qsum_qr. apply Rinv_r. intros E. apply NE. apply qr_inj. rewrite E, qr_0. reflexivity.
  - intros w _. apply qr_div. exact NE.
Qed.

Lemma choice_finite : forall ws, finite_choices (choice ws).
Proof.
  intros ws. destruct (choice_shape ws) as [E|(NE & P & E)]; rewrite E; [exact Logic.I|]. cbn. split; [|split; [|intros; exact Logic.I]].
  - intros w Hw. apply in_map_iff in Hw. destruct Hw as (p & <- & Hp). apply in_map_iff in Hp. destruct Hp as (w & <- & Hw). apply P. exact Hw.
  - rewrite probs_one by exact NE. lra.
Qed.

Lemma choice_ok : forall ws, (forall w, In w ws -> (0 <= qr w)%R) -> (0 < qr (qsum ws))%R ->
  choice ws = Flip (map qr (map (fun w => w / qsum ws)%Qc ws)) (fun i => Ret (Ok i)).
Proof.
  intros ws NN P. unfold choice, eqb. destruct (eq_dec (qsum ws) 0%Qc) as [E|NE]; [rewrite E, qr_0 in P; lra|].
  destruct (existsb _ _) eqn:X; [|reflexivity]. exfalso. apply existsb_exists in X. destruct X as (p & Hp & Q).
  apply in_map_iff in Hp. destruct Hp as (w & <- & Hw). apply qltb_true in Q. rewrite qr_0, qr_div in Q by exact NE.
  assert (0 <= qr w / qr (qsum ws))%R; [|lra]. apply Rmult_le_pos; [apply NN; exact Hw|]. left. apply Rinv_0_lt_compat. exact P.
Qed.

(** ** Seating one customer *)

Definition std (n : nat) (p : list (list Z)) : Prop := partition_of n p /\ by_appearance p.

Lemma append_at_app : forall l1 b l2 c, append_at (List.length l1) c (l1 ++ b :: l2) = l1 ++ (b ++ [c]) :: l2.
Proof. induction l1 as [|a l1 IH]; intros; cbn; [reflexivity|]. f_equal. apply IH. Qed.

Definition weights_of (alpha : Qc) (p : list (list Z)) : list Qc := map (fun b => qz (Z.of_nat (List.length b))) p ++ [alpha].
Definition moved_to (i : nat) (c : Z) (p : list (list Z)) : list (list Z) :=
  append_at i c (if Nat.leb (List.length p) i then p ++ [[]] else p).

Lemma moved_cases : forall i c p, (i <= List.length p)%nat ->
  (exists l1 b l2, p = l1 ++ b :: l2 /\ List.length l1 = i /\ moved_to i c p = l1 ++ (b ++ [c]) :: l2) \/
  (i = List.length p /\ moved_to i c p = p ++ [[c]]).
Proof.
  intros i c p L. unfold moved_to. destruct (Nat.leb (List.length p) i) eqn:E.
  - right. apply Nat.leb_le in E. assert (i = List.length p) by lia. subst i. split; [reflexivity|]. apply append_at_app.
  - left. apply Nat.leb_gt in E. destruct (nth_split p [] E) as (l1 & l2 & EP & L1).
    exists l1, (nth i p []), l2. split; [exact EP|]. split; [exact L1|]. rewrite EP at 1. rewrite <- L1 at 1. apply append_at_app.
Qed.

Lemma concat_moved : forall l1 (b : list Z) l2 c, Permutation (List.concat (l1 ++ (b ++ [c]) :: l2)) (c :: List.concat (l1 ++ b :: l2)).
Proof.
  intros. rewrite !concat_app. cbn [List.concat]. rewrite <- !app_assoc. cbn.
  rewrite app_assoc. rewrite app_assoc with (l := List.concat l1) (m := b). apply Permutation_sym, Permutation_middle.
Qed.

Lemma partition_grow : forall n p p', partition_of n p -> (forall b, In b p' -> b <> []) ->
  Permutation (List.concat p') (Z.of_nat n :: List.concat p) -> partition_of (S n) p'.
Proof.
  intros n p p' (_ & ND & IN) NE P. split; [exact NE|]. split.
  - apply (Permutation_NoDup (Permutation_sym P)). constructor; [|exact ND]. rewrite IN. lia.
  - intros z. rewrite Nat2Z.inj_succ. split; intros H.
    + apply (Permutation_in _ P) in H. destruct H as [<-|H]; [lia|]. apply IN in H. lia.
    + apply (Permutation_in _ (Permutation_sym P)). destruct (Z.eq_dec z (Z.of_nat n)) as [->|]; [now left|right]. apply IN. lia.
Qed.

Lemma sorted_snoc_lt : forall l c, StronglySorted Z.lt l -> (forall x, In x l -> x < c) -> StronglySorted Z.lt (l ++ [c]).
Proof. intros. apply sorted_snoc; assumption. Qed.

Lemma moved_std : forall n p i, std n p -> (i <= List.length p)%nat -> std (S n) (moved_to i (Z.of_nat n) p).
Proof.
  intros n p i (P & B1 & B2) L. assert (P0 := P). destruct P0 as (NE & ND & IN).
  destruct (moved_cases i (Z.of_nat n) p L) as [(l1 & b & l2 & EP & L1 & ->)|(Ei & ->)].
  - split.
    + apply (partition_grow n p); [exact P| |rewrite EP; apply concat_moved].
      intros b' Hb. apply in_app_or in Hb. destruct Hb as [Hb|[<-|Hb]].
      * apply NE. rewrite EP. apply in_or_app. now left.
      * destruct b; discriminate.
      * apply NE. rewrite EP. apply in_or_app. right. now right.
    + split.
      * intros b' Hb. apply in_app_or in Hb. destruct Hb as [Hb|[<-|Hb]].
        -- apply B1. rewrite EP. apply in_or_app. now left.
        -- apply sorted_snoc_lt; [apply B1; rewrite EP; apply in_elt|]. intros x Hx. apply IN. apply in_concat. exists b. split; [rewrite EP; apply in_elt|exact Hx].
        -- apply B1. rewrite EP. apply in_or_app. right. now right.
      * replace (map (hd 0) (l1 ++ (b ++ [Z.of_nat n]) :: l2)) with (map (hd 0) p); [exact B2|].
        rewrite EP, !map_app. cbn [map]. f_equal. f_equal. assert (NB : b <> []) by (apply NE; rewrite EP; apply in_elt).
        destruct b; [congruence|reflexivity].
  - split.
    + apply (partition_grow n p); [exact P| |].
      * intros b' Hb. apply in_app_or in Hb. destruct Hb as [Hb|[<-|[]]]; [apply NE; exact Hb|discriminate].
      * rewrite concat_app. cbn. apply Permutation_sym, Permutation_cons_append.
    + split.
      * intros b' Hb. apply in_app_or in Hb. destruct Hb as [Hb|[<-|[]]]; [apply B1; exact Hb|]. repeat constructor.
      * rewrite map_app. cbn [map hd]. apply sorted_snoc_lt; [exact B2|]. intros x Hx. apply in_map_iff in Hx. destruct Hx as (b & <- & Hb).
        assert (NB := NE b Hb). apply IN. apply in_concat. exists b. split; [exact Hb|]. destruct b; [congruence|]. now left.
Qed.

Lemma seat_customer_always : forall alpha n p, std n p -> always (seat_customer alpha p (Z.of_nat n))
  (fun r => match r with Ok p' => exists i, (i <= List.length p)%nat /\ p' = moved_to i (Z.of_nat n) p /\ std (S n) p' | Err _ => True end).
Proof.
  intros alpha n p ST. unfold seat_customer. fold (weights_of alpha p). destruct (choice_shape (weights_of alpha p)) as [E|(NE & P & E)]; rewrite E.
  - exact Logic.I.
  - cbn. intros i Hi _. rewrite !map_length in Hi. unfold weights_of in Hi. rewrite app_length, map_length in Hi. cbn in Hi.
    exists i. split; [lia|]. split; [reflexivity|]. apply moved_std; [exact ST|lia].
Qed.

Lemma seat_customers_snoc : forall alpha cs p c,
  seat_customers alpha p (cs ++ [c]) = sobind (seat_customers alpha p cs) (fun q => seat_customer alpha q c).
Proof.
  induction cs as [|a cs IH]; intros p c; cbn [seat_customers app].
  - unfold sobind. cbn [sbind]. transitivity (sbind (seat_customer alpha p c) Ret); [|apply sbind_ret].
    f_equal. apply functional_extensionality. intros [q|e]; reflexivity.
  - unfold sobind. rewrite sbind_assoc'. f_equal. apply functional_extensionality. intros [q|e]; [|reflexivity]. rewrite IH. reflexivity.
Qed.

Lemma zrange_S : forall n, zrange (S n) = zrange n ++ [Z.of_nat n].
Proof. intros. unfold zrange. rewrite seq_S, map_app. reflexivity. Qed.

Lemma partition_snoc : forall alpha n, generate_random_partition alpha (S n) =
  sobind (generate_random_partition alpha n) (fun q => seat_customer alpha q (Z.of_nat n)).
Proof. intros. unfold generate_random_partition. rewrite zrange_S. apply seat_customers_snoc. Qed.

Lemma std_0 : std 0 [].
Proof.
  split; [split; [intros ? []|split; [constructor|]]|split; [intros ? []|constructor]]. intros z. cbn. split; [intros []|lia].
Qed.

Lemma partition_always : forall alpha n, always (generate_random_partition alpha n) (fun r => match r with Ok p => std n p | Err _ => True end).
Proof.
  intros alpha n. induction n as [|n IH].
  - cbn. exact std_0.
  - rewrite partition_snoc. unfold sobind. apply always_bind. revert IH. apply always_imp. intros [p|e] H; [|exact Logic.I].
    assert (A := seat_customer_always alpha n p H). revert A. apply always_imp. intros [p'|e] A; [|exact Logic.I]. destruct A as (i & _ & _ & A). exact A.
Qed.

(** ** With a positive concentration *)

Lemma weights_nonneg : forall alpha p, (0 < qr alpha)%R -> forall w, In w (weights_of alpha p) -> (0 <= qr w)%R.
Proof.
  intros alpha p A w Hw. apply in_app_or in Hw. destruct Hw as [Hw|[<-|[]]]; [|lra]. apply in_map_iff in Hw. destruct Hw as (b & <- & _).
  rewrite qr_qz. apply IZR_le. lia.
Qed.

Lemma weights_sum : forall alpha p, qr (qsum (weights_of alpha p)) = (qr alpha + INR (List.length (List.concat p)))%R.
Proof.
  intros alpha p. rewrite qsum_qr. unfold weights_of. rewrite map_app, rsum_app. cbn. rewrite Rplus_0_r, Rplus_comm. f_equal.
  induction p as [|b p IH]; [reflexivity|]. cbn [map List.concat]. change (rsum (?x :: ?l)) with (x + rsum l)%R.
  rewrite app_length, plus_INR, IH, qr_qz, <- INR_IZR_INZ. reflexivity.
Qed.

Lemma weights_pos : forall alpha p, (0 < qr alpha)%R -> (0 < qr (qsum (weights_of alpha p)))%R.
Proof. intros alpha p A. rewrite weights_sum. assert (H := pos_INR (List.length (List.concat p))). lra. Qed.

Lemma seat_customer_eq : forall alpha p c, (0 < qr alpha)%R -> seat_customer alpha p c =
  Flip (map qr (map (fun w => w / qsum (weights_of alpha p))%Qc (weights_of alpha p))) (fun i => Ret (Ok (moved_to i c p))).
Proof.
  intros alpha p c A. unfold seat_customer. fold (weights_of alpha p).
  rewrite choice_ok; [reflexivity|apply weights_nonneg; exact A|apply weights_pos; exact A].
Qed.

Lemma partition_total : forall alpha n, (0 < qr alpha)%R -> always (generate_random_partition alpha n) (fun r => exists p, r = Ok p /\ std n p).
Proof.
  intros alpha n A. induction n as [|n IH].
  - cbn. exists []. split; [reflexivity|exact std_0].
  - rewrite partition_snoc. unfold sobind. apply always_bind. revert IH. apply always_imp. intros r (p & -> & H).
    assert (B := seat_customer_always alpha n p H). rewrite seat_customer_eq in * by exact A. cbn in *. intros i Hi Pi.
    destruct (B i Hi Pi) as (j & _ & E & ST). exists (moved_to i (Z.of_nat n) p). split; [reflexivity|exact ST].
Qed.

Lemma partition_finite : forall alpha n, finite_choices (generate_random_partition alpha n).
Proof.
  intros alpha n. induction n as [|n IH]; [exact Logic.I|]. rewrite partition_snoc. unfold sobind. apply choices_bind; [exact IH|].
  intros [p|e]; [|exact Logic.I]. unfold seat_customer, sobind. apply choices_bind; [apply choice_finite|]. intros [i|e]; exact Logic.I.
Qed.

(** ** The law *)

Lemma nin_block : forall n p b, std n p -> In b p -> ~ In (Z.of_nat n) b.
Proof. intros n p b ((_ & _ & IN) & _) Hb H. assert (X : In (Z.of_nat n) (List.concat p)) by (apply in_concat; eauto). apply IN in X. lia. Qed.

Definition strip (c : Z) (p : list (list Z)) : list (list Z) :=
  filter (fun b => match b with [] => false | _ => true end) (map (filter (fun x => negb (x =? c))) p).

Lemma strip_none : forall c b, ~ In c b -> filter (fun x => negb (x =? c)) b = b.
Proof.
  intros c b. induction b as [|x b IH]; intros N; [reflexivity|]. cbn. destruct (Z.eqb_spec x c) as [->|]; cbn.
  - exfalso. apply N. now left.
  - f_equal. apply IH. intros H. apply N. now right.
Qed.

Lemma strip_same : forall c p, (forall b, In b p -> b <> [] /\ ~ In c b) -> strip c p = p.
Proof.
  intros c p. induction p as [|b p IH]; intros H; [reflexivity|]. unfold strip. cbn [map filter].
  destruct (H b (or_introl eq_refl)) as [NE NI]. rewrite (strip_none c b NI). destruct b as [|x b]; [congruence|]. f_equal.
  apply IH. intros b' Hb. apply H. now right.
Qed.

Lemma strip_app : forall c p q, strip c (p ++ q) = strip c p ++ strip c q.
Proof. intros. unfold strip. rewrite map_app, filter_app. reflexivity. Qed.

Lemma strip_moved : forall n p i, std n p -> (i <= List.length p)%nat -> strip (Z.of_nat n) (moved_to i (Z.of_nat n) p) = p.
Proof.
  intros n p i ST L. assert (G : forall b, In b p -> b <> [] /\ ~ In (Z.of_nat n) b).
  { intros b Hb. split; [apply ST; exact Hb|apply (nin_block n p); assumption]. }
  destruct (moved_cases i (Z.of_nat n) p L) as [(l1 & b & l2 & EP & L1 & ->)|(Ei & ->)].
  - rewrite strip_app. change (l1 ++ (b ++ [Z.of_nat n]) :: l2) with (l1 ++ [b ++ [Z.of_nat n]] ++ l2).
    change ((b ++ [Z.of_nat n]) :: l2) with ([b ++ [Z.of_nat n]] ++ l2). rewrite strip_app.
    rewrite (strip_same _ l1), (strip_same _ l2).
    + assert (X : strip (Z.of_nat n) [b ++ [Z.of_nat n]] = [b]).
      { unfold strip. cbn [map]. rewrite filter_app. rewrite strip_none by (apply G; rewrite EP; apply in_elt). cbn. rewrite Z.eqb_refl. cbn.
        rewrite app_nil_r. destruct b; [|reflexivity]. exfalso. destruct (G []) as [X _]; [rewrite EP; apply in_elt|congruence]. }
      rewrite X, EP. reflexivity.
    + intros b' Hb. apply G. rewrite EP. apply in_or_app. right. now right.
    + intros b' Hb. apply G. rewrite EP. apply in_or_app. now left.
  - rewrite strip_app, strip_same by exact G. unfold strip. cbn. rewrite Z.eqb_refl. cbn. apply app_nil_r.
Qed.

Lemma moved_index : forall n p i j, std n p -> (i <= List.length p)%nat -> (j <= List.length p)%nat ->
  moved_to i (Z.of_nat n) p = moved_to j (Z.of_nat n) p -> i = j.
Proof.
  intros n p i j ST Li Lj E.
  assert (X : forall i, (i <= List.length p)%nat -> forall k, In (Z.of_nat n) (nth k (moved_to i (Z.of_nat n) p) []) <-> k = i).
  { clear - ST. intros i L k. destruct (moved_cases i (Z.of_nat n) p L) as [(l1 & b & l2 & EP & L1 & ->)|(Ei & ->)].
    - split.
      + intros H. destruct (lt_eq_lt_dec k i) as [[K|K]|K]; [|exact K|].
        * rewrite app_nth1 in H by lia. exfalso. apply (nin_block n p (nth k l1 []) ST); [|exact H]. rewrite EP. apply in_or_app. left. apply nth_In. lia.
        * rewrite app_nth2 in H by lia. exfalso. assert (D : exists d, (k - List.length l1 = S d)%nat) by (exists (k - List.length l1 - 1)%nat; lia).
          destruct D as [d D]. rewrite D in H. cbn in H.
          destruct (le_lt_dec (List.length l2) d) as [G|G]; [rewrite nth_overflow in H by exact G; exact H|].
          apply (nin_block n p (nth d l2 []) ST); [|exact H]. rewrite EP. apply in_or_app. right. right. apply nth_In. exact G.
      + intros ->. rewrite <- L1, app_nth2, Nat.sub_diag by lia. cbn. apply in_or_app. right. now left.
    - split.
      + intros H. destruct (lt_eq_lt_dec k i) as [[K|K]|K]; [|exact K|].
        * rewrite app_nth1 in H by lia. exfalso. apply (nin_block n p (nth k p []) ST); [|exact H]. apply nth_In. lia.
        * rewrite nth_overflow in H; [destruct H|]. rewrite app_length. cbn. lia.
      + intros ->. rewrite Ei, app_nth2, Nat.sub_diag by lia. now left. }
  apply (X j Lj). rewrite <- E. apply (X i Li). reflexivity.
Qed.

Lemma sorted_app_l : forall (l1 l2 : list Z), StronglySorted Z.lt (l1 ++ l2) -> StronglySorted Z.lt l1.
Proof.
  induction l1 as [|a l1 IH]; intros l2 H; [constructor|]. inversion H; subst. constructor; [eapply IH; eauto|].
  rewrite Forall_app in *. tauto.
Qed.

Lemma sorted_last : forall (l : list Z) c, StronglySorted Z.lt l -> In c l -> (forall x, In x l -> x <= c) -> exists l', l = l' ++ [c].
Proof.
  intros l c H Hc M. destruct (exists_last (l := l)) as (l' & a & ->); [destruct l; [destruct Hc|discriminate]|].
  exists l'. f_equal. f_equal. apply in_app_or in Hc. destruct Hc as [Hc|[->|[]]]; [|reflexivity].
  exfalso. assert (Ma := M a (in_elt a l' [])). clear M. induction l' as [|b l' IH]; [destruct Hc|]. cbn in H. inversion H as [|? ? H1 H2]; subst.
  destruct Hc as [->|Hc]; [|auto]. rewrite Forall_forall in H2. specialize (H2 a). assert (c < a) by (apply H2; apply in_or_app; right; now left). lia.
Qed.

Lemma sorted_hd_last : forall l1 (c : Z) l2, StronglySorted Z.lt (l1 ++ c :: l2) -> (forall x, In x l2 -> x < c) -> l2 = [].
Proof.
  intros l1 c l2 H M. destruct l2 as [|a l2]; [reflexivity|]. exfalso. assert (a < c) by (apply M; now left).
  induction l1 as [|b l1 IH]; cbn in H; inversion H as [|? ? H1 H2]; subst; [|auto]. inversion H2; subst. lia.
Qed.

(** Every partition of n+1 in order comes from exactly one of n. *)
Lemma std_from : forall n p, std (S n) p -> exists q i, std n q /\ (i <= List.length q)%nat /\ p = moved_to i (Z.of_nat n) q.
Proof.
  intros n p ((NE & ND & IN) & B1 & B2). assert (Hn : In (Z.of_nat n) (List.concat p)) by (apply IN; lia).
  apply in_concat in Hn. destruct Hn as (b & Hb & Hn). apply in_split in Hb. destruct Hb as (l1 & l2 & ->).
  assert (LE : forall x, In x (List.concat (l1 ++ b :: l2)) -> x <= Z.of_nat n) by (intros x Hx; apply IN in Hx; lia).
  destruct (sorted_last b (Z.of_nat n)) as [b' EB]; [apply B1; apply in_elt|exact Hn|intros x Hx; apply LE; apply in_concat; exists b; split; [apply in_elt|exact Hx]|].
  subst b.
  assert (PM := concat_moved l1 b' l2 (Z.of_nat n)). assert (ND' := Permutation_NoDup PM ND). inversion ND' as [|? ? NI ND2]; subst.
  assert (IN' : forall z, In z (List.concat (l1 ++ b' :: l2)) <-> 0 <= z < Z.of_nat n).
  { intros z. split; intros H.
    - assert (X : In z (List.concat (l1 ++ (b' ++ [Z.of_nat n]) :: l2))) by (apply (Permutation_in _ (Permutation_sym PM)); now right).
      apply IN in X. assert (z <> Z.of_nat n) by (intros ->; contradiction). lia.
    - assert (X : In z (List.concat (l1 ++ (b' ++ [Z.of_nat n]) :: l2))) by (apply IN; lia).
      apply (Permutation_in _ PM) in X. destruct X as [X|X]; [lia|exact X]. }
  destruct b' as [|x b'].
  - cbn [app] in *. assert (E2 : l2 = []).
    { rewrite map_app in B2. cbn [map hd] in B2. assert (X : map (hd 0) l2 = []).
      { apply (sorted_hd_last _ _ _ B2). intros y Hy. apply in_map_iff in Hy. destruct Hy as (b & <- & Hb). apply IN'.
        apply in_concat. exists b. split; [apply in_or_app; right; now right|].
        assert (NB : b <> []) by (apply NE; apply in_or_app; right; now right). destruct b; [congruence|now left]. }
      destruct l2; [reflexivity|discriminate]. }
    subst l2. exists l1, (List.length l1). split; [|split; [lia|]].
    + assert (EC : List.concat (l1 ++ [[]]) = List.concat l1) by (rewrite concat_app; cbn; apply app_nil_r). rewrite EC in *.
      split; [split; [intros b Hb; apply NE; apply in_or_app; now left|split; [exact ND2|exact IN']]|].
      split; [intros b Hb; apply B1; apply in_or_app; now left|]. rewrite map_app in B2. apply (sorted_app_l _ _ B2).
    + unfold moved_to. rewrite Nat.leb_refl. symmetry. apply append_at_app.
  - exists (l1 ++ (x :: b') :: l2), (List.length l1). split; [|split; [rewrite app_length; cbn; lia|]].
    + split; [split; [|split; [exact ND2|exact IN']]|split].
      * intros b Hb. apply in_app_or in Hb. destruct Hb as [Hb|[<-|Hb]]; [apply NE; apply in_or_app; now left|discriminate|apply NE; apply in_or_app; right; now right].
      * intros b Hb. apply in_app_or in Hb. destruct Hb as [Hb|[<-|Hb]]; [apply B1; apply in_or_app; now left| |apply B1; apply in_or_app; right; now right].
        apply (sorted_app_l _ [Z.of_nat n]). apply (B1 ((x :: b') ++ [Z.of_nat n])). apply in_elt.
      * rewrite map_app in *. exact B2.
    + unfold moved_to. assert (X : Nat.leb (List.length (l1 ++ (x :: b') :: l2)) (List.length l1) = false) by (apply Nat.leb_gt; rewrite app_length; cbn; lia).
      rewrite X. symmetry. apply append_at_app.
Qed.

Definition is_outcome (p : list (list Z)) (r : out (list (list Z))) : R :=
  match r with Ok q => if eq_dec q p then 1%R else 0%R | Err _ => 0%R end.

Lemma rsum_one : forall k (f : nat -> R) i, (i < k)%nat -> (forall j, (j < k)%nat -> j <> i -> f j = 0%R) -> rsum (map f (seq 0 k)) = f i.
Proof.
  intros k f i L Z. assert (G : forall a n, (a <= i < a + n)%nat -> (forall j, (a <= j < a + n)%nat -> j <> i -> f j = 0%R) -> rsum (map f (seq a n)) = f i).
  { intros a n. revert a. induction n as [|n IH]; intros a H ZZ; [lia|]. cbn [seq map]. change (rsum (?x :: ?l)) with (x + rsum l)%R. destruct (Nat.eq_dec a i) as [->|N].
    - rewrite (rsum_zero (map f (seq (S i) n))); [lra|]. intros x Hx. apply in_map_iff in Hx. destruct Hx as (j & <- & Hj). apply in_seq in Hj. apply ZZ; lia.
    - rewrite ZZ by lia. rewrite IH; [lra|lia|]. intros j Hj Nj. apply ZZ; lia. }
  apply G; [lia|]. intros j Hj Nj. apply Z; [lia|exact Nj].
Qed.

Lemma step_chance : forall alpha n q q0 i0, (0 < qr alpha)%R -> std n q -> std n q0 -> (i0 <= List.length q0)%nat ->
  expect (seat_customer alpha q (Z.of_nat n)) (is_outcome (moved_to i0 (Z.of_nat n) q0)) =
  ((if eq_dec q q0 then 1 else 0) * (qr (nth i0 (weights_of alpha q0) 0%Qc) / (qr alpha + INR n)))%R.
Proof.
  intros alpha n q q0 i0 A ST ST0 L0. rewrite seat_customer_eq by exact A. cbn [expect].
  assert (NZ : qsum (weights_of alpha q) <> 0%Qc) by (intros E; assert (P := weights_pos alpha q A); rewrite E, qr_0 in P; lra).
  rewrite probs_one by exact NZ. rewrite !map_length.
  assert (LW : forall r, List.length (weights_of alpha r) = S (List.length r)) by (intros r; unfold weights_of; rewrite app_length, map_length; cbn; lia).
  assert (LN : List.length (List.concat q) = n).
  { destruct ST as ((_ & ND & IN) & _). assert (P : Permutation (List.concat q) (zrange n)).
    { apply NoDup_Permutation; [exact ND|apply zrange_NoDup|]. intros z. rewrite IN. rewrite zrange_In. reflexivity. }
    apply Permutation_length in P. rewrite P. unfold zrange. rewrite map_length, seq_length. reflexivity. }
  destruct (eq_dec q q0) as [->|NE].
  - rewrite (rsum_one _ _ i0); [|rewrite LW; lia|].
    + cbn [is_outcome]. destruct (eq_dec _ _); [|congruence]. rewrite map_map.
      assert (L' : (i0 < List.length (weights_of alpha q0))%nat) by (rewrite LW; lia).
      rewrite (nth_indep _ 0%R (qr (0 / qsum (weights_of alpha q0))%Qc)) by (rewrite map_length; exact L').
      rewrite (map_nth (fun w => qr (w / qsum (weights_of alpha q0))%Qc)). rewrite qr_div by exact NZ. rewrite weights_sum, LN. lra.
    + intros j Lj Nj. rewrite LW in Lj. cbn [is_outcome]. destruct (eq_dec _ _) as [E|]; [|lra].
      exfalso. apply Nj. apply (moved_index n q0); [exact ST|lia|exact L0|exact E].
  - rewrite rsum_zero; [lra|]. intros x Hx. apply in_map_iff in Hx. destruct Hx as (j & <- & Hj). apply in_seq in Hj. rewrite LW in Hj.
    cbn [is_outcome]. destruct (eq_dec _ _) as [E|]; [|lra]. exfalso. apply NE.
    rewrite <- (strip_moved n q j), <- (strip_moved n q0 i0), E; [reflexivity|exact ST0|exact L0|exact ST|lia].
Qed.

Lemma crp_probability_step : forall alpha n q i, (0 < alpha)%R -> std n q -> (i <= List.length q)%nat ->
  List.length (List.concat q) = n ->
  crp_probability alpha (moved_to i (Z.of_nat n) q) =
  (crp_probability alpha q * ((if Nat.ltb i (List.length q) then INR (List.length (nth i q [])) else alpha) / (alpha + INR n)))%R.
Proof.
  intros alpha n q i A ST L LN. unfold crp_probability.
  assert (PD : (0 < rprod (map (fun i => alpha + INR i) (seq 0 n)))%R).
  { apply rprod_pos_all. intros x Hx. apply in_map_iff in Hx. destruct Hx as (j & <- & _). assert (H := pos_INR j). lra. }
  assert (PN : (0 < alpha + INR n)%R) by (assert (H := pos_INR n); lra).
  destruct (moved_cases i (Z.of_nat n) q L) as [(l1 & b & l2 & EP & L1 & ->)|(Ei & ->)].
  - rewrite (Permutation_length (concat_moved l1 b l2 (Z.of_nat n))). cbn [List.length]. rewrite <- EP, LN.
    rewrite seq_S, map_app, rprod_app. cbn [map rprod fold_right plus].
    assert (Lt : Nat.ltb i (List.length q) = true) by (apply Nat.ltb_lt; rewrite EP, app_length; cbn; lia). rewrite Lt.
    assert (EN : nth i q [] = b) by (rewrite EP, <- L1; rewrite app_nth2, Nat.sub_diag by lia; reflexivity). rewrite EN.
    assert (NB : b <> []) by (apply ST; rewrite EP; apply in_elt).
    replace (List.length (l1 ++ (b ++ [Z.of_nat n]) :: l2)) with (List.length q) by (rewrite EP, !app_length; reflexivity).
    assert (EQ : rprod (map (fun b => INR (fact (List.length b - 1))) q) =
      (rprod (map (fun b => INR (fact (List.length b - 1))) l1) * (INR (fact (List.length b - 1)) * rprod (map (fun b => INR (fact (List.length b - 1))) l2)))%R)
      by (rewrite EP, map_app, rprod_app; reflexivity).
    rewrite EQ, !map_app, !rprod_app. cbn [map].
    change (rprod (?x :: ?y)) with (x * rprod y)%R. change (rprod []) with 1%R. rewrite app_length. cbn [List.length].
    destruct b as [|x b]; [congruence|]. cbn [List.length]. replace (S (List.length b) + 1 - 1)%nat with (S (List.length b)) by lia.
    replace (S (List.length b) - 1)%nat with (List.length b) by lia. rewrite fact_simpl, mult_INR. fold rprod in *.
    change (fold_right Rmult 1%R) with rprod. field. lra.
  - assert (Lt : Nat.ltb i (List.length q) = false) by (apply Nat.ltb_ge; lia). rewrite Lt.
    rewrite concat_app, !app_length. cbn [List.concat app List.length]. rewrite LN. rewrite (Nat.add_1_r n), seq_S, map_app, rprod_app.
    rewrite (Nat.add_1_r (List.length q)). cbn [pow]. rewrite map_app, rprod_app. cbn [map plus List.length fact INR Nat.sub].
    change (rprod [?x]) with (x * 1)%R. field. lra.
Qed.

Lemma std_length : forall n q, std n q -> List.length (List.concat q) = n.
Proof.
  intros n q ((_ & ND & IN) & _). assert (P : Permutation (List.concat q) (zrange n)).
  { apply NoDup_Permutation; [exact ND|apply zrange_NoDup|]. intros z. rewrite IN. rewrite zrange_In. reflexivity. }
  apply Permutation_length in P. rewrite P. unfold zrange. rewrite map_length, seq_length. reflexivity.
Qed.

Lemma partition_law : forall alpha n p, (0 < qr alpha)%R -> std n p ->
  expect (generate_random_partition alpha n) (is_outcome p) = crp_probability (qr alpha) p.
Proof.
  intros alpha n. induction n as [|n IH]; intros p A ST.
  - assert (p = []). { destruct p as [|b p]; [reflexivity|]. exfalso. destruct ST as ((NE & _ & IN) & _).
      assert (NB := NE b (or_introl eq_refl)). destruct b as [|x b]; [congruence|]. assert (H : In x (List.concat ((x :: b) :: p))) by now left.
      apply IN in H. lia. }
    subst p. cbn. unfold crp_probability. cbn. destruct (eq_dec [] []) as [_|N]; [lra|congruence].
  - destruct (std_from n p ST) as (q0 & i0 & ST0 & L0 & ->). rewrite partition_snoc, expect_sobind.
    rewrite (expect_always _ (fun r => exists p, r = Ok p /\ std n p) _
      (fun r => (qr (nth i0 (weights_of alpha q0) 0%Qc) / (qr alpha + INR n)) * is_outcome q0 r)%R).
    + rewrite expect_scale, IH by assumption. rewrite (crp_probability_step (qr alpha) n q0 i0 A ST0 L0 (std_length n q0 ST0)).
      assert (EW : qr (nth i0 (weights_of alpha q0) 0%Qc) = if Nat.ltb i0 (List.length q0) then INR (List.length (nth i0 q0 [])) else qr alpha).
      { unfold weights_of. destruct (Nat.ltb i0 (List.length q0)) eqn:E.
        - apply Nat.ltb_lt in E. rewrite app_nth1 by (rewrite map_length; exact E).
          rewrite (nth_indep _ 0%Qc (qz (Z.of_nat (List.length (@nil Z))))) by (rewrite map_length; exact E).
          rewrite (map_nth (fun b : list Z => qz (Z.of_nat (List.length b)))), qr_qz, <- INR_IZR_INZ. reflexivity.
        - apply Nat.ltb_ge in E. rewrite app_nth2 by (rewrite map_length; exact E). rewrite map_length. replace (i0 - List.length q0)%nat with 0%nat by lia. reflexivity. }
      rewrite EW. lra.
    + apply partition_finite.
    + apply partition_total. exact A.
    + intros r (q & -> & STq). rewrite (step_chance alpha n q q0 i0 A STq ST0 L0). cbn [is_outcome]. destruct (eq_dec q q0); lra.
Qed.
