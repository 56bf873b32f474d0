(** Ensembles: proofs about dependence matrices. *)
From Coq Require Import List ZArith QArith Qcanon Reals Bool String Permutation Lia.
From Verif Require Import Base Xr Samp Lgamma Prims Cgpm Lib SpecPrims PrimsInv SpecComp SpecBook SpecTable Table
  Walks SpecWalks WalksThm CompInv CompDens Trans Meta MetaThm Views SpecViews ViewsThm Ensemble SpecEnsemble.
Import ListNotations.
Local Open Scope Z_scope.

Lemma nth_set_nth : forall {A} (d : A) (l : list A) i j x, (i < List.length l)%nat ->
  nth j (set_nth i x l) d = if Nat.eqb i j then x else nth j l d.
Proof.
  intros A d. induction l as [|a l IH]; intros [|i] [|j] x L; cbn in *; try lia; try reflexivity.
  apply IH. lia.
Qed.

Lemma set_nth_len : forall {A} (l : list A) i x, List.length (set_nth i x l) = List.length l.
Proof. intros A. induction l as [|a l IH]; intros [|i] x; cbn; auto. Qed.

Lemma set_nth_in : forall {A} (l : list A) i x y, In y (set_nth i x l) -> y = x \/ In y l.
Proof. intros A. induction l as [|a l IH]; intros [|i] x y; cbn; intros H; intuition. destruct (IH i x y H0); intuition. Qed.

Lemma square_row : forall n M i, square n M -> (i < n)%nat -> List.length (nth i M []) = n.
Proof. intros n M i [L R] H. apply R. apply nth_In. lia. Qed.

Lemma put_square : forall n M i j x, square n M -> (i < n)%nat -> square n (set_nth i (set_nth j x (nth i M [])) M).
Proof.
  intros n M i j x S L. pose proof (square_row n M i S L) as R. destruct S as [S1 S2]. split; [now rewrite set_nth_len|].
  intros r H. apply set_nth_in in H as [->|H]; [now rewrite set_nth_len|auto].
Qed.

Lemma put_entry : forall n M i j x a b, square n M -> (i < n)%nat -> (j < n)%nat ->
  entry (set_nth i (set_nth j x (nth i M [])) M) a b = if Nat.eqb i a && Nat.eqb j b then x else entry M a b.
Proof.
  intros n M i j x a b S Li Lj. unfold entry. rewrite nth_set_nth by (destruct S; lia).
  destruct (Nat.eqb_spec i a) as [->|N]; cbn [andb]; [|reflexivity].
  rewrite nth_set_nth by (rewrite (square_row n); auto). destruct (Nat.eqb j b); reflexivity.
Qed.

Lemma mset_square : forall n M i j d, square n M -> (i < n)%nat -> (j < n)%nat -> square n (mset i j d M).
Proof. intros. unfold mset. cbv zeta. apply put_square; auto. apply put_square; auto. Qed.

Lemma mset_entry : forall n M i j d a b, square n M -> (i < n)%nat -> (j < n)%nat ->
  entry (mset i j d M) a b =
  if (Nat.eqb i a && Nat.eqb j b) || (Nat.eqb j a && Nat.eqb i b) then (if d then 1 else 0) else entry M a b.
Proof.
  intros n M i j d a b S Li Lj. unfold mset. cbv zeta. rewrite (put_entry n); auto using put_square.
  rewrite (put_entry n) by auto. destruct (Nat.eqb j a && Nat.eqb i b); [now rewrite orb_true_r|]. rewrite orb_false_r. reflexivity.
Qed.

Lemma nth_seq_map : forall {A} (f : nat -> A) n i d, (i < n)%nat -> nth i (map f (seq 0 n)) d = f i.
Proof.
  intros A f n i d L. rewrite (nth_indep _ d (f O)) by (rewrite map_length, seq_length; exact L).
  rewrite map_nth, seq_nth by exact L. reflexivity.
Qed.

Lemma eye_square : forall n, square n (eye n).
Proof.
  intros n. split; [unfold eye; now rewrite map_length, seq_length|].
  intros r H. unfold eye in H. apply in_map_iff in H as (i & <- & _). now rewrite map_length, seq_length.
Qed.

Lemma eye_entry : forall n i j, (i < n)%nat -> (j < n)%nat -> entry (eye n) i j = if Nat.eqb i j then 1 else 0.
Proof. intros n i j Li Lj. unfold entry, eye. rewrite nth_seq_map by exact Li. rewrite nth_seq_map by exact Lj. reflexivity. Qed.

(** ** The loop over the pairs *)

Lemma enum_keys : forall (l : list Z) n, map fst (map (fun p : nat * Z => (snd p, fst p)) (enum_from n l)) = l.
Proof. induction l as [|a l IH]; intros n; cbn; [reflexivity|]. now rewrite IH. Qed.

Lemma enum_lookup : forall (l : list Z) n i a, NoDup l -> nth_error l i = Some a ->
  lookup a (map (fun p : nat * Z => (snd p, fst p)) (enum_from n l)) = Some (n + i)%nat.
Proof.
  induction l as [|b l IH]; intros n [|i] a ND E; cbn in E; try discriminate.
  - injection E as ->. cbn. destruct (eq_dec a a); [|congruence]. f_equal. lia.
  - inversion ND as [|? ? NI ND']; subst. cbn [enum_from map lookup fst snd]. destruct (eq_dec a b) as [->|NE].
    + exfalso. apply NI. eapply nth_error_In; eauto.
    + rewrite (IH (S n) i a ND' E). f_equal. lia.
Qed.

Lemma reindex_lookup : forall l i a, NoDup l -> nth_error l i = Some a ->
  dget a (dict_of (map (fun p : nat * Z => (snd p, fst p)) (enum_from 0 l))) = Ok i.
Proof.
  intros l i a ND E. rewrite dict_of_NoDup by (unfold keys; rewrite enum_keys; exact ND).
  unfold dget. rewrite (enum_lookup l O i a ND E). reflexivity.
Qed.

Lemma combinations2_in : forall l a b, In (a, b) (combinations2 l) -> In a l /\ In b l.
Proof.
  induction l as [|x l IH]; intros a b H; cbn in H; [contradiction|]. apply in_app_or in H as [H|H].
  - apply in_map_iff in H as (j & E & H). injection E as <- <-. cbn. auto.
  - destruct (IH a b H). cbn. auto.
Qed.

Lemma combinations2_neq : forall l a b, NoDup l -> In (a, b) (combinations2 l) -> a <> b.
Proof.
  induction l as [|x l IH]; intros a b ND H; cbn in H; [contradiction|]. inversion ND as [|? ? NI ND']; subst.
  apply in_app_or in H as [H|H]; [|eapply IH; eauto].
  apply in_map_iff in H as (j & E & H). injection E as <- <-. intros ->. auto.
Qed.

Lemma combinations2_all : forall l i j a b, (i < j)%nat -> nth_error l i = Some a -> nth_error l j = Some b ->
  In (a, b) (combinations2 l).
Proof.
  induction l as [|x l IH]; intros i j a b L E1 E2; [destruct i; discriminate|].
  destruct j as [|j]; [lia|]. cbn [nth_error] in E2. cbn [combinations2]. apply in_or_app. destruct i as [|i]; cbn in E1.
  - left. injection E1 as ->. apply (in_map (fun j => (a, j))). eapply nth_error_In; eauto.
  - right. apply (IH i j); auto. lia.
Qed.

Section loop.
Variable l : list Z.
Variable same : Z -> Z -> out bool.
Variable related : Z -> Z -> Prop.
Hypothesis ND : NoDup l.
Hypothesis same_ok : forall a b, In a l -> In b l -> exists d, same a b = Ok d /\ (d = true <-> related a b).
Hypothesis related_sym : forall a b, related a b -> related b a.

Let reindex := dict_of (map (fun p : nat * Z => (snd p, fst p)) (enum_from 0 l)).
Let body := fun (acc : out (list (list Z))) (p : Z * Z) =>
  do matrix <- acc;
  do d <- same (fst p) (snd p);
  do i <- dget (fst p) reindex;
  do j <- dget (snd p) reindex;
  Ok (mset i j d matrix).

(** After the pairs [done], entries of other pairs are those of the unit matrix. *)
Let inv (done : list (Z * Z)) (M : list (list Z)) : Prop :=
  square (List.length l) M /\
  forall i j a b, nth_error l i = Some a -> nth_error l j = Some b ->
    (In (a, b) done \/ In (b, a) done -> (entry M i j = 1 /\ related a b) \/ (entry M i j = 0 /\ ~ related a b)) /\
    (~ In (a, b) done -> ~ In (b, a) done -> entry M i j = if Nat.eqb i j then 1 else 0).

Lemma loop_inv : forall rest done M, (forall a b, In (a, b) rest -> In a l /\ In b l) -> inv done M ->
  exists M', fold_left body rest (Ok M) = Ok M' /\ inv (done ++ rest) M'.
Proof.
  induction rest as [|[a b] rest IH]; intros done M HR HI.
  - exists M. split; [reflexivity|]. now rewrite app_nil_r.
  - cbn [fold_left]. destruct (HR a b (or_introl eq_refl)) as [Ha Hb].
    destruct (same_ok a b Ha Hb) as (d & Ed & Hd).
    apply In_nth_error in Ha as [i Ei]. apply In_nth_error in Hb as [j Ej].
    unfold body at 2. cbn [obind fst snd]. rewrite Ed. cbn [obind]. unfold reindex.
    rewrite (reindex_lookup l i a ND Ei). cbn [obind]. rewrite (reindex_lookup l j b ND Ej). cbn [obind].
    destruct HI as [SQ HI].
    assert (Li : (i < List.length l)%nat) by (apply nth_error_Some; congruence).
    assert (Lj : (j < List.length l)%nat) by (apply nth_error_Some; congruence).
    assert (INV : inv (done ++ [(a, b)]) (mset i j d M)).
    { split; [apply mset_square; auto|]. intros i' j' a' b' E1 E2.
      rewrite (mset_entry (List.length l)) by auto.
      assert (INJ : forall k k' x, nth_error l k = Some x -> nth_error l k' = Some x -> k = k').
      { intros k k' x K1 K2. eapply (proj1 (NoDup_nth_error l) ND); [apply nth_error_Some; congruence|congruence]. }
      destruct ((Nat.eqb i i' && Nat.eqb j j') || (Nat.eqb j i' && Nat.eqb i j')) eqn:B.
      - split.
        + intros _. apply orb_true_iff in B as [B|B]; apply andb_true_iff in B as [B1 B2];
            apply Nat.eqb_eq in B1; apply Nat.eqb_eq in B2; subst.
          * assert (a' = a) by congruence. assert (b' = b) by congruence. subst.
            destruct d; [left; split; [reflexivity|now apply Hd]|right; split; [reflexivity|]]. intros R. apply Hd in R. discriminate.
          * assert (a' = b) by congruence. assert (b' = a) by congruence. subst.
            destruct d; [left; split; [reflexivity|now apply related_sym, Hd]|right; split; [reflexivity|]].
            intros R. apply related_sym, Hd in R. discriminate.
        + intros N1 N2. exfalso. apply orb_true_iff in B as [B|B]; apply andb_true_iff in B as [B1 B2];
            apply Nat.eqb_eq in B1; apply Nat.eqb_eq in B2; subst.
          * apply N1. apply in_or_app. right. left. congruence.
          * apply N2. apply in_or_app. right. left. congruence.
      - assert (NE : (a', b') <> (a, b) /\ (b', a') <> (a, b)).
        { apply orb_false_iff in B as [B1 B2]. split; intros E; injection E as -> ->.
          - rewrite (INJ i i' a), (INJ j j' b), !Nat.eqb_refl in B1 by assumption. discriminate.
          - rewrite (INJ j i' b), (INJ i j' a), !Nat.eqb_refl in B2 by assumption. discriminate. }
        destruct (HI i' j' a' b' E1 E2) as [H1 H2]. split.
        + intros [H|H]; apply in_app_or in H as [H|[H|[]]]; try (destruct NE; congruence); apply H1; auto.
        + intros N1 N2. apply H2; intros H; [apply N1|apply N2]; apply in_or_app; auto. }
    destruct (IH (done ++ [(a, b)]) (mset i j d M)) as (M' & E & I'); [intros; apply HR; right; assumption|exact INV|].
    exists M'. split; [exact E|]. rewrite <- app_assoc in I'. exact I'.
Qed.

Lemma pairwise_spec : (forall a, In a l -> related a a) -> (forall a b c, related a b -> related b c -> related a c) ->
  exists M, pairwise l same = Ok M /\ equivalence_matrix (List.length l) M /\ indicates l related M.
Proof.
  intros RR RT. destruct (loop_inv (combinations2 l) [] (eye (List.length l))) as (M & E & SQ & H).
  - apply combinations2_in.
  - split; [apply eye_square|]. intros i j a b E1 E2. split; [intros [[]|[]]|]. intros _ _. apply eye_entry; apply nth_error_Some; congruence.
  - exists M. split; [exact E|]. cbn [app] in H.
    assert (K : forall i j a b, nth_error l i = Some a -> nth_error l j = Some b ->
       (entry M i j = 1 /\ related a b) \/ (entry M i j = 0 /\ ~ related a b)).
    { intros i j a b E1 E2. destruct (H i j a b E1 E2) as [H1 H2]. destruct (Nat.lt_trichotomy i j) as [L|[L|L]].
      - apply H1. left. eapply combinations2_all; eauto.
      - subst j. assert (b = a) by congruence. subst b. left. split; [|apply RR; eapply nth_error_In; eauto].
        rewrite H2, Nat.eqb_refl; [reflexivity| |]; intros N; exact (combinations2_neq l a a ND N eq_refl).
      - apply H1. right. eapply combinations2_all; eauto. }
    assert (G : forall i, (i < List.length l)%nat -> exists a, nth_error l i = Some a).
    { intros i L. destruct (nth_error l i) eqn:En; [eauto|]. apply nth_error_None in En. lia. }
    assert (IN : indicates l related M).
    { intros i j a b E1 E2. destruct (K i j a b E1 E2) as [[-> R]|[-> R]]; split; intros; auto; try discriminate; contradiction. }
    split; [|exact IN]. split; [exact SQ|]. split; [|split; [|split]].
    + intros i j Li Lj. destruct (G i Li) as [a Ea]. destruct (G j Lj) as [b Eb].
      destruct (K i j a b Ea Eb) as [[-> _]|[-> _]]; auto.
    + intros i Li. destruct (G i Li) as [a Ea]. apply (IN i i a a Ea Ea). apply RR. eapply nth_error_In; eauto.
    + intros i j Li Lj. destruct (G i Li) as [a Ea]. destruct (G j Lj) as [b Eb].
      destruct (K i j a b Ea Eb) as [[-> R1]|[-> R1]], (K j i b a Eb Ea) as [[-> R2]|[-> R2]]; auto; exfalso; auto.
    + intros i j k Li Lj Lk. destruct (G i Li) as [a Ea]. destruct (G j Lj) as [b Eb]. destruct (G k Lk) as [c Ec].
      rewrite (IN i j a b Ea Eb), (IN j k b c Eb Ec), (IN i k a c Ea Ec). apply RT.
Qed.
End loop.

(** An unknown item makes the loop fail. *)
Lemma fold_err : forall (l : list (Z * Z)) (body : out (list (list Z)) -> Z * Z -> out (list (list Z))) x,
  (forall p, body (Err x) p = Err x) -> fold_left body l (Err x) = Err x.
Proof. induction l as [|p l IH]; intros body x H; cbn; [reflexivity|]. rewrite H. auto. Qed.

Lemma dget_dset_some : forall (d : dict Z nat) k v a, (exists x, lookup a d = Some x) -> exists x, lookup a (dset k v d) = Some x.
Proof.
  intros d k v a [x E]. destruct (eq_dec a k) as [->|N].
  - exists v. apply lookup_dset_eq.
  - exists x. rewrite lookup_dset_neq; auto.
Qed.

Lemma reindex_total : forall (l : list Z) a, In a l -> exists i, dget a (dict_of (map (fun p : nat * Z => (snd p, fst p)) (enum_from 0 l))) = Ok i.
Proof.
  intros l a H. unfold dget, dict_of.
  assert (G : forall l n (d : dict Z nat), In a l \/ (exists x, lookup a d = Some x) ->
    exists x, lookup a (fold_left (fun d p => dset (fst p) (snd p) d) (map (fun p : nat * Z => (snd p, fst p)) (enum_from n l)) d) = Some x).
  { clear. induction l as [|b l IH]; intros n d H; cbn.
    - destruct H as [[]|H]; exact H.
    - apply IH. destruct H as [[->|H]|H]; [right|left; exact H|right; now apply dget_dset_some].
      exists n. apply lookup_dset_eq. }
  destruct (G l O [] (or_introl H)) as [x ->]. eauto.
Qed.

Lemma pairwise_error : forall l same x, 
  (forall a b, In a l -> In b l -> same a b = Err x \/ exists d, same a b = Ok d) ->
  (exists i j a b, (i < j)%nat /\ nth_error l i = Some a /\ nth_error l j = Some b /\ same a b = Err x) ->
  pairwise l same = Err x.
Proof.
  intros l same x T (i & j & a & b & L & E1 & E2 & E). pose proof (combinations2_all l i j a b L E1 E2) as H.
  unfold pairwise. cbv zeta. apply in_split in H as (p & q & H).
  assert (S : forall a b, In (a, b) p -> In a l /\ In b l).
  { intros a' b' H'. apply combinations2_in. rewrite H. apply in_or_app. auto. }
  rewrite H. rewrite fold_left_app. cbn [fold_left].
  match goal with |- fold_left ?B q _ = _ => set (body := B) end.
  assert (K : forall p acc, (forall a b, In (a, b) p -> In a l /\ In b l) -> acc = Err x \/ (exists M, acc = Ok M) ->
     fold_left body p acc = Err x \/ exists M, fold_left body p acc = Ok M).
  { clear - T. induction p as [|[a b] p IH]; intros acc S H; [exact H|]. cbn [fold_left]. apply IH; [intros; apply S; now right|].
    destruct H as [->|[M ->]]; [left; reflexivity|]. destruct (S a b (or_introl eq_refl)) as [Ha Hb].
    unfold body. cbn [obind fst snd]. destruct (T a b Ha Hb) as [->|[d ->]]; [left; reflexivity|]. cbn [obind].
    destruct (reindex_total l a Ha) as [i ->]. destruct (reindex_total l b Hb) as [j ->]. cbn [obind]. right. eauto. }
  destruct (K p (Ok (eye (List.length l))) S (or_intror (ex_intro _ _ eq_refl))) as [->|[M ->]].
  - apply fold_err. reflexivity.
  - cbn [obind fst snd]. rewrite E. cbn [obind]. apply fold_err. reflexivity.
Qed.

(** ** Outputs and the views they are in *)

Lemma index_keys : forall X n, map fst (flat_map (fun p : nat * cgpm => map (fun o => (o, fst p)) (outputs (snd p))) (enum_from n X)) = flat_map outputs X.
Proof.
  induction X as [|m X IH]; intros n; cbn; [reflexivity|]. rewrite map_app, IH. f_equal.
  rewrite map_map. cbn. apply map_id.
Qed.

Lemma index_lookup : forall X o i, NoDup (flat_map outputs X) ->
  (lookup o (output_to_index (CProd X)) = Some i <-> exists m, nth_error X i = Some m /\ In o (outputs m)).
Proof.
  intros X o i ND. unfold output_to_index. cbn [views_of]. rewrite dict_of_NoDup by (unfold keys; rewrite index_keys; exact ND).
  assert (ND' := ND). rewrite <- (index_keys X O) in ND'. split.
  - intros E. apply lookup_In in E. apply in_flat_map in E as ([k m] & H1 & H2). apply in_map_iff in H2 as (o' & E & H2).
    cbn in E, H2. injection E as -> ->. clear - H1 H2.
    assert (G : forall X n, In (i, m) (enum_from n X) -> exists j, i = (n + j)%nat /\ nth_error X j = Some m).
    { clear. induction X as [|m' X IH]; intros n H; cbn in H; [contradiction|]. destruct H as [E|H].
      - injection E as -> ->. exists O. split; [lia|reflexivity].
      - destruct (IH (S n) H) as (j & -> & E). exists (S j). split; [lia|exact E]. }
    destruct (G X O H1) as (j & -> & E). eauto.
  - intros (m & E & H). apply In_lookup; [exact ND'|]. apply in_flat_map. exists (i, m). split.
    + clear - E. assert (G : forall X n j, nth_error X j = Some m -> In ((n + j)%nat, m) (enum_from n X)).
      { clear. induction X as [|m' X IH]; intros n [|j] E; cbn in E; try discriminate; cbn.
        - left. injection E as ->. f_equal. lia.
        - right. replace (n + S j)%nat with (S n + j)%nat by lia. auto. }
      exact (G X O i E).
    + apply in_map_iff. exists o. auto.
Qed.

Lemma index_none : forall X o, NoDup (flat_map outputs X) -> ~ In o (flat_map outputs X) -> lookup o (output_to_index (CProd X)) = None.
Proof.
  intros X o ND N. destruct (lookup o (output_to_index (CProd X))) as [i|] eqn:E; [|reflexivity].
  apply index_lookup in E as (m & E & H); [|exact ND]. exfalso. apply N. apply in_flat_map. exists m. split; [|exact H].
  eapply nth_error_In; eauto.
Qed.

Lemma index_some : forall X o, NoDup (flat_map outputs X) -> In o (flat_map outputs X) ->
  exists i m, lookup o (output_to_index (CProd X)) = Some i /\ nth_error X i = Some m /\ In o (outputs m).
Proof.
  intros X o ND H. apply in_flat_map in H as (m & H & Ho). apply In_nth_error in H as [i E]. exists i, m.
  split; [|auto]. apply index_lookup; eauto.
Qed.

Lemma outputs_once : forall X o i j m m', NoDup (flat_map outputs X) -> nth_error X i = Some m -> In o (outputs m) ->
  nth_error X j = Some m' -> In o (outputs m') -> i = j.
Proof.
  intros X o i j m m' ND E H E' H'.
  assert (A : lookup o (output_to_index (CProd X)) = Some i) by (apply index_lookup; eauto).
  assert (B : lookup o (output_to_index (CProd X)) = Some j) by (apply index_lookup; eauto). congruence.
Qed.

Lemma same_column : forall X v w, NoDup (flat_map outputs X) -> In v (flat_map outputs X) -> In w (flat_map outputs X) ->
  exists d, same_assignment_column (CProd X) v w = Ok d /\ (d = true <-> same_view X v w).
Proof.
  intros X v w ND Hv Hw. unfold same_assignment_column, dget.
  destruct (index_some X v ND Hv) as (i & m & -> & E & H). destruct (index_some X w ND Hw) as (j & m' & -> & E' & H').
  cbn [obind]. eexists. split; [reflexivity|]. rewrite Nat.eqb_eq. split.
  - intros ->. exists m. split; [eapply nth_error_In; eauto|]. split; [exact H|]. congruence.
  - intros (n & Hn & Nv & Nw). apply In_nth_error in Hn as [k Ek].
    rewrite (outputs_once X v i k m n), (outputs_once X w j k m' n); auto.
Qed.

Lemma same_view_sym : forall X v w, same_view X v w -> same_view X w v.
Proof. intros X v w (m & H & A & B). exists m. auto. Qed.

Lemma same_view_trans : forall X v w u, NoDup (flat_map outputs X) -> same_view X v w -> same_view X w u -> same_view X v u.
Proof.
  intros X v w u ND (m & H & A & B) (m' & H' & A' & B'). apply In_nth_error in H as [i E]. apply In_nth_error in H' as [j E'].
  assert (i = j) by (eapply (outputs_once X w i j m m'); auto). subst j. assert (m' = m) by congruence. subst m'.
  exists m. split; [eapply nth_error_In; eauto|auto].
Qed.

Lemma column_pairwise_spec : forall X outs, crosscat X -> NoDup outs -> incl outs (flat_map outputs X) ->
  exists M, same_assignment_column_pairwise (CProd X) outs = Ok M /\
    equivalence_matrix (List.length outs) M /\ indicates outs (same_view X) M.
Proof.
  intros X outs [_ ND] NO HO. unfold same_assignment_column_pairwise. apply pairwise_spec; auto.
  - intros a b Ha Hb. apply same_column; auto.
  - apply same_view_sym.
  - intros a Ha. apply HO, in_flat_map in Ha as (m & H & Ha). exists m. auto.
  - intros a b c. apply same_view_trans. exact ND.
Qed.

Lemma column_pairwise_unknown : forall X outs o, crosscat X -> In o outs -> ~ In o (flat_map outputs X) -> (2 <= List.length outs)%nat ->
  same_assignment_column_pairwise (CProd X) outs = Err KeyError.
Proof.
  intros X outs o [_ ND] H N L. unfold same_assignment_column_pairwise.
  assert (T : forall a b, same_assignment_column (CProd X) a b = Err KeyError \/ exists d, same_assignment_column (CProd X) a b = Ok d).
  { intros a b. unfold same_assignment_column, dget. destruct (lookup a _); [|left; reflexivity]. destruct (lookup b _); [right; cbn; eauto|left; reflexivity]. }
  assert (NL : forall a, same_assignment_column (CProd X) o a = Err KeyError /\ same_assignment_column (CProd X) a o = Err KeyError).
  { intros a. unfold same_assignment_column, dget. rewrite (index_none X o ND N). split; [reflexivity|]. cbn. destruct (lookup a _); reflexivity. }
  apply pairwise_error; [auto|]. apply In_nth_error in H as [i E]. destruct i as [|i].
  - destruct (nth_error outs 1) as [b|] eqn:E1; [|apply nth_error_None in E1; lia].
    exists O, 1%nat, o, b. repeat split; auto. apply NL.
  - destruct (nth_error outs 0) as [b|] eqn:E1; [|apply nth_error_None in E1; lia].
    exists O, (S i), b, o. repeat split; auto; [lia|]. apply NL.
Qed.

(** ** Rows *)

Lemma seat_data : forall flex div arr r2c r, consistent (CMix flex div arr r2c) -> lookup r (dist_data div) = seat (CMix flex div arr r2c) r.
Proof. intros flex div arr r2c r (_ & _ & H & _). cbn. apply H. Qed.

Lemma same_row : forall X m o r r', crosscat X -> In m X -> In o (outputs m) ->
  same_assignment_row (CProd X) o r r' =
  match seat m r, seat m r' with Some k, Some k' => Ok (eqb k k') | _, _ => Err KeyError end.
Proof.
  intros X m o r r' [G ND] H Ho. apply In_nth_error in H as [i E].
  unfold same_assignment_row, dget, view_at.
  rewrite (proj2 (index_lookup X o i ND)) by eauto. cbn [obind views_of]. rewrite E. cbn [obind].
  destruct (G m (nth_error_In _ _ E)) as (_ & SH & CO).
  destruct m as [| | | |flex div arr r2c]; try contradiction.
  rewrite !(seat_data flex div arr r2c _ CO). destruct (seat _ r); cbn [obind]; [|reflexivity].
  destruct (seat _ r'); reflexivity.
Qed.

Lemma view_rows : forall X m, crosscat X -> In m X -> exists rows, get_rowids m = Ok rows /\ NoDup rows /\ forall r, In r rows <-> seat m r <> None.
Proof.
  intros X m [G ND] H. destruct (G m H) as (GR & SH & CO). destruct m as [| | | |flex div arr r2c]; try contradiction.
  cbn [get_rowids]. eexists. split; [reflexivity|]. split.
  - apply grown_wf in GR. destruct (wf_mix _ _ _ _ GR) as (D & _). apply D.
  - intros r. rewrite <- (seat_data flex div arr r2c r CO). rewrite lookup_None. destruct (in_dec Z.eq_dec r (keys (dist_data div))); tauto.
Qed.

Lemma row_pairwise_spec : forall X m o, crosscat X -> In m X -> In o (outputs m) ->
  exists rows M, get_rowids m = Ok rows /\ NoDup rows /\ (forall r, In r rows <-> seat m r <> None) /\
    same_assignment_row_pairwise (CProd X) o = Ok M /\
    equivalence_matrix (List.length rows) M /\ indicates rows (fun r r' => seat m r = seat m r') M.
Proof.
  intros X m o HX H Ho. destruct (view_rows X m HX H) as (rows & ER & NR & HR). exists rows.
  destruct (pairwise_spec rows (same_assignment_row (CProd X) o) (fun r r' => seat m r = seat m r')) as (M & E & EQ & IN); auto.
  - intros a b Ha Hb. rewrite (same_row X m o) by auto. apply HR in Ha. apply HR in Hb.
    destruct (seat m a) as [k|]; [|congruence]. destruct (seat m b) as [k'|]; [|congruence].
    eexists. split; [reflexivity|]. unfold eqb. destruct (eq_dec k k') as [->|N]; split; intros; auto; congruence.
  - intros a b c A B. congruence.
  - exists M. do 3 (split; [assumption|]). split; [|auto]. unfold same_assignment_row_pairwise, dget, view_at.
    apply In_nth_error in H as [i E']. destruct HX as [G ND]. rewrite (proj2 (index_lookup X o i ND)) by eauto.
    cbn [obind views_of]. rewrite E'. cbn [obind]. rewrite ER. exact E.
Qed.

Lemma row_pairwise_unknown : forall X o, crosscat X -> ~ In o (flat_map outputs X) ->
  same_assignment_row_pairwise (CProd X) o = Err KeyError.
Proof. intros X o [_ ND] N. unfold same_assignment_row_pairwise, dget. rewrite (index_none X o ND N). reflexivity. Qed.
