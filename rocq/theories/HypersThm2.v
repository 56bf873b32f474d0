(** Proofs about the grids of hyperparameters, and about the components of one column. *)
From Coq Require Import List ZArith QArith Qcanon Qround Qreals Reals Bool String Permutation Lia Lra.
From Coq Require Import Relations.Relation_Operators.
From Verif Require Import Base Xr Samp Lgamma Prims Cgpm Lib SpecPrims PrimsInv PrimsDens PrimsThm PrimsThm2
  SpecComp CompInv CompDens SimLaw CompThm SpecBook Book Gibbs ChainLaw Walks SpecWalks WalksThm Hypers SpecHypers HypersThm Crosscat.
Import ListNotations.
Local Open Scope Z_scope.

(** ** Grids *)

Lemma qr_nq : forall n, qr (nq n) = INR n.
Proof. intros n. unfold nq. rewrite qr_qz, <- INR_IZR_INZ. reflexivity. Qed.

Lemma len_or_ge : forall X n, (1 <= n)%nat -> (1 <= qr (len_or X n))%R.
Proof.
  intros X n H. destruct X as [|x X]; unfold len_or; rewrite qr_nq; change 1%R with (INR 1); apply le_INR; [exact H|cbn [List.length]; lia].
Qed.

Lemma linspace_length : forall a b n, List.length (linspace a b n) = n.
Proof. intros a b [|[|n]]; try reflexivity. unfold linspace. rewrite map_length, seq_length. reflexivity. Qed.

Lemma linspace_ge : forall a b n x, (qr a <= qr b)%R -> In x (linspace a b n) -> (qr a <= qr x)%R.
Proof.
  intros a b [|[|n]] x AB H; [destruct H|destruct H as [<-|[]]; lra|]. unfold linspace in H. apply in_map_iff in H. destruct H as (i & <- & _).
  assert (PN : (0 < INR (S n))%R) by (apply lt_0_INR; lia).
  assert (NZ : nq (S n) <> 0%Qc) by (intros E; apply (f_equal qr) in E; rewrite qr_nq, qr_0 in E; lra).
  rewrite qr_add, qr_mul, qr_div, qr_sub, !qr_nq by exact NZ.
  assert (0 <= INR i)%R by apply pos_INR. assert (0 <= (qr b - qr a) / INR (S n))%R by (apply Rmult_le_pos; [lra|apply Rlt_le, Rinv_0_lt_compat; exact PN]).
  assert (0 <= INR i * ((qr b - qr a) / INR (S n)))%R by (apply Rmult_le_pos; assumption). lra.
Qed.

Lemma round_even_ge : forall q z, (IZR z <= qr q)%R -> (IZR z <= qr (round_even q))%R.
Proof.
  intros q z H. unfold round_even. assert (F : (z <= Qfloor q)).
  { apply Z.le_trans with (Qfloor (inject_Z z)); [rewrite Qfloor_Z; lia|]. apply Qfloor_resp_le. apply Rle_Qle.
    rewrite <- (qr_qz z) in H. unfold qr, qz in H. cbn [this Q2Qc] in H. rewrite (Qeq_eqR _ _ (Qred_correct (inject_Z z))) in H. exact H. }
  rewrite qr_qz. apply IZR_le. match goal with |- context [if ?b then _ else _] => destruct b end; lia.
Qed.

Lemma unique_in : forall l x, In x (unique l) -> In x l.
Proof.
  induction l as [|y l IH]; intros x H; [destruct H|]. cbn [unique] in H. destruct H as [<-|H]; [now left|]. right. apply IH.
  apply filter_In in H. apply H.
Qed.

Lemma var_nonneg : forall X, (0 <= qr (var X))%R.
Proof.
  intros X. unfold var, mean at 1. set (l := map _ X).
  assert (P : forall x, In x l -> (0 <= qr x)%R).
  { intros x H. apply in_map_iff in H. destruct H as (y & <- & _). rewrite qr_mul. apply Rle_0_sqr. }
  assert (PS : (0 <= qr (fold_right Qcplus 0%Qc l))%R).
  { clearbody l. induction l as [|x l IH]; cbn [fold_right]; [rewrite qr_0; lra|]. rewrite qr_add.
    assert (0 <= qr x)%R by (apply P; now left). assert (0 <= qr (fold_right Qcplus 0%Qc l))%R by (apply IH; intros y Hy; apply P; now right). lra. }
  destruct (List.length l) as [|n] eqn:EL.
  - destruct l; [|discriminate]. replace (fold_right Qcplus 0%Qc [] / nq 0)%Qc with 0%Qc by (vm_compute; reflexivity). rewrite qr_0. lra.
  - assert (PN : (0 < INR (S n))%R) by (apply lt_0_INR; lia).
    rewrite qr_div by (intros E; apply (f_equal qr) in E; rewrite qr_nq, qr_0 in E; lra). rewrite qr_nq.
    apply Rmult_le_pos; [exact PS|]. apply Rlt_le, Rinv_0_lt_compat; exact PN.
Qed.

Lemma spaced_pos : forall f a b n x, spaced f -> (0 < qr a)%R -> (0 < qr b)%R -> In x (f a b n) -> (0 < qr x)%R.
Proof.
  intros f a b n x SP A B H. destruct (SP a b n A B) as [_ X]. specialize (X x H).
  assert (0 < Rmin (qr a) (qr b))%R by (apply Rmin_glb_lt; assumption). lra.
Qed.

Lemma spaced_some : forall f a b n, spaced f -> (0 < qr a)%R -> (0 < qr b)%R -> (1 <= n)%nat -> f a b n <> [].
Proof. intros f a b n SP A B N E. destruct (SP a b n A B) as [X _]. rewrite E in X. cbn in X. lia. Qed.

Lemma own_grids : forall f d X n, spaced f -> (1 <= n)%nat -> (forall s, d <> DNuc s) ->
  let gs := construct_hyper_grids f d X n in
  good_grids d gs /\ keys gs = hyper_names d /\ NoDup (keys gs).
Proof.
  intros f d X n SP N NU gs.
  assert (P : forall k, (1 <= k)%nat -> (0 < qr (len_or X k))%R /\ (0 < qr (/ len_or X k)%Qc)%R).
  { intros k Hk. assert (Y := len_or_ge X k Hk). split; [lra|].
    rewrite qr_inv by (intros E; apply (f_equal qr) in E; rewrite qr_0 in E; lra). apply Rinv_0_lt_compat. lra. }
  destruct (P 2%nat ltac:(lia)) as [P2 I2]. destruct (P 5%nat ltac:(lia)) as [P5 I5].
  assert (L : forall m, (1 <= n)%nat -> forall A (l : list A), List.length l = m -> m = n -> l <> []) by (intros m _ A l E1 E2 ->; cbn in E1; lia).
  destruct d as [s|s|s|s|s|s]; [| | | | |exfalso; apply (NU s); reflexivity].
  - split; [split|split; [reflexivity|repeat constructor; cbn; intuition discriminate]].
    + intros k [<-|[]]. apply spaced_some; auto.
    + intros k v [<-|[]] H. eapply spaced_pos; [exact SP| | |exact H]; auto.
  - split; [split|split; [reflexivity|repeat constructor; cbn; intuition discriminate]].
    + intros k [<-|[]]. apply spaced_some; auto.
    + intros k v [<-|[]] H. eapply spaced_pos; [exact SP| | |exact H]; auto.
  - split; [split|split; [reflexivity|repeat constructor; cbn; intuition discriminate]].
    + intros k [<-|[<-|[]]]; apply spaced_some; auto.
    + intros k v [<-|[<-|[]]] H; eapply spaced_pos; try exact H; auto.
  - assert (T : (0 < qr (Q2Qc (1 # 10)))%R) by (unfold qr; vm_compute; lra).
    split; [split|split; [reflexivity|repeat constructor; cbn; intuition discriminate]].
    + intros k [<-|[<-|[]]]; [|apply spaced_some; auto]. unfold grid_of, gs. cbn [construct_hyper_grids lookup]. destruct (eq_dec "a"%string "a"%string); [|congruence].
      assert (Y := linspace_length 1%Qc (len_or X 2) n). destruct (linspace 1%Qc (len_or X 2) n); [cbn in Y; lia|discriminate].
    + intros k v [<-|[<-|[]]] H; [|eapply spaced_pos; try exact H; auto].
      unfold grid_of, gs in H. cbn [construct_hyper_grids lookup] in H. destruct (eq_dec "a"%string "a"%string); [|congruence].
      apply unique_in in H. apply in_map_iff in H. destruct H as (q & <- & H).
      assert (Y : (IZR 1 <= qr (round_even q))%R); [|lra]. apply round_even_ge. rewrite <- qr_1. eapply linspace_ge; [|exact H].
      rewrite qr_1. apply len_or_ge. lia.
  - set (ssq := match X with [] => 1%Qc | _ => (var X * len_or X 5 + 1)%Qc end).
    assert (PS : (0 < qr ssq)%R).
    { unfold ssq. destruct X as [|x X0]; [rewrite qr_1; lra|]. rewrite qr_add, qr_mul, qr_1. assert (V := var_nonneg (x :: X0)).
      assert (0 <= qr (var (x :: X0)) * qr (len_or (x :: X0) 5))%R by (apply Rmult_le_pos; lra). lra. }
    assert (PD : (0 < qr (ssq / nq 100)%Qc)%R).
    { rewrite qr_div, qr_nq by (intros E; apply (f_equal qr) in E; rewrite qr_nq, qr_0 in E; cbn in E; lra).
      apply Rdiv_lt_0_compat; [exact PS|]. apply lt_0_INR. lia. }
    assert (P1 : (0 < qr 1%Qc)%R) by (rewrite qr_1; lra).
    split; [split|split; [reflexivity|repeat constructor; cbn; intuition discriminate]].
    + intros k [<-|[<-|[<-|[<-|[]]]]]; [|apply spaced_some; auto|apply (spaced_some f (ssq / nq 100)%Qc ssq); auto|apply spaced_some; auto].
      unfold grid_of, gs. cbn [construct_hyper_grids lookup]. destruct (eq_dec "m"%string "m"%string); [|congruence].
      intros E. apply (f_equal (@List.length Qc)) in E. rewrite linspace_length in E. cbn in E. lia.
    + intros k v [<-|[<-|[<-|[]]]] H.
      * eapply spaced_pos; try exact H; auto.
      * apply (spaced_pos f (ssq / nq 100)%Qc ssq n); auto.
      * eapply spaced_pos; try exact H; auto.
Qed.

(** ** The components of one column *)

Lemma class_sym : forall d d', same_class d d' = same_class d' d.
Proof. intros d d'. destruct d, d'; reflexivity. Qed.

Lemma own_hypers_good : forall d, dinv d -> (forall s, d <> DNuc s) -> good_hypers d (dist_get_hypers d) /\ keys (dist_get_hypers d) = hyper_names d.
Proof.
  intros d (_ & _ & _ & HP) NU. split; [|destruct d; try reflexivity; exfalso; eapply NU; reflexivity].
  split.
  - intros k H. destruct d; cbn in H; decompose [or] H; try contradiction; subst k; try (eexists; reflexivity); exfalso; eapply NU; reflexivity.
  - intros k v H L. destruct d; cbn in H, HP; decompose [or] H; try contradiction; subst k; cbn in L; try (injection L as <-; tauto);
      exfalso; eapply NU; reflexivity.
Qed.

(** ** Writing the components of a column back *)

Definition rts := clos_refl_trans cgpm retuned.

Lemma rts_lift : forall (f : cgpm -> cgpm) c c', (forall a b, retuned a b -> retuned (f a) (f b)) -> rts c c' -> rts (f c) (f c').
Proof.
  intros f c c' H T. induction T as [a b T|a|a b d T1 IH1 T2 IH2]; [apply rt_step; auto|apply rt_refl|eapply rt_trans; eauto].
Qed.

Lemma rts_adjusted : forall d d', adjusted d d' -> rts (CDist d) (CDist d').
Proof. intros d d' [->|[h ->]]; [apply rt_refl|]. apply rt_step. apply rt_hypers. Qed.

Lemma rts_list : forall (f : list cgpm -> cgpm) l l', (forall a c c' b, retuned c c' -> retuned (f (a ++ c :: b)) (f (a ++ c' :: b))) ->
  Forall2 rts l l' -> forall pre, rts (f (pre ++ l)) (f (pre ++ l')).
Proof.
  intros f l l' H F. induction F as [|c c' l l' T F IH]; intros pre; [apply rt_refl|].
  apply rt_trans with (f (pre ++ c' :: l)); [apply (rts_lift (fun x => f (pre ++ x :: l))); auto|].
  specialize (IH (pre ++ [c'])). rewrite <- !app_assoc in IH. exact IH.
Qed.

Lemma rts_dict : forall (f : dict val cgpm -> cgpm) l l', (forall a k c c' b, retuned c c' -> retuned (f (a ++ (k, c) :: b)) (f (a ++ (k, c') :: b))) ->
  Forall2 (fun p q => fst p = fst q /\ rts (snd p) (snd q)) l l' -> forall pre, rts (f (pre ++ l)) (f (pre ++ l')).
Proof.
  intros f l l' H F. induction F as [|[k c] [k' c'] l l' (E & T) F IH]; intros pre; [apply rt_refl|]. cbn [fst snd] in *. subst k'.
  apply rt_trans with (f (pre ++ (k, c') :: l)); [apply (rts_lift (fun x => f (pre ++ (k, x) :: l))); auto|].
  specialize (IH (pre ++ [(k, c')])). rewrite <- !app_assoc in IH. exact IH.
Qed.

(** The loops of [put_column]. *)
Definition put_prod (o : Z) := fix go (cs : list cgpm) (ds : list dist) : list cgpm * list dist :=
  match cs with
  | [] => ([], ds)
  | c :: cs' =>
    let (c1, ds1) := (if memb o (outputs c) then put_column o c ds else (c, ds)) in
    let (cs1, ds2) := go cs' ds1 in (c1 :: cs1, ds2)
  end.
Definition put_list (o : Z) := fix go (cs : list cgpm) (ds : list dist) : list cgpm * list dist :=
  match cs with
  | [] => ([], ds)
  | c :: cs' => let (c1, ds1) := put_column o c ds in let (cs1, ds2) := go cs' ds1 in (c1 :: cs1, ds2)
  end.
Definition put_dict (o : Z) := fix go (cs : dict val cgpm) (ds : list dist) : dict val cgpm * list dist :=
  match cs with
  | [] => ([], ds)
  | (k, c) :: cs' => let (c1, ds1) := put_column o c ds in let (cs1, ds2) := go cs' ds1 in ((k, c1) :: cs1, ds2)
  end.

Definition puts (o : Z) (c : cgpm) : Prop := forall ds, get_cgpms_by_output_index c o = Ok ds -> forall ds' extra, Forall2 adjusted ds ds' ->
  exists c', put_column o c (ds' ++ extra) = (c', extra) /\ rts c c' /\ outputs c' = outputs c /\
    get_cgpms_by_output_index c' o = Ok ds' /\ (forall o2, o2 <> o -> get_cgpms_by_output_index c' o2 = get_cgpms_by_output_index c o2) /\ tuned_at o c c'.

Lemma put_prod_skip : forall o l ds, (forall c, In c l -> memb o (outputs c) = false) -> put_prod o l ds = (l, ds).
Proof.
  intros o. induction l as [|c l IH]; intros ds H; [reflexivity|]. cbn [put_prod]. rewrite (H c (or_introl eq_refl)).
  change ((fix go (cs : list cgpm) (ds : list dist) : list cgpm * list dist := _) l ds) with (put_prod o l ds).
  rewrite IH by (intros x Hx; apply H; now right). reflexivity.
Qed.

Lemma filter_one : forall {A} (f : A -> bool) l x, filter f l = [x] -> exists a b, l = a ++ x :: b /\ f x = true /\
  (forall y, In y a -> f y = false) /\ (forall y, In y b -> f y = false).
Proof.
  intros A f. induction l as [|y l IH]; intros x E; [discriminate|]. cbn [filter] in E. destruct (f y) eqn:Fy.
  - injection E as -> E. exists [], l. split; [reflexivity|]. split; [exact Fy|]. split; [intros z []|]. intros z Hz.
    destruct (f z) eqn:Fz; [|reflexivity]. exfalso. assert (X : In z (filter f l)) by (apply filter_In; auto). rewrite E in X. destruct X.
  - destruct (IH x E) as (a & b & -> & Fx & Ha & Hb). exists (y :: a), b. split; [reflexivity|]. split; [exact Fx|]. split; [|exact Hb].
    intros z [<-|Hz]; auto.
Qed.

Lemma F2_split : forall {A B} (R : A -> B -> Prop) l1 l2 l, Forall2 R (l1 ++ l2) l -> exists k1 k2, l = k1 ++ k2 /\ Forall2 R l1 k1 /\ Forall2 R l2 k2.
Proof. intros A B R l1 l2 l H. apply Forall2_app_inv_l in H. destruct H as (k1 & k2 & A1 & A2 & ->). exists k1, k2. auto. Qed.

Lemma put_list_ok : forall o cs, (forall c, In c cs -> puts o c) -> forall ls, oseq (map (fun c => get_cgpms_by_output_index c o) cs) = Ok ls ->
  forall ds' extra, Forall2 adjusted (List.concat ls) ds' -> exists cs', put_list o cs (ds' ++ extra) = (cs', extra) /\ Forall2 rts cs cs' /\
    Forall2 (fun c c' => outputs c' = outputs c) cs cs' /\
    omap (@List.concat dist) (oseq (map (fun c => get_cgpms_by_output_index c o) cs')) = Ok ds' /\
    (forall o2, o2 <> o -> map (fun c => get_cgpms_by_output_index c o2) cs' = map (fun c => get_cgpms_by_output_index c o2) cs) /\ Forall2 (tuned_at o) cs cs'.
Proof.
  intros o. induction cs as [|c cs IH]; intros H ls E ds' extra F.
  - cbn in E. injection E as <-. cbn in F. inversion F; subst. exists []. repeat split; try constructor.
  - cbn [map oseq] in E. destruct (get_cgpms_by_output_index c o) as [l|e] eqn:Ec; cbn [obind] in E; [|discriminate].
    destruct (oseq (map (fun c => get_cgpms_by_output_index c o) cs)) as [ls'|e] eqn:El; cbn [obind] in E; [|discriminate]. injection E as <-.
    cbn [List.concat] in F. destruct (F2_split _ _ _ _ F) as (k1 & k2 & -> & F1 & F2). rewrite <- app_assoc.
    destruct (H c (or_introl eq_refl) l Ec k1 (k2 ++ extra) F1) as (c' & P1 & P2 & P3 & P4 & P5 & P6).
    destruct (IH (fun x Hx => H x (or_intror Hx)) ls' eq_refl k2 extra F2) as (cs' & Q1 & Q2 & Q3 & Q4 & Q5 & Q6).
    exists (c' :: cs'). cbn [put_list]. rewrite P1. change ((fix go (cs : list cgpm) (ds : list dist) : list cgpm * list dist := _) cs (k2 ++ extra)) with (put_list o cs (k2 ++ extra)).
    rewrite Q1. split; [reflexivity|]. split; [constructor; assumption|]. split; [constructor; assumption|]. split.
    + cbn [map oseq]. rewrite P4. cbn [obind]. destruct (oseq (map (fun c => get_cgpms_by_output_index c o) cs')) as [z|e]; [|discriminate].
      cbn [omap obind] in *. injection Q4 as <-. reflexivity.
    + split; [|constructor; auto]. intros o2 N. cbn [map]. rewrite P5, Q5 by exact N. reflexivity.
Qed.

Lemma put_dict_ok : forall o (cs : dict val cgpm), (forall k c, In (k, c) cs -> puts o c) ->
  forall ls, oseq (map (fun p : val * cgpm => let '(_, c) := p in get_cgpms_by_output_index c o) cs) = Ok ls ->
  forall ds' extra, Forall2 adjusted (List.concat ls) ds' -> exists cs', put_dict o cs (ds' ++ extra) = (cs', extra) /\
    Forall2 (fun p q => fst p = fst q /\ rts (snd p) (snd q)) cs cs' /\
    omap (@List.concat dist) (oseq (map (fun p : val * cgpm => let '(_, c) := p in get_cgpms_by_output_index c o) cs')) = Ok ds' /\
    (forall o2, o2 <> o -> map (fun p : val * cgpm => let '(_, c) := p in get_cgpms_by_output_index c o2) cs' =
                           map (fun p : val * cgpm => let '(_, c) := p in get_cgpms_by_output_index c o2) cs) /\
    Forall2 (fun p q => fst p = fst q /\ tuned_at o (snd p) (snd q)) cs cs'.
Proof.
  intros o. induction cs as [|[k c] cs IH]; intros H ls E ds' extra F.
  - cbn in E. injection E as <-. cbn in F. inversion F; subst. exists []. repeat split; try constructor.
  - cbn [map oseq] in E. destruct (get_cgpms_by_output_index c o) as [l|e] eqn:Ec; cbn [obind] in E; [|discriminate].
    destruct (oseq (map (fun p : val * cgpm => let '(_, c) := p in get_cgpms_by_output_index c o) cs)) as [ls'|e] eqn:El; cbn [obind] in E; [|discriminate]. injection E as <-.
    cbn [List.concat] in F. destruct (F2_split _ _ _ _ F) as (k1 & k2 & -> & F1 & F2). rewrite <- app_assoc.
    destruct (H k c (or_introl eq_refl) l Ec k1 (k2 ++ extra) F1) as (c' & P1 & P2 & P3 & P4 & P5 & P6).
    destruct (IH (fun k' x Hx => H k' x (or_intror Hx)) ls' eq_refl k2 extra F2) as (cs' & Q1 & Q2 & Q4 & Q5 & Q6).
    exists ((k, c') :: cs'). cbn [put_dict]. rewrite P1. change ((fix go (cs : dict val cgpm) (ds : list dist) : dict val cgpm * list dist := _) cs (k2 ++ extra)) with (put_dict o cs (k2 ++ extra)).
    rewrite Q1. split; [reflexivity|]. split; [constructor; [split; [reflexivity|exact P2]|exact Q2]|]. split.
    + cbn [map oseq]. rewrite P4. cbn [obind].
      destruct (oseq (map (fun p : val * cgpm => let '(_, c) := p in get_cgpms_by_output_index c o) cs')) as [z|e]; [|discriminate].
      cbn [omap obind] in *. injection Q4 as <-. reflexivity.
    + split; [|constructor; auto]. intros o2 N. cbn [map]. rewrite P5, Q5 by exact N. reflexivity.
Qed.

Lemma adjusted_o : forall d d', adjusted d d' -> dist_o d' = dist_o d.
Proof. intros d d' A. apply adjusted_untouched in A. apply A. Qed.

Lemma put_dist : forall (o : Z) d ds' extra, Forall2 adjusted [d] ds' -> exists d', ds' = [d'] /\ ds' ++ extra = d' :: extra /\ adjusted d d' /\ dist_o d' = dist_o d.
Proof.
  intros o d ds' extra F. inversion F as [|? d' ? l A F']; subst. inversion F'; subst. exists d'. repeat split; auto. now apply adjusted_o.
Qed.

Lemma puts_all : forall o c, puts o c.
Proof.
  intros o. apply cgpm_ind_In.
  - intros d ds E ds' extra F. cbn [get_cgpms_by_output_index] in E. cbn [put_column]. destruct (dist_o d =? o) eqn:Eo; injection E as <-.
    + destruct (put_dist o d ds' extra F) as (d' & -> & -> & A & O'). exists (CDist d').
      split; [reflexivity|]. split; [now apply rts_adjusted|]. cbn [outputs get_cgpms_by_output_index]. rewrite O', Eo. split; [reflexivity|]. split; [reflexivity|].
      apply Z.eqb_eq in Eo. split; [|apply tn_dist; [exact Eo|now apply adjusted_untouched]].
      intros o2 N. destruct (Z.eqb_spec (dist_o d) o2); [congruence|reflexivity].
    + inversion F; subst. exists (CDist d). cbn [app]. split; [reflexivity|]. split; [apply rt_refl|]. split; [reflexivity|].
      cbn [get_cgpms_by_output_index]. rewrite Eo. split; [reflexivity|]. split; [auto|apply tn_same].
  - intros cs IH ds E ds' extra F. cbn [get_cgpms_by_output_index] in E.
    destruct (filter (fun p => memb o (fst p)) (map (fun c' => (outputs c', get_cgpms_by_output_index c' o)) cs)) as [|[os r] [|? ?]] eqn:Ef; try discriminate.
    subst r. destruct (filter_one _ _ _ Ef) as (a & b & Em & Fx & Ha & Hb).
    apply map_eq_app in Em. destruct Em as (a' & b0 & -> & <- & Em). destruct b0 as [|c b']; [discriminate|]. cbn [map] in Em.
    injection Em as <- Ec <-. cbn [fst] in Fx.
    assert (Na : forall x, In x a' -> memb o (outputs x) = false).
    { intros x Hx. apply (Ha (outputs x, get_cgpms_by_output_index x o)). apply in_map_iff. exists x. auto. }
    assert (Nb : forall x, In x b' -> memb o (outputs x) = false).
    { intros x Hx. apply (Hb (outputs x, get_cgpms_by_output_index x o)). apply in_map_iff. exists x. auto. }
    destruct (IH c (in_elt c a' b') ds Ec ds' extra F) as (c' & P1 & P2 & P3 & P4 & P5 & P6).
    exists (CProd (a' ++ c' :: b')). split.
    { change (put_column o (CProd (a' ++ c :: b')) (ds' ++ extra)) with (let (cs', rest) := put_prod o (a' ++ c :: b') (ds' ++ extra) in (CProd cs', rest)).
      assert (G : forall a ds0, (forall x, In x a -> memb o (outputs x) = false) -> put_prod o (a ++ c :: b') ds0 =
        let (r, rest) := put_prod o (c :: b') ds0 in (a ++ r, rest)).
      { clear. induction a as [|x a IH]; intros ds0 H; cbn [app]; [now destruct (put_prod o (c :: b') ds0)|].
        change (put_prod o (x :: a ++ c :: b') ds0) with (let (c1, ds1) := (if memb o (outputs x) then put_column o x ds0 else (x, ds0)) in
          let (cs1, ds2) := put_prod o (a ++ c :: b') ds1 in (c1 :: cs1, ds2)).
        rewrite (H x (or_introl eq_refl)).
        rewrite IH by (intros z Hz; apply H; now right). now destruct (put_prod o (c :: b') ds0). }
      rewrite G by exact Na. cbn [put_prod]. rewrite Fx, P1.
      change ((fix go (cs : list cgpm) (ds : list dist) : list cgpm * list dist := _) b' extra) with (put_prod o b' extra).
      rewrite put_prod_skip by exact Nb. reflexivity. }
    split; [apply (rts_lift (fun x => CProd (a' ++ x :: b'))); [|exact P2]; intros; now apply rt_prod|].
    split; [cbn [outputs]; rewrite !flat_map_app; cbn [flat_map]; now rewrite P3|].
    assert (G : forall o2, get_cgpms_by_output_index c' o2 = get_cgpms_by_output_index c o2 ->
       get_cgpms_by_output_index (CProd (a' ++ c' :: b')) o2 = get_cgpms_by_output_index (CProd (a' ++ c :: b')) o2).
    { intros o2 Q. cbn [get_cgpms_by_output_index]. rewrite !map_app. cbn [map]. now rewrite P3, Q. }
    split.
    + cbn [get_cgpms_by_output_index]. rewrite map_app. cbn [map]. rewrite filter_app. cbn [filter fst]. rewrite P3, Fx, P4.
      assert (Z0 : forall l, (forall x, In x l -> memb o (outputs x) = false) ->
        filter (fun p => memb o (fst p)) (map (fun c' => (outputs c', get_cgpms_by_output_index c' o)) l) = []).
      { clear. induction l as [|x l IH]; intros H; [reflexivity|]. cbn [map filter fst]. rewrite (H x (or_introl eq_refl)). apply IH. intros z Hz. apply H. now right. }
      rewrite !Z0 by assumption. reflexivity.
    + split; [intros o2 N; apply G; now apply P5|]. apply tn_prod. apply Forall2_app; [|constructor; [exact P6|]];
      match goal with |- Forall2 _ ?l ?l => clear; induction l; constructor; auto; apply tn_same end.
  - intros ix cs m IH ds E ds' extra F. cbn [get_cgpms_by_output_index] in E.
    destruct (oseq (map (fun c' => get_cgpms_by_output_index c' o) cs)) as [ls|e] eqn:El; [|discriminate]. cbn [omap obind] in E. injection E as <-.
    destruct (put_list_ok o cs IH ls El ds' extra F) as (cs' & Q1 & Q2 & Q3 & Q4 & Q5 & Q6).
    exists (CFinArr ix cs' m). split.
    { change (put_column o (CFinArr ix cs m) (ds' ++ extra)) with (let (cs', rest) := put_list o cs (ds' ++ extra) in (CFinArr ix cs' m, rest)). now rewrite Q1. }
    split; [apply (rts_list (fun x => CFinArr ix x m) cs cs') with (pre := []); [intros; now apply rt_fin|exact Q2]|].
    split; [cbn [outputs]; destruct Q3 as [|x y ? ? E ?]; [reflexivity|exact E]|].
    split; [cbn [get_cgpms_by_output_index]; exact Q4|]. split; [|now apply tn_fin]. intros o2 N. cbn [get_cgpms_by_output_index]. now rewrite Q5.
  - intros ix b cs m IHb IH ds E ds' extra F. cbn [get_cgpms_by_output_index] in E.
    rewrite oseq_app in E.
    destruct (oseq (map (fun p : val * cgpm => let '(_, c) := p in get_cgpms_by_output_index c o) cs)) as [ls|e] eqn:El; cbn [obind omap] in E; [|discriminate].
    cbn [oseq] in E. destruct (get_cgpms_by_output_index b o) as [lb|e] eqn:Eb; cbn [obind] in E; [|discriminate]. injection E as <-.
    rewrite concat_app in F. cbn [List.concat] in F. rewrite app_nil_r in F. destruct (F2_split _ _ _ _ F) as (k1 & k2 & -> & F1 & F2).
    destruct (put_dict_ok o cs IH ls El k1 (k2 ++ extra) F1) as (cs' & Q1 & Q2 & Q4 & Q5 & Q6).
    destruct (IHb lb Eb k2 extra F2) as (b' & P1 & P2 & P3 & P4 & P5 & P6).
    exists (CFlexArr ix b' cs' m). split.
    { change (put_column o (CFlexArr ix b cs m) ((k1 ++ k2) ++ extra)) with (let (cs', ds1) := put_dict o cs ((k1 ++ k2) ++ extra) in
        let (base', rest) := put_column o b ds1 in (CFlexArr ix base' cs' m, rest)). rewrite <- app_assoc, Q1, P1. reflexivity. }
    split.
    { apply rt_trans with (CFlexArr ix b' cs m); [apply (rts_lift (fun x => CFlexArr ix x cs m)); [intros; now apply rt_base|exact P2]|].
      apply (rts_dict (fun x => CFlexArr ix b' x m) cs cs') with (pre := []); [intros; now apply rt_flex|exact Q2]. }
    split; [exact P3|]. split.
    + cbn [get_cgpms_by_output_index]. rewrite oseq_app.
      destruct (oseq (map (fun p : val * cgpm => let '(_, c) := p in get_cgpms_by_output_index c o) cs')) as [z|e]; [|discriminate].
      cbn [omap obind oseq] in *. rewrite P4. cbn [omap obind]. injection Q4 as <-. rewrite concat_app. cbn [List.concat]. now rewrite app_nil_r.
    + split; [|now apply tn_flex]. intros o2 N. cbn [get_cgpms_by_output_index]. now rewrite Q5, P5 by exact N.
  - intros f d arr m IH ds E ds' extra F. cbn [get_cgpms_by_output_index] in E. cbn [put_column]. destruct (dist_o d =? o) eqn:Eo.
    + injection E as <-. destruct (put_dist o d ds' extra F) as (d' & -> & -> & A & O'). exists (CMix f d' arr m).
      split; [reflexivity|]. split.
      { clear - A. destruct A as [->|[h ->]]; [apply rt_refl|]. apply rt_step. apply rt_div. apply rt_hypers. }
      cbn [outputs get_cgpms_by_output_index]. rewrite O', Eo. split; [reflexivity|]. split; [reflexivity|].
      apply Z.eqb_eq in Eo. split; [|apply tn_mix; [right; split; [exact Eo|now apply adjusted_untouched]|apply tn_same]].
      intros o2 N. destruct (Z.eqb_spec (dist_o d) o2); [congruence|reflexivity].
    + destruct (IH ds E ds' extra F) as (c' & P1 & P2 & P3 & P4 & P5 & P6). rewrite P1. exists (CMix f d c' m). split; [reflexivity|].
      split; [apply (rts_lift (fun x => CMix f d x m)); [intros; now apply rt_arr|exact P2]|].
      cbn [outputs get_cgpms_by_output_index]. rewrite P3, Eo. split; [reflexivity|]. split; [exact P4|].
      split; [|apply tn_mix; auto]. intros o2 N. now rewrite P5.
Qed.

(** ** The components of a column *)

Lemma column_dinv : forall c, wf c -> forall o ds, get_cgpms_by_output_index c o = Ok ds -> forall d, In d ds -> dinv d /\ dist_o d = o.
Proof.
  induction 1 as [d D|cs Wc IH ND|div cs r2i r2c D F SU NE Wc IH OO|div b cs r2i r2c D HS Wb IHb NI ND Wc IH OO]; intros o ds E x Hx.
  - cbn [get_cgpms_by_output_index] in E. destruct (Z.eqb_spec (dist_o d) o); injection E as <-; [|destruct Hx].
    destruct Hx as [<-|[]]. auto.
  - cbn [get_cgpms_by_output_index] in E.
    destruct (filter (fun p => memb o (fst p)) (map (fun c' => (outputs c', get_cgpms_by_output_index c' o)) cs)) as [|[os r] [|? ?]] eqn:Ef; try discriminate.
    subst r. destruct (filter_one _ _ _ Ef) as (a & b & Em & Fx & _ & _).
    assert (X : In (os, Ok ds) (map (fun c' => (outputs c', get_cgpms_by_output_index c' o)) cs)) by (rewrite Em; apply in_elt).
    apply in_map_iff in X. destruct X as (c & EQ & Hc). injection EQ as _ EQ. exact (IH c Hc o ds EQ x Hx).
  - cbn [get_cgpms_by_output_index] in E. destruct (Z.eqb_spec (dist_o div) o); [injection E as <-; destruct Hx as [<-|[]]; auto|].
    destruct (oseq (map (fun c' => get_cgpms_by_output_index c' o) cs)) as [ls|e] eqn:El; [|discriminate]. cbn [omap obind] in E. injection E as <-.
    apply in_concat in Hx. destruct Hx as (l & Hl & Hx). apply oseq_inv in El.
    assert (X : In (Ok l) (map Ok ls)) by now apply in_map. rewrite <- El in X. apply in_map_iff in X. destruct X as (c & EQ & Hc).
    exact (IH c Hc o l EQ x Hx).
  - cbn [get_cgpms_by_output_index] in E. destruct (Z.eqb_spec (dist_o div) o); [injection E as <-; destruct Hx as [<-|[]]; auto|].
    match type of E with omap _ (oseq ?z) = _ => destruct (oseq z) as [ls|e] eqn:El end; [|discriminate]. cbn [omap obind] in E. injection E as <-.
    apply in_concat in Hx. destruct Hx as (l & Hl & Hx). apply oseq_inv in El.
    assert (X : In (Ok l) (map Ok ls)) by now apply in_map. rewrite <- El in X. apply in_app_or in X. destruct X as [X|[X|[]]].
    + apply in_map_iff in X. destruct X as ([k c] & EQ & Hc). exact (IH k c Hc o l EQ x Hx).
    + exact (IHb o l X x Hx).
Qed.

Lemma grown_rts : forall c c', grown c -> rts c c' -> grown c'.
Proof.
  intros c c' G T. induction T as [a b T|a|a b d T1 IH1 T2 IH2]; [exact (gr_retuned a b G T)|exact G|apply IH2; apply IH1; exact G].
Qed.

Lemma over_grids_good : forall d0 gs F G names h, good_hypers d0 h -> incl names (keys h) ->
  (forall k v, In k (positive_names d0) -> In v (grid_of gs k) -> (0 < qr v)%R) ->
  (forall h', keys h' = keys h -> good_hypers d0 h' -> F h' = G h') -> over_grids gs names F h = over_grids gs names G h.
Proof.
  intros d0 gs F G. induction names as [|k names IH]; intros h GH IN P E; cbn [over_grids]; [auto|].
  apply f_equal. apply map_ext_in. intros g Hg. assert (Hk : In k (keys h)) by (apply IN; now left). apply IH.
  - apply good_dset; [exact GH|]. intros Hp. exact (P k g Hp Hg).
  - rewrite keys_dset_mem by exact Hk. intros x Hx. apply IN. now right.
  - exact P.
  - intros h' K. rewrite keys_dset_mem in K by exact Hk. apply E. exact K.
Qed.

Lemma first_tunable : forall ds d0 rest, ds = d0 :: rest -> (forall d, In d ds -> same_class d d0 = true) -> first_of ds = Ok d0.
Proof.
  intros ds d0 rest -> C. cbn [first_of].
  assert (X : forallb (fun d' => same_class d' d0) (d0 :: rest) = true) by (apply forallb_forall; exact C). rewrite X. reflexivity.
Qed.

Lemma keys_nil : forall (h : hypers), keys h = [] -> h = [].
Proof. intros [|]; cbn; congruence. Qed.
Lemma keys_cons : forall (h : hypers) k ks, keys h = k :: ks -> exists v h', h = (k, v) :: h' /\ keys h' = ks.
Proof. intros [|[k' v] h'] k ks E; cbn in E; [discriminate|]. injection E as -> E. exists v, h'. auto. Qed.

(** The values set are the values read back, in the same order. *)
Lemma restart : forall d h, (forall s, d <> DNuc s) -> good_hypers d h -> keys h = hyper_names d -> dist_get_hypers (retune h d) = h.
Proof.
  intros d h NU G K. unfold retune. destruct (dist_set_hypers d h) as [d' r] eqn:E. cbn [fst].
  destruct (set_hypers_spec _ _ _ _ E) as (S1 & _). apply (proj1 S1) in G. subst r.
  destruct d as [c|c|b|p|n|u]; [| | | | |exfalso; eapply NU; reflexivity]; cbn [hyper_names] in K;
  repeat match goal with K : keys ?h = _ :: _ |- _ => apply keys_cons in K; destruct K as (? & ? & -> & K) | K : keys ?h = [] |- _ => apply keys_nil in K; subst h end;
  cbn [dist_set_hypers] in E; unfold hpos in E; cbn in E; repeat (destruct (qltb _ _) in E; cbn in E); try discriminate; injection E as <-; reflexivity.
Qed.

Lemma update_all_adjusted : forall h ds, Forall2 adjusted ds (fst (update_all_hypers ds h)) /\
  (snd (update_all_hypers ds h) = Ok tt -> forall d', In d' (fst (update_all_hypers ds h)) ->
    exists d, In d ds /\ (untouched d d' /\ forall k, In k (hyper_names d) ->
      lookup k (dist_get_hypers d') = lookup k (fold_left (fun acc kv => dset (fst kv) (snd kv) acc) h (dist_get_hypers d)))).
Proof.
  intros h. induction ds as [|d ds IH]; [split; [constructor|intros _ d' []]|]. cbn [update_all_hypers].
  destruct (dist_set_hypers d (fold_left (fun acc kv => dset (fst kv) (snd kv) acc) h (dist_get_hypers d))) as [d1 [u|e]] eqn:E.
  - assert (A : adjusted d d1) by (right; eexists; unfold retune; rewrite E; reflexivity).
    destruct (update_all_hypers ds h) as [ds' r]. cbn [fst snd] in *. destruct IH as [I1 I2]. split; [constructor; auto|].
    intros R d' [<-|H].
    + exists d. split; [now left|]. split; [now apply adjusted_untouched|]. destruct (set_hypers_spec _ _ _ _ E) as (_ & _ & _ & S4). exact S4.
    + destruct (I2 R d' H) as (x & X1 & X2). exists x. split; [now right|exact X2].
  - cbn [fst snd]. split; [|discriminate]. constructor; [|apply adjusted_all]. right. eexists. unfold retune. rewrite E. reflexivity.
Qed.

Lemma update_lookup : forall (h acc : hypers) k, NoDup (keys h) ->
  lookup k (fold_left (fun acc kv => dset (fst kv) (snd kv) acc) h acc) = match lookup k h with Some v => Some v | None => lookup k acc end.
Proof.
  induction h as [|[k' v] h IH]; intros acc k ND; [reflexivity|]. cbn [fold_left fst snd]. inversion ND; subst. rewrite IH by assumption.
  cbn [lookup]. destruct (eq_dec k k') as [->|N].
  - destruct (lookup k' h) as [w|] eqn:L; [|rewrite lookup_dset_eq; reflexivity]. exfalso. apply H1. apply (lookup_Some_keys _ _ _ L).
  - destruct (lookup k h); [reflexivity|]. now rewrite lookup_dset_neq.
Qed.
