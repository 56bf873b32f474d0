(** Proofs about inference on a whole CrossCat model. *)
From Coq Require Import List ZArith QArith Qcanon Reals Bool String Permutation Lia.
From Coq Require Import Relations.Relation_Operators.
From Verif Require Import Base Xr Samp Lgamma Prims Cgpm Lib SpecPrims PrimsInv SpecComp CompInv CompDens CompThm SimShape
  SpecTable SpecHist Table Gibbs Hist Walks SpecWalks WalksThm Trans Views ViewsThm ViewsThm2 ViewsThm3 ViewsThm4 ViewsThm5
  Hypers SpecHypers HypersThm Progress Crosscat HypersThm2.
From Verif Require Import SpecViews SpecCrosscat.
Import ListNotations.
Local Open Scope Z_scope.

Lemma same_data_refl : forall X, crosscat X -> same_data X X.
Proof. intros X C. split; [exact C|]. split; [apply Permutation_refl|]. split; intros; tauto. Qed.

Lemma same_data_trans : forall X Y W, same_data X Y -> same_data Y W -> same_data X W.
Proof.
  intros X Y W (A1 & A2 & A3 & A4) (B1 & B2 & B3 & B4). split; [exact B1|]. split; [eapply Permutation_trans; eauto|].
  split; intros; [rewrite B3; apply A3|rewrite B4; apply A4].
Qed.

Lemma same_data_complete : forall X Y, same_data X Y -> complete X -> complete Y.
Proof.
  intros X Y (A1 & A2 & A3 & A4) C r v x w H Hw. apply A3 in H. apply (Permutation_in w A2) in Hw.
  destruct (C r v x w H Hw) as (y & Hy). exists y. apply A3. exact Hy.
Qed.

Lemma same_data_gaps : forall X Y, same_data X Y -> no_gaps X -> no_gaps Y.
Proof. intros X Y (A1 & A2 & A3 & A4) G r v H. apply A3 in H. destruct (G r v H) as [P Q]. rewrite !A4. auto. Qed.

Lemma same_data_columns : forall X Y o, same_data X Y -> (In o (flat_map columns_of Y) <-> In o (flat_map columns_of X)).
Proof. intros X Y o (A1 & A2 & _). split; apply Permutation_in; [exact A2|apply Permutation_sym; exact A2]. Qed.

(** Replacing one view by a view of the same columns. *)
Lemma replaced : forall X X', crosscat X -> Forall2 (fun m m' => good m' /\ same_cells m m') X X' -> same_data X X'.
Proof.
  intros X X' (C1 & C2) F.
  assert (FO : flat_map outputs X' = flat_map outputs X).
  { clear C1 C2. induction F as [|m m' l l' (G & S1 & _) F IH]; [reflexivity|]. cbn [flat_map]. now rewrite S1, IH. }
  assert (FC : flat_map columns_of X' = flat_map columns_of X).
  { clear - F. induction F as [|m m' l l' (G & S1 & S2 & _) F IH]; [reflexivity|]. cbn [flat_map]. now rewrite S2, IH. }
  assert (H1 : forall m', In m' X' -> exists m, In m X /\ good m' /\ same_cells m m').
  { clear - F. induction F as [|m m' l l' H F IH]; intros y []; [subst; exists m; cbn; tauto|destruct (IH y H0) as (z & Z1 & Z2); exists z; cbn; tauto]. }
  assert (H2 : forall m, In m X -> exists m', In m' X' /\ good m' /\ same_cells m m').
  { clear - F. induction F as [|m m' l l' H F IH]; intros y []; [subst; exists m'; cbn; tauto|destruct (IH y H0) as (z & Z1 & Z2); exists z; cbn; tauto]. }
  split; [split; [|now rewrite FO]|split; [now rewrite FC|split]].
  - intros m' Hm. destruct (H1 m' Hm) as (m & _ & G & _). exact G.
  - intros r v x. split; intros (m & Hm & E).
    + destruct (H1 m Hm) as (m0 & Hm0 & _ & _ & _ & _ & S4). exists m0. split; [exact Hm0|]. now rewrite <- S4.
    + destruct (H2 m Hm) as (m0 & Hm0 & _ & _ & _ & _ & S4). exists m0. split; [exact Hm0|]. now rewrite S4.
  - intros v k. split; intros (m & Hm & E).
    + destruct (H1 m Hm) as (m0 & Hm0 & _ & _ & _ & S3 & _). exists m0. split; [exact Hm0|]. now rewrite <- S3.
    + destruct (H2 m Hm) as (m0 & Hm0 & _ & _ & _ & S3 & _). exists m0. split; [exact Hm0|]. now rewrite S3.
Qed.

Lemma same_cells_refl : forall m, same_cells m m.
Proof. intros m. repeat split. Qed.

(** ** Hyperparameters *)

Lemma view_rts : forall m m', good m -> rts m m' -> good m' /\ same_cells m m' /\ forall r, seat m' r = seat m r.
Proof.
  intros m m' G T. induction T as [a b T|a|a b d T1 IH1 T2 IH2].
  - destruct G as (G1 & G2 & G3). destruct (retuned_view a b (grown_wf a G1) G2 G3 T) as (S & K & (C1 & C2 & C3) & C4).
    split; [split; [exact (gr_retuned a b G1 T)|auto]|]. split; [|intros r; apply C4]. split.
    + assert (X := sheet_outputs b S). rewrite X. rewrite (sheet_outputs a G2). now rewrite C1, C2.
    + split; [exact C2|]. split; [exact C3|]. intros r o. apply C4.
  - split; [exact G|]. split; [apply same_cells_refl|reflexivity].
  - destruct (IH1 G) as (G' & (A1 & A2 & A3 & A4) & A5). destruct (IH2 G') as (G'' & (B1 & B2 & B3 & B4) & B5).
    split; [exact G''|]. split; [|intros r; now rewrite B5]. split; [congruence|]. split; [congruence|]. split; intros; [now rewrite B3|now rewrite B4].
Qed.

Lemma rts_prod : forall X c, rts (CProd X) c -> exists X', c = CProd X' /\ Forall2 rts X X'.
Proof.
  intros X c T. remember (CProd X) as c0 eqn:E. revert X E. induction T as [a b T|a|a b d T1 IH1 T2 IH2]; intros X ->.
  - inversion T; subst. eexists. split; [reflexivity|]. apply Forall2_app; [|constructor; [apply rt_step; assumption|]];
    match goal with |- Forall2 _ ?l ?l => clear; induction l; constructor; auto; apply rt_refl end.
  - exists X. split; [reflexivity|]. induction X; constructor; auto. apply rt_refl.
  - destruct (IH1 X eq_refl) as (Y & -> & F1). destruct (IH2 Y eq_refl) as (W & -> & F2). exists W. split; [reflexivity|].
    clear - F1 F2. revert W F2. induction F1 as [|x y X Y T F1 IH]; intros W F2; inversion F2; subst; constructor; auto. eapply rt_trans; eauto.
Qed.

Lemma crosscat_rts : forall X c, crosscat X -> rts (CProd X) c -> exists X', c = CProd X' /\ same_data X X'.
Proof.
  intros X c C T. destruct (rts_prod X c T) as (X' & -> & F). exists X'. split; [reflexivity|]. apply replaced; [exact C|].
  destruct C as [C _]. clear T. induction F as [|m m' l l' H F IH]; [constructor|]. constructor.
  - destruct (view_rts m m') as (V1 & V2 & _); [apply C; now left|exact H|]. split; assumption.
  - apply IH. intros y Hy. apply C. now right.
Qed.

Lemma transition_hypers_adjusted : forall ds gs, always (transition_hypers ds gs) (fun r => Forall2 adjusted ds (fst r)).
Proof.
  intros ds gs. unfold transition_hypers. destruct (first_of ds) as [d0|e]; [|cbn [always fst]; apply adjusted_all].
  cbn [always]. intros l HP. set (h0 := dist_get_hypers d0). set (names := map (fun i => nth i (keys h0) ""%string) l).
  assert (PN : Permutation (keys h0) names). { apply permuted_names. unfold keys. rewrite map_length. exact HP. }
  assert (IN : incl names (keys h0)) by (intros k Hk; apply (Permutation_in k (Permutation_sym PN) Hk)).
  eapply always_imp; [|apply (in_order_main ds h0 gs names IN)]. intros r [A _]. exact A.
Qed.

Definition keeps (X : list cgpm) (c : cgpm) : Prop := exists X', c = CProd X' /\ same_data X X'.

Lemma put_keeps : forall X c o ds ds', keeps X c -> get_cgpms_by_output_index c o = Ok ds -> Forall2 adjusted ds ds' -> keeps X (fst (put_column o c ds')).
Proof.
  intros X c o ds ds' (Y & -> & SD) E A. destruct (puts_all o (CProd Y) ds E ds' [] A) as (c' & P1 & P2 & _). rewrite app_nil_r in P1. rewrite P1. cbn [fst].
  destruct (crosscat_rts Y c' (proj1 SD) P2) as (W & -> & SW). exists W. split; [reflexivity|]. eapply same_data_trans; eauto.
Qed.

Lemma hypers_each_keeps : forall X cols c, keeps X c -> always (hypers_each c cols) (fun r => keeps X (fst r)).
Proof.
  intros X. induction cols as [|[o g] cols IH]; intros c K; cbn [hypers_each]; [exact K|].
  destruct g as [gs|e]; cbn [obind]; [|exact K]. destruct (get_cgpms_by_output_index c o) as [ds|e] eqn:E; cbn [obind]; [|exact K].
  apply always_bind. eapply always_imp; [|apply transition_hypers_adjusted]. intros r A.
  assert (K' := put_keeps X c o ds (fst r) K E A). destruct (snd r); [apply IH; exact K'|exact K'].
Qed.

Lemma any_order_always : forall {A B} (l : list A) (k : list A -> samp B) (P : B -> Prop),
  (forall l', Permutation l l' -> always (k l') P) -> always (any_order l k) P.
Proof.
  intros A B l k P H. unfold any_order. cbn [always]. intros p HP. apply H. rewrite <- HP. clear.
  match goal with |- Permutation ?a ?b => assert (E : a = b); [|rewrite <- E; apply Permutation_refl] end.
  induction l as [|a l IH]; [reflexivity|]. cbn [List.length seq flat_map nth_error app]. rewrite <- seq_shift. f_equal.
  rewrite flat_map_concat_map, map_map, <- flat_map_concat_map. exact IH.
Qed.

Lemma hypers_distributions_keeps : forall X g c outs, keeps X c -> always (transition_hypers_distributions g c outs) (fun r => keeps X (fst r)).
Proof.
  intros X g c outs K. unfold transition_hypers_distributions. destruct (oseq _); [|exact K]. apply any_order_always. intros os _. now apply hypers_each_keeps.
Qed.

Lemma hypers_row_divide_keeps : forall X g c outs, keeps X c -> always (transition_hypers_row_divide g c outs) (fun r => keeps X (fst r)).
Proof.
  intros X g c outs K. unfold transition_hypers_row_divide.
  match goal with |- always (match ?x with Ok _ => _ | Err _ => _ end) _ => destruct x end; [|exact K]. apply any_order_always. intros os _. now apply hypers_each_keeps.
Qed.

(** ** Rows *)

Lemma transition_row_keeps : forall m r, good m -> seat m r <> None -> observable m r ->
  always (transition_rows m r) (fun p => snd p = Ok tt /\ good (fst p) /\ same_cells m (fst p) /\ (forall r', seat (fst p) r' <> None <-> seat m r' <> None) /\
    forall r', r' <> r -> seat (fst p) r' = seat m r').
Proof.
  intros m r (G1 & G2 & G3) L OB. assert (T := transition_stable grown grown_stable m r G1).
  destruct (gibbs_moves m r (grown_wf m G1) G2 G3 L) as (m1 & s & s1 & (DR & row & EU) & DV & DV1 & D1 & EO & ED & A & NR & _).
  specialize (NR OB). assert (H := always_and _ _ _ T (always_and _ _ _ A NR)). revert H. apply always_imp. intros p (P1 & P2 & P3).
  split; [exact P3|]. destruct P2 as [(_ & z & Hz & (M1 & M2 & M3 & (C1 & C2 & C3) & M4 & M5 & M6))|P2]; [|rewrite P2 in P3; discriminate].
  split; [split; [exact P1|auto]|]. split; [split; [|split; [exact C2|split; [exact C3|]]]|split].
  - rewrite (sheet_outputs _ M2), (sheet_outputs m G2). now rewrite C1, C2.
  - intros r' o. destruct (Z.eq_dec r' r) as [->|N]; [|apply (M4 r' N)].
    destruct (in_dec Z.eq_dec o (columns_of m)) as [Ho|Ho]; [auto|].
    rewrite (cell_outside m r o (grown_wf m G1) G2 Ho). apply cell_outside; [exact M1|exact M2|]. now rewrite C2.
  - intros r'. destruct (Z.eq_dec r' r) as [->|N]; [split; intros _; [exact L|congruence]|]. now rewrite (proj1 (M4 r' N)).
  - intros r' N. apply (M4 r' N).
Qed.

Lemma rows_each_keeps : forall rids m, good m -> (forall r, In r rids -> seat m r <> None) -> (forall r, observable m r) ->
  always (rows_each m rids) (fun p => snd p = Ok tt /\ good (fst p) /\ same_cells m (fst p) /\
    (forall r, seat (fst p) r <> None <-> seat m r <> None) /\ forall r, ~ In r rids -> seat (fst p) r = seat m r).
Proof.
  induction rids as [|r rids IH]; intros m G L OB; cbn [rows_each].
  - cbn [always fst snd]. split; [reflexivity|]. split; [exact G|]. split; [apply same_cells_refl|]. split; intros; [tauto|reflexivity].
  - apply always_bind. eapply always_imp; [|apply (transition_row_keeps m r G (L r (or_introl eq_refl)) (OB r))].
    intros p (-> & G' & (A1 & A2 & A3 & A4) & L' & O'). eapply always_imp; [|apply (IH (fst p) G')].
    + intros q (Q1 & Q2 & (B1 & B2 & B3 & B4) & Q4 & Q5). split; [exact Q1|]. split; [exact Q2|]. split; [|split].
      * split; [congruence|]. split; [congruence|]. split; intros; [now rewrite B3|now rewrite B4].
      * intros r'. rewrite Q4. apply L'.
      * intros r' Hr'. rewrite Q5 by (intros Y; apply Hr'; now right). apply O'. intros ->. apply Hr'. now left.
    + intros r' Hr'. apply L'. apply L. now right.
    + intros r' o E. rewrite A3. rewrite A4 in E. exact (OB r' o E).
Qed.

Lemma get_rowids_seats : forall m rowids rs r, good m -> get_rowids_transition m rowids = Ok rs -> In r rs -> seat m r <> None.
Proof.
  intros m rowids rs r (G1 & G2 & G3) E Hr. unfold get_rowids_transition, get_rowids in E. destruct m as [| | | |fl div arr r2c]; try discriminate.
  cbn [obind] in E. destruct G3 as (_ & _ & D & _). cbn [seat]. rewrite <- D.
  assert (K : In r (keys (dist_data div))).
  { assert (E' : rs = match rowids with None | Some [] => keys (dist_data div) | Some l => filter (fun r => memb r l) (keys (dist_data div)) end) by congruence.
    rewrite E' in Hr. destruct rowids as [[|a l]|]; [exact Hr| |exact Hr]. apply filter_In in Hr. apply Hr. }
  intros N. apply lookup_None in N. contradiction.
Qed.

Lemma F2_same : forall {A} (R : A -> A -> Prop) l, (forall x, In x l -> R x x) -> Forall2 R l l.
Proof. intros A R l H. induction l as [|a l IH]; constructor; [apply H; now left|]. apply IH. intros x Hx. apply H. now right. Qed.

Lemma set_nth_split : forall {A} (l : list A) i x, (i < List.length l)%nat -> exists a y b, l = a ++ y :: b /\ List.length a = i /\ set_nth i x l = a ++ x :: b.
Proof.
  intros A l. induction l as [|h l IH]; intros [|i] x H; cbn [List.length] in H; try lia.
  - exists [], h, l. auto.
  - destruct (IH i x ltac:(lia)) as (a & y & b & -> & E & S). exists (h :: a), y, b. cbn [set_nth app List.length]. rewrite S. auto.
Qed.

Lemma item_Ok : forall {A} (l : list A) i x, item l i = Ok x -> exists a b, l = a ++ x :: b /\ List.length a = i /\ forall y, set_nth i y l = a ++ y :: b.
Proof.
  intros A l i x E. unfold item in E. destruct (nth_error l i) as [y|] eqn:N; [|discriminate]. injection E as ->.
  destruct (nth_error_split l i N) as (a & b & -> & L). exists a, b. split; [reflexivity|]. split; [exact L|]. intros y.
  rewrite <- L. clear. induction a as [|h a IH]; [reflexivity|]. cbn [app List.length set_nth]. now rewrite IH.
Qed.

Lemma views_rows_keeps : forall X is c rowids, no_gaps X -> keeps X c -> always (views_rows c is rowids) (fun r => keeps X (fst r)).
Proof.
  intros X. induction is as [|i is IH]; intros c rowids NG K; cbn [views_rows]; [exact K|].
  destruct K as (Y & -> & SD). cbn [views_of]. destruct (item Y i) as [v|e] eqn:E; cbn [obind]; [|exists Y; auto].
  destruct (get_rowids_transition v rowids) as [rs|e] eqn:ER; cbn [obind]; [|exists Y; auto].
  destruct (item_Ok Y i v E) as (a & b & EY & _ & ES).
  assert (Gv : good v). { apply (proj1 (proj1 SD)). rewrite EY. apply in_elt. }
  apply any_order_always. intros rids P. apply always_bind.
  assert (NY := same_data_gaps X Y SD NG).
  eapply always_imp; [|apply (rows_each_keeps rids v Gv)].
  - intros p (Q1 & Q2 & Q3 & _). rewrite Q1. apply IH; [exact NG|]. exists (set_nth i (fst p) Y). split; [reflexivity|].
    eapply same_data_trans; [exact SD|]. apply replaced; [exact (proj1 SD)|]. rewrite ES, EY. apply Forall2_app; [|constructor; [split; assumption|]];
    apply F2_same; intros y Hy; (split; [|apply same_cells_refl]); apply (proj1 (proj1 SD)); rewrite EY; apply in_or_app; cbn; tauto.
  - intros r Hr. apply (get_rowids_seats v rowids rs r Gv ER). apply (Permutation_in r (Permutation_sym P) Hr).
  - intros r o Ec. assert (Hv : In v Y) by (rewrite EY; apply in_elt).
    destruct (NY r o (ex_intro _ v (conj Hv Ec))) as [N1 N2]. split; intros N; [apply N1|apply N2]; exists v; auto.
Qed.

Lemma row_assignments_keeps : forall X c outs rowids, no_gaps X -> keeps X c -> always (transition_row_assignments c outs rowids) (fun r => keeps X (fst r)).
Proof.
  intros X c outs rowids NG K. unfold transition_row_assignments. destruct (view_indexes c outs); [|exact K].
  apply any_order_always. intros is _. now apply views_rows_keeps.
Qed.

(** ** Views *)

Lemma view_assignments_keeps : forall X b c outs, complete X -> (List.length (flat_map columns_of X) <= 257)%nat -> columns_given X outs -> keeps X c ->
  always (transition_view_assignments b c outs) (fun r => keeps X (fst r)).
Proof.
  intros X b c outs CX LX HO K. unfold transition_view_assignments. destruct b; [exact K|]. destruct K as (Y & -> & SD).
  assert (CY := same_data_complete X Y SD CX). assert (LY := Permutation_length (proj1 (proj2 SD))).
  assert (Z : forall l, (forall o, In o l -> In o (flat_map columns_of Y)) -> always (reassign_each (CProd Y) l) (fun r => keeps X (fst r))).
  { intros l Hl. eapply always_imp; [|apply (reassign_each_ok l Y (proj1 SD) CY ltac:(lia) Hl)]. intros p (W & E & R1 & R2 & R3 & R4 & _).
    exists W. split; [exact E|]. eapply same_data_trans; [exact SD|]. split; auto. }
  destruct outs as [[|o l]|].
  - apply Z. rewrite distribution_outputs by exact (proj1 SD). auto.
  - apply Z. intros o' Ho'. apply (same_data_columns X Y o' SD). exact (HO _ o' eq_refl Ho').
  - apply Z. rewrite distribution_outputs by exact (proj1 SD). auto.
Qed.

(** ** Scheduling *)

Lemma run_pass_keeps : forall {St} (P : St -> Prop) clock N T ks iters t s, (forall k s, In k ks -> P s -> always (k s) (fun r => P (fst r))) -> P s ->
  always (run_pass clock N T iters t ks s) (fun r => P (fst r)).
Proof.
  intros St P clock N T ks. induction ks as [|k ks IH]; intros iters t s H Hs; cbn [run_pass]; [exact Hs|].
  destruct (proportion_done N T iters _); [|exact Hs]. destruct (qltb _ _); [|exact Hs]. apply always_bind.
  eapply always_imp; [|apply (H k s (or_introl eq_refl) Hs)]. intros r Hr. destruct (snd r); [|exact Hr]. apply IH; [|exact Hr]. intros k' s' Hk. apply H. now right.
Qed.

Lemma generic_keeps : forall {St} (P : St -> Prop) fuel clock N T ks s, (forall k s, In k ks -> P s -> always (k s) (fun r => P (fst r))) -> P s ->
  always (transition_generic fuel clock ks N T s) (fun r => P (fst r)).
Proof.
  intros St P fuel clock N T ks s H Hs. unfold transition_generic. destruct ks as [|k0 ks0] eqn:E; [exact Hs|]. rewrite <- E in *. clear E k0 ks0.
  generalize (match N, T with None, None => Some 1%Qc | _, _ => N end). intros N'. generalize 0%nat, 1%nat. revert s Hs.
  induction fuel as [|fuel IH]; intros s Hs i t; cbn [run_passes]; [exact Hs|]. apply always_bind.
  eapply always_imp; [|apply (run_pass_keeps P clock N' T ks i t s H Hs)]. intros r Hr. destruct (snd r) as [[|]|e]; [exact Hr|apply IH; exact Hr|exact Hr].
Qed.

Lemma oseq_map_In : forall {A B} (f : A -> out B) l ys y, oseq (map f l) = Ok ys -> In y ys -> exists x, In x l /\ f x = Ok y.
Proof.
  intros A B f. induction l as [|a l IH]; intros ys y E Hy; cbn [map oseq] in E.
  - injection E as <-. destruct Hy.
  - destruct (f a) as [b|e] eqn:Ea; cbn [obind] in E; [|discriminate]. destruct (oseq (map f l)) as [bs|e] eqn:Eb; cbn [obind] in E; [|discriminate].
    injection E as <-. destruct Hy as [<-|Hy]; [exists a; cbn; auto|]. destruct (IH bs y eq_refl Hy) as (x & Hx & Ex). exists x. cbn. auto.
Qed.

Lemma run_kernels_keeps : forall X fuel clock g c N T outs rowids names, complete X -> no_gaps X -> (List.length (flat_map columns_of X) <= 257)%nat -> columns_given X outs ->
  keeps X c -> always (run_kernels fuel clock g c N T outs rowids names) (fun r => keeps X (fst r)).
Proof.
  intros X fuel clock g c N T outs rowids names CX NG LX HO K. unfold run_kernels. destruct (oseq _) as [ks|e] eqn:E; [|exact K].
  apply generic_keeps; [|exact K]. intros k s Hk Hs. destruct (oseq_map_In _ names ks k E Hk) as (nm & _ & En). unfold kernel_lookup in En.
  repeat match type of En with (if ?b then _ else _) = _ => destruct b end; try discriminate; injection En as <-.
  - now apply hypers_distributions_keeps.
  - now apply hypers_row_divide_keeps.
  - exact Hs.
  - now apply row_assignments_keeps.
  - now apply view_assignments_keeps.
Qed.

Lemma transition_keeps : forall X fuel clock g c N T kernels outs rowids, complete X -> no_gaps X -> (List.length (flat_map columns_of X) <= 257)%nat -> columns_given X outs ->
  keeps X c -> always (transition fuel clock g c N T kernels outs rowids) (fun r => keeps X (fst r)).
Proof.
  intros X fuel clock g c N T kernels outs rowids CX NG LX HO K. unfold transition. destruct kernels; [now apply run_kernels_keeps|].
  apply any_order_always. intros names _. now apply run_kernels_keeps.
Qed.
