(** C55: inference on a whole CrossCat model. *)
From Coq Require Import List ZArith QArith Qcanon Reals Bool String Permutation Lia.
From Verif Require Import Base Xr Samp Lgamma Prims Cgpm Lib SpecPrims PrimsInv SpecComp CompInv CompDens CompThm SimShape DemoComp
  SpecTable SpecHist Table Gibbs Hist PropTable Walks SpecWalks WalksThm Trans Views ViewsThm ViewsThm2 ViewsThm3 ViewsThm4 ViewsThm5
  Hypers SpecHypers HypersThm Progress SpecProgress Crosscat HypersThm2 PropHypers ProgressThm PropProgress PropViews CrosscatThm CrosscatThm2 CrosscatThm3 CrosscatThm4.
From Verif Require Import SpecViews SpecCrosscat.
Import ListNotations.
Local Open Scope Z_scope.

(** Whatever kernels are run, on whatever columns and rows, for however long, whatever the
    clock shows and the generator draws, and whether or not the call raises: afterwards the
    model is a well-kept CrossCat model of the same table. *)
Theorem C55_transition : forall X fuel clock g N T kernels outs rowids,
  crosscat X -> complete X -> no_gaps X -> (List.length (flat_map columns_of X) <= 257)%nat -> columns_given X outs ->
  always (transition fuel clock g (CProd X) N T kernels outs rowids) (fun r => exists X', fst r = CProd X' /\ same_data X X').
Proof.
  intros X fuel clock g N T kernels outs rowids C CX NG LX HO. apply transition_keeps; auto. exists X. split; [reflexivity|]. apply same_data_refl. exact C.
Qed.
Print Assumptions C55_transition.

(** The kernels other than view_assignments never raise, with the grids the sampler makes for
    itself: [n] passes over them run to the end. Completeness of the table is not needed. *)
Theorem C55_returns : forall logspace b X, spaced logspace -> crosscat X -> X <> [] -> no_normal_uc X ->
  exists g, new_sampler logspace b (CProd X) = Ok g /\ constrained g = b /\
  forall clock kernels outs rowids n fuel, no_gaps X -> columns_given X outs -> (1 <= n < fuel)%nat ->
  (forall k, In k kernels -> In k kernel_names /\ k <> "view_assignments"%string) ->
  always (transition fuel clock g (CProd X) (Some (nq n)) None (Some kernels) outs rowids) (fun r =>
    snd r = Ok tt /\ exists X', fst r = CProd X' /\ same_data X X').
Proof.
  intros f b X SP C NE NU. destruct (new_sampler_ok f b X SP C NE NU) as (g & E & EB & GF). exists g. split; [exact E|]. split; [exact EB|].
  intros clock kernels outs rowids n fuel NG HO [Hn Hf] HK. unfold transition, run_kernels.
  destruct (oseq_ok (kernel_lookup g outs rowids) kernels) as (ks & EK & FK).
  { intros k Hk. destruct (HK k Hk) as [HN _]. cbn in HN. destruct HN as [<-|[<-|[<-|[<-|[<-|[]]]]]]; eexists; reflexivity. }
  rewrite EK. rewrite C42_passes by assumption. apply (run_all_returns (keeps X)).
  - intros k s Hk Hs. apply in_concat in Hk. destruct Hk as (l & Hl & Hk). apply repeat_spec in Hl. subst l.
    destruct (oseq_map_In _ kernels ks k EK Hk) as (nm & Hnm & En). apply (kernel_returns X g outs rowids nm k s); auto. apply HK. exact Hnm.
  - exists X. split; [reflexivity|]. apply same_data_refl. exact C.
Qed.
Print Assumptions C55_returns.

(** Inference on rows moves only the given rows, in the views of the given columns, and
    always returns. *)
Theorem C55_rows : forall X outs rowids, crosscat X -> no_gaps X -> columns_given X outs ->
  always (transition_row_assignments (CProd X) outs rowids) (fun p => snd p = Ok tt /\ exists X', fst p = CProd X' /\ Forall2 (rows_moved outs rowids) X X').
Proof. exact row_assignments_local. Qed.
Print Assumptions C55_rows.

(** Inference of the hyperparameters of columns, returning or raising, changes only the
    hyperparameters of the given columns, in every view and cluster; no row moves. *)
Theorem C55_hypers_columns : forall X g outs, crosscat X ->
  always (transition_hypers_distributions g (CProd X) outs) (fun r => exists X', fst r = CProd X' /\
    hypers_moved (match outs with None | Some [] => flat_map columns_of X | Some l => l end) X X').
Proof.
  intros X g outs C. assert (A := hypers_distributions_local X g outs C). unfold outputs_or in A.
  destruct outs as [[|o l]|]; try rewrite distribution_outputs in A by exact C; exact A.
Qed.
Print Assumptions C55_hypers_columns.

(** Inference of the hyperparameters of row dividers changes only those of the views of the
    given columns. *)
Theorem C55_hypers_dividers : forall X g outs, crosscat X -> columns_given X outs ->
  always (transition_hypers_row_divide g (CProd X) outs) (fun r => exists X', fst r = CProd X' /\
    forall os, (forall m, In m X -> chosen outs m -> In (label_of m) os) -> hypers_moved os X X').
Proof. exact hypers_row_divide_local. Qed.
Print Assumptions C55_hypers_dividers.

(** transition passes the columns and rows it is given on to the kernels: asked for moves of
    rows only, for however long, it moves only the rows given, and only in views with one of
    the columns given. *)
Theorem C55_transition_rows : forall X fuel clock g N T outs rowids names, crosscat X -> no_gaps X -> columns_given X outs ->
  (forall nm, In nm names -> nm = "row_assignments"%string) ->
  always (transition fuel clock g (CProd X) N T (Some names) outs rowids) (fun r => exists X', fst r = CProd X' /\ same_data X X' /\ Forall2 (rows_moved outs rowids) X X').
Proof. exact transition_rows_local. Qed.
Print Assumptions C55_transition_rows.

(** Asked for hyperparameters of columns only, it changes only those of the columns given. *)
Theorem C55_transition_columns : forall X fuel clock g N T outs rowids names, crosscat X ->
  (forall nm, In nm names -> nm = "hypers_distributions"%string) ->
  always (transition fuel clock g (CProd X) N T (Some names) outs rowids) (fun r => exists X', fst r = CProd X' /\ same_data X X' /\
    hypers_moved (match outs with None | Some [] => flat_map columns_of X | Some l => l end) X X').
Proof. exact transition_columns_local. Qed.
Print Assumptions C55_transition_columns.

(** Asked for hyperparameters of row dividers only, it changes only those of the views of the
    columns given. *)
Theorem C55_transition_dividers : forall X fuel clock g N T outs rowids names, crosscat X -> columns_given X outs ->
  (forall nm, In nm names -> nm = "hypers_row_divide"%string) ->
  always (transition fuel clock g (CProd X) N T (Some names) outs rowids) (fun r => exists X', fst r = CProd X' /\ same_data X X' /\
    forall os, (forall m, In m X -> chosen outs m -> In (label_of m) os) -> hypers_moved os X X').
Proof. exact transition_dividers_local. Qed.
Print Assumptions C55_transition_dividers.

(** set_rowid_component puts the row in the cluster of the other row, or in one of its own,
    in the views of the given columns; nothing else changes. *)
Theorem C55_join : forall X outs r0 r1, crosscat X -> columns_given X outs ->
  (forall m, In m X -> chosen outs m -> seat m r0 <> None /\ forall r, r1 = Some r -> seat m r <> None /\ r <> r0) ->
  always (set_rowid_component_all (CProd X) outs r0 r1) (fun p => snd p = Ok tt /\ exists X', fst p = CProd X' /\ crosscat X' /\ Forall2 (row_joined outs r0 r1) X X').
Proof. exact reseat_all. Qed.
Print Assumptions C55_join.

(** set_hypers_distribution changes the hyperparameters of one output only: it updates those of
    every component by the ones given. *)
Theorem C55_set_hypers : forall X o h, crosscat X -> In o (flat_map columns_of X) -> NoDup (keys h) ->
  exists X' ds ds', fst (set_hypers_distribution (CProd X) o h) = CProd X' /\ crosscat X' /\ hypers_moved [o] X X' /\
    get_cgpms_by_output_index (CProd X) o = Ok ds /\ ds <> [] /\ get_cgpms_by_output_index (CProd X') o = Ok ds' /\
    (snd (set_hypers_distribution (CProd X) o h) = Ok tt -> forall d', In d' ds' -> exists d, In d ds /\ untouched d d' /\
      forall k, In k (hyper_names d) -> lookup k (dist_get_hypers d') = match lookup k h with Some v => Some v | None => lookup k (dist_get_hypers d) end).
Proof.
  intros X o h C Ho ND. destruct (column_components X o C Ho) as (ds & d0 & rest & E & ED & _). destruct (set_hypers_local X o h C) as (X' & E1 & CX & HM & SH).
  destruct (SH ds E) as [G1 G2]. exists X', ds, (fst (set_hypers ds h)). split; [exact E1|]. split; [exact CX|]. split; [exact HM|]. split; [exact E|].
  split; [rewrite ED; discriminate|]. split; [exact G1|]. rewrite G2. exact (proj2 (C41_set ds h ND)).
Qed.
Print Assumptions C55_set_hypers.

(** The same for the row divider of the view of a column. *)
Theorem C55_set_hypers_divider : forall X m o h, crosscat X -> In m X -> In o (columns_of m) -> NoDup (keys h) ->
  exists X' s s', fst (set_hypers_row_divide (CProd X) o h) = CProd X' /\ crosscat X' /\ hypers_moved [label_of m] X X' /\
    divider m = Some (DCrp s) /\ get_cgpms_by_output_index (CProd X) (label_of m) = Ok [DCrp s] /\
    get_cgpms_by_output_index (CProd X') (label_of m) = Ok [s'] /\ untouched (DCrp s) s' /\
    (snd (set_hypers_row_divide (CProd X) o h) = Ok tt ->
      forall k, In k (hyper_names (DCrp s)) -> lookup k (dist_get_hypers s') = match lookup k h with Some v => Some v | None => lookup k (dist_get_hypers (DCrp s)) end).
Proof.
  intros X m o h C Hm Ho ND. assert (Gm := crosscat_views X m C Hm). destruct (label_components X m C Hm) as (s & E).
  assert (ER : set_hypers_row_divide (CProd X) o h = set_hypers_distribution (CProd X) (label_of m) h).
  { unfold set_hypers_row_divide. destruct (in_split _ _ Hm) as (l & r & EX).
    assert (EI : get_cgpm_current_view_index (CProd X) [o] = Ok (List.length l)).
    { rewrite EX. apply index_ok; [rewrite <- EX; exact C|discriminate|]. intros o' [<-|[]]. apply column_output; [apply Gm|exact Ho]. }
    rewrite EI. cbn [obind views_of]. unfold item. rewrite EX at 1. rewrite nth_error_app2, Nat.sub_diag by lia. cbn [nth_error obind]. unfold first_output.
    rewrite (sheet_outputs m) by apply Gm. reflexivity. }
  rewrite ER. destruct (set_hypers_local X (label_of m) h C) as (X' & E1 & CX & HM & SH). destruct (SH _ E) as [G1 G2].
  assert (ES := C41_set [DCrp s] h ND). destruct ES as [ES1 ES2]. destruct (fst (set_hypers [DCrp s] h)) as [|s' [|s2 ss]] eqn:EF; inversion ES1 as [|x y l l' U F]; subst; try (now inversion F).
  exists X', s, s'. split; [exact E1|]. split; [exact CX|]. split; [exact HM|].
  split.
  { destruct Gm as (_ & Sm & _). destruct Sm as [s0 bs cs r2i r2c _ _ _]. cbn [divider]. 
    assert (E0 := find_ok _ (crosscat_wf X C) (crp_o s0)). cbn [label_of dist_o] in E. rewrite E0 in E by (cbn [outputs]; apply in_flat_map; eexists; split; [exact Hm|now left]).
    destruct (in_split _ _ Hm) as (l0 & r0 & EX). rewrite EX in E. rewrite modelling_view in E by (try (rewrite <- EX; exact C); now left).
    assert (E2 : In (DCrp s0) [DCrp s]).
    { injection E as E. rewrite <- E. unfold modelling. apply filter_In. split; [now left|]. cbn [dist_o]. apply Z.eqb_refl. }
    destruct E2 as [E2|[]]. now rewrite E2. }
  split; [exact E|]. split; [exact G1|]. split; [exact U|]. intros R. rewrite G2 in R. destruct (ES2 R s' (or_introl eq_refl)) as (d & [<-|[]] & _ & D). exact D.
Qed.
Print Assumptions C55_set_hypers_divider.

(** The model of two views, three columns and two rows meets the hypotheses. *)
Example C55_case : crosscat demo_crosscat /\ complete demo_crosscat /\ no_gaps demo_crosscat /\ no_normal_uc demo_crosscat /\ demo_crosscat <> [] /\
  (List.length (flat_map columns_of demo_crosscat) <= 257)%nat /\ columns_given demo_crosscat (Some [2; 3]) /\
  chosen (Some [3]) right2 /\ ~ chosen (Some [3]) left2 /\ seat left2 0 <> None /\ seat left2 1 <> None /\ seat left2 0 <> seat left2 1.
Proof.
  split; [exact demo_crosscat_ok|]. split; [exact demo_complete|]. split.
  { intros r v H. exfalso. assert (R := demo_rows r v _ H). destruct H as (m & Hm & E). assert (Hc := holds_column m r v VNan (crosscat_views _ m demo_crosscat_ok Hm) E).
    destruct Hm as [<-|[<-|[]]]; [replace (columns_of left2) with [1; 2] in Hc by (vm_compute; reflexivity)|replace (columns_of right2) with [3] in Hc by (vm_compute; reflexivity)];
    destruct R as [->| ->]; repeat (destruct Hc as [<-|Hc]; [vm_compute in E; discriminate|]); destruct Hc. }
  split.
  { intros v (m & Hm & E). assert (Hc := kind_at_column m v _ (crosscat_views _ m demo_crosscat_ok Hm) E).
    destruct Hm as [<-|[<-|[]]]; [replace (columns_of left2) with [1; 2] in Hc by (vm_compute; reflexivity)|replace (columns_of right2) with [3] in Hc by (vm_compute; reflexivity)];
    repeat (destruct Hc as [<-|Hc]; [vm_compute in E; discriminate|]); destruct Hc. }
  split; [discriminate|]. split; [vm_compute; lia|]. split.
  { intros l o [= <-] Ho. replace (flat_map columns_of demo_crosscat) with [1; 2; 3] by (vm_compute; reflexivity). cbn in *. tauto. }
  split; [exists 3; split; [now left|]; replace (columns_of right2) with [3] by (vm_compute; reflexivity); now left|].
  split. { intros (o & [<-|[]] & Ho). replace (columns_of left2) with [1; 2] in Ho by (vm_compute; reflexivity). cbn in Ho. intuition discriminate. }
  split; [vm_compute; discriminate|]. split; vm_compute; discriminate.
Qed.
