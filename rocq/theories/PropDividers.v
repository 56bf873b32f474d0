(** C80: hyperparameter inference of the row dividers of a whole model draws from the
    posterior over the grid. *)
From Coq Require Import List ZArith QArith Qcanon Reals Bool String Permutation Lia Lra.
From Verif Require Import Base Xr Samp Lgamma Prims Cgpm Lib SpecPrims PrimsInv SpecComp CompInv CompDens CompThm SimShape SimLaw
  SpecTable SpecHist Table Gibbs Hist Walks SpecWalks WalksThm Trans Views ViewsThm ViewsThm2 ViewsThm3 ViewsThm4 ViewsThm5
  Hypers SpecHypers HypersThm Progress SpecProgress Crosscat HypersThm2 PropHypers ProgressThm PropProgress PropViews CrosscatThm CrosscatThm2 PropCrosscat.
From Verif Require Import SpecViews SpecCrosscat ConvThm PropConv SpecHypers SpecConv SpecPasses PassThm JointThm PropPasses.
Import ListNotations.
Local Open Scope Z_scope.

(** transition(N=n, kernels=names, outputs=outs) on a CrossCat model, the names being those of
    kernels for hyperparameters, that for row dividers among them; [m] one of its views with a
    column given and [s] the row divider of that view. However many passes there are, the
    concentration of the divider is afterwards distributed exactly as the posterior over the grid:
    in proportion to the probability of the seating of the rows under each of the values, whatever
    it was before and whatever the permutations drawn. *)
Theorem C80_exact : forall X g outs names m, crosscat X -> grids_for X (grids_columns g) (grids_dividers g) -> columns_given X outs -> In m X -> chosen outs m ->
  (forall nm, In nm names -> In nm hypers_kernels) -> In "hypers_row_divide"%string names -> (In "hypers_distributions"%string names -> no_normal_uc X) ->
  exists s, get_cgpms_by_output_index (CProd X) (label_of m) = Ok [DCrp s] /\
  let alphas := grid_of (grids_dividers g) "alpha" in
  let seating a := weight [DCrp s] [("alpha"%string, a)] in
  forall fuel clock rowids n, (1 <= n < fuel)%nat ->
  let inference := transition fuel clock g (CProd X) (Some (nq n)) None (Some names) outs rowids in
  (exists ls, agreed ls inference) /\
  forall ls f, agreed ls inference ->
    expect (settle ls inference) (fun r => f (hypers_of (fst r) (label_of m))) =
    (rsum (map (fun a => seating a * f [("alpha"%string, a)]) alphas) / rsum (map seating alphas))%R.
Proof.
  intros X g outs names m C GF HO Hm Hc HN HI NUC. destruct (label_components X m C Hm) as (s & E). exists s. split; [exact E|]. cbn zeta.
  intros fuel clock rowids n Hn. destruct (tours X g outs names C HO) as (labels & NL & HL & CH & VI).
  rewrite (named X fuel clock g n outs rowids labels names Hn HN). set (ps := List.concat (repeat (map (tour X g outs labels) names) n)).
  set (Os := targets X names) in *. assert (TUN := targets_tunable X g names C NUC GF).
  assert (IX : inv X Os X) by (split; [exact C|apply hypers_moved_refl]).
  assert (VP : forall p, In p ps -> visiting X Os (their_grids X g) p).
  { intros p Hp. apply in_rounds in Hp. apply in_map_iff in Hp. destruct Hp as (nm & <- & Hnm). apply VI. exact Hnm. }
  assert (HoO : In (label_of m) Os) by (apply in_or_app; right; now apply in_map).
  assert (TM : (1 <= times (label_of m) ps)%nat).
  { unfold ps. rewrite times_rounds. assert (T := times_label X g outs labels names (label_of m) HI (CH m Hm Hc)). nia. }
  assert (EG := label_grids X g m Hm).
  assert (DI : forall d, In d [DCrp s] -> dinv d) by (intros d Hd; apply (column_dinv (CProd X) (crosscat_wf X C) _ _ E d Hd)).
  assert (CL := proj1 (proj2 (crp_tunable s))). assert (NU := proj2 (proj2 (crp_tunable s))). assert (GG := proj2 GF s).
  destruct (own_hypers_good (DCrp s) (DI _ (or_introl eq_refl)) NU) as [_ KH]. split.
  - destruct (passes_orders X Os _ (label_of m) [DCrp s] [] (DCrp s) TUN E eq_refl CL DI ps VP) as (ls & L). exists ls. apply L. exact IX.
  - intros ls f AG.
    destruct (passes_law X Os _ (label_of m) [DCrp s] [] (DCrp s) (grids_dividers g) C TUN HoO E eq_refl CL NU DI EG GG f ps VP ls X IX AG) as (ords & PO & LO & LAW).
    rewrite (LAW X (dist_get_hypers (DCrp s)) IX).
    + apply laws_one; [intros h; apply weight_pos; exact DI|apply (proj1 GG); now left|intros ->; cbn in LO; lia|exact PO|exact KH].
    + exists [DCrp s]. split; [exact E|]. split; [apply adjusted_all|reflexivity].
Qed.
Print Assumptions C80_exact.

(** And the concentrations of several views are independent: the mean of a product of functions
    of them, one for each view, is the product of their means under the posteriors. [os] are the
    names of the assignments of rows in the views. *)
Theorem C80_joint : forall X g outs names os, crosscat X -> grids_for X (grids_columns g) (grids_dividers g) -> columns_given X outs ->
  NoDup os -> (forall o, In o os -> exists m, In m X /\ chosen outs m /\ o = label_of m) ->
  (forall nm, In nm names -> In nm hypers_kernels) -> In "hypers_row_divide"%string names -> (In "hypers_distributions"%string names -> no_normal_uc X) ->
  let alphas := grid_of (grids_dividers g) "alpha" in
  let seating o a := weight (components_of (CProd X) o) [("alpha"%string, a)] in
  forall fuel clock rowids n, (1 <= n < fuel)%nat ->
  let inference := transition fuel clock g (CProd X) (Some (nq n)) None (Some names) outs rowids in
  forall ls f, agreed ls inference ->
    expect (settle ls inference) (fun r => all_of (fun o => f o (hypers_of (fst r) o)) os) =
    all_of (fun o => rsum (map (fun a => seating o a * f o [("alpha"%string, a)]) alphas) / rsum (map (seating o) alphas))%R os.
Proof.
  intros X g outs names os C GF HO NDO HOS HN HI NUC alphas seating fuel clock rowids n Hn inference ls f. subst inference.
  destruct (tours X g outs names C HO) as (labels & NL & HL & CH & VI).
  rewrite (named X fuel clock g n outs rowids labels names Hn HN). set (ps := List.concat (repeat (map (tour X g outs labels) names) n)). intros AG.
  set (Os := targets X names) in *. assert (TUN := targets_tunable X g names C NUC GF).
  assert (IX : inv X Os X) by (split; [exact C|apply hypers_moved_refl]).
  assert (VP : forall p, In p ps -> visiting X Os (their_grids X g) p).
  { intros p Hp. apply in_rounds in Hp. apply in_map_iff in Hp. destruct Hp as (nm & <- & Hnm). apply VI. exact Hnm. }
  set (DS := components_of (CProd X)). set (D0 := fun o => hd ber_first (DS o)).
  assert (CRP : forall o, In o os -> exists s, get_cgpms_by_output_index (CProd X) o = Ok [DCrp s] /\ DS o = [DCrp s] /\ D0 o = DCrp s).
  { intros o Ho. destruct (HOS o Ho) as (m & Hm & _ & ->). destruct (label_components X m C Hm) as (s & E). exists s.
    unfold D0, DS, components_of. rewrite E. repeat split. }
  destruct (passes_joint X Os (their_grids X g) os DS D0 (fun _ => grids_dividers g) f C TUN NDO) with (ps := ps) (ls := ls) (Y := X) as (ords & PO & LAW); auto.
  { intros o Ho. destruct (HOS o Ho) as (m & Hm & _ & ->). destruct (CRP _ Ho) as (s & E & -> & ->). split; [exact E|]. split; [apply crp_tunable|].
    split; [apply label_grids; exact Hm|apply (proj2 GF)]. }
  rewrite (LAW X (fun o => dist_get_hypers (D0 o)) IX).
  - unfold joint. apply all_ext. intros o Ho. destruct (PO o Ho) as [P1 P2]. destruct (CRP o Ho) as (s & E & ES & E0). unfold seating. fold DS. rewrite ES in *. rewrite E0 in *.
    assert (DI : forall d, In d [DCrp s] -> dinv d) by (intros d Hd; apply (column_dinv (CProd X) (crosscat_wf X C) _ _ E d Hd)).
    destruct (own_hypers_good (DCrp s) (DI _ (or_introl eq_refl)) (proj2 (proj2 (crp_tunable s)))) as [_ KH].
    apply laws_one; [intros h; apply weight_pos; exact DI|apply (proj1 (proj2 GF s)); now left| |exact P1|exact KH].
    intros EO. rewrite EO in P2. cbn in P2. destruct (HOS o Ho) as (m & Hm & Hc & ->). unfold ps in P2. rewrite times_rounds in P2.
    assert (TL := times_label X g outs labels names (label_of m) HI (CH m Hm Hc)). nia.
  - intros o Ho. destruct (CRP o Ho) as (s & E & ES & E0). rewrite ES, E0. exists [DCrp s]. split; [exact E|]. split; [apply adjusted_all|reflexivity].
Qed.
Print Assumptions C80_joint.

(** ** Worked case *)

(** Two views with three columns and two rows, with the grids the sampler makes for itself;
    the view of column 2 is asked for, with the kernels for row dividers and columns. *)
Example C80_exact_case : (let names := ["hypers_row_divide"; "hypers_distributions"]%string in
    (forall nm, In nm names -> In nm hypers_kernels) /\ In "hypers_row_divide"%string names /\ no_normal_uc demo_crosscat) /\
  crosscat demo_crosscat /\ columns_given demo_crosscat (Some [2]) /\
  (exists m, In m demo_crosscat /\ chosen (Some [2]) m) /\
  exists g, new_sampler (fun a _ n => repeat a n) false (CProd demo_crosscat) = Ok g /\ grids_for demo_crosscat (grids_columns g) (grids_dividers g).
Proof.
  destruct C79_converges_case as ((HN & _) & A & NU & _ & I2 & G). split; [split; [exact HN|split; [now left|exact NU]]|]. split; [exact A|]. split; [|split; [|exact G]].
  - intros l o [= <-] [<-|[]]. exact I2.
  - apply in_flat_map in I2. destruct I2 as (m & Hm & H2). exists m. split; [exact Hm|]. exists 2. split; [now left|exact H2].
Qed.

(** The row dividers of both views. *)
Example C80_joint_case : crosscat demo_crosscat /\ columns_given demo_crosscat None /\ List.length (map label_of demo_crosscat) = 2%nat /\
  NoDup (map label_of demo_crosscat) /\ forall o, In o (map label_of demo_crosscat) -> exists m, In m demo_crosscat /\ chosen None m /\ o = label_of m.
Proof.
  destruct C79_converges_case as (_ & A & _). split; [exact A|]. split; [discriminate|]. split; [vm_compute; reflexivity|]. split.
  - vm_compute. repeat constructor; cbn; intuition discriminate.
  - intros o Ho. apply in_map_iff in Ho. destruct Ho as (m & <- & Hm). exists m. repeat split. exact Hm.
Qed.
