(** C79: hyperparameter inference of a whole model converges in every column. *)
From Coq Require Import List ZArith QArith Qcanon Reals Bool String Permutation Lia Lra.
From Verif Require Import Base Xr Samp Lgamma Prims Cgpm Lib SpecPrims PrimsInv SpecComp CompInv CompDens CompThm SimShape SimLaw
  SpecTable SpecHist Table Gibbs Hist Walks SpecWalks WalksThm Trans Views ViewsThm ViewsThm2 ViewsThm3 ViewsThm4 ViewsThm5
  Hypers SpecHypers HypersThm Progress SpecProgress Crosscat HypersThm2 PropHypers ProgressThm PropProgress PropViews CrosscatThm CrosscatThm2 PropCrosscat.
From Verif Require Import SpecViews SpecCrosscat ConvThm PropConv SpecHypers SpecConv SpecPasses PassThm JointThm.
Import ListNotations.
Local Open Scope Z_scope.

Lemma named : forall X fuel clock g n outs rowids labels names, (1 <= n < fuel)%nat -> (forall nm, In nm names -> In nm hypers_kernels) ->
  transition fuel clock g (CProd X) (Some (nq n)) None (Some names) outs rowids =
  following (List.concat (repeat (map (tour X g outs labels) names) n)) (CProd X, Ok tt).
Proof.
  intros X fuel clock g n outs rowids labels names [Hn Hf] HN. unfold transition, run_kernels. rewrite (toured X g outs rowids labels names HN).
  rewrite C42_passes by assumption. unfold following. cbn [snd fst]. rewrite map_rounds. reflexivity.
Qed.

Lemma given : forall X outs o, crosscat X -> In o (match outs with None | Some [] => flat_map columns_of X | Some l => l end) -> In o (outputs_or (CProd X) outs).
Proof. intros X outs o C. unfold outputs_or. destruct outs as [[|? ?]|]; auto; rewrite distribution_outputs by exact C; auto. Qed.

(** transition(N=n, kernels=names, outputs=outs) on a CrossCat model with grids for its columns
    and row dividers, the names being those of kernels for hyperparameters, that for columns
    among them. For each of the columns given there is a factor [q] below 1 such that the mean of
    any function of the hyperparameters of that column is, after [n] passes, within q^(n-1) times
    the largest deviation of its mean under the posterior over the grids of the column. The
    permutations drawn (orders of columns, views and hyperparameters) can be any, but are fixed
    beforehand. *)
Theorem C79_converges : forall X g outs names o, crosscat X -> no_normal_uc X -> grids_for X (grids_columns g) (grids_dividers g) -> columns_given X outs ->
  (forall nm, In nm names -> In nm hypers_kernels) -> NoDup names -> In "hypers_distributions"%string names ->
  In o (match outs with None | Some [] => flat_map columns_of X | Some l => l end) ->
  exists ds d0 gs q, get_cgpms_by_output_index (CProd X) o = Ok ds /\ hd_error ds = Some d0 /\ lookup o (grids_columns g) = Some gs /\ (0 <= q < 1)%R /\
  forall f B, (forall h, on_grids gs (hyper_names d0) h -> (Rabs (f h - grid_posterior ds gs (hyper_names d0) f) <= B)%R) ->
  forall fuel clock rowids n, (1 <= n < fuel)%nat ->
  let m := transition fuel clock g (CProd X) (Some (nq n)) None (Some names) outs rowids in
  (exists ls, agreed ls m) /\
  forall ls, agreed ls m ->
    (Rabs (expect (settle ls m) (fun r => f (hypers_of (fst r) o)) - grid_posterior ds gs (hyper_names d0) f) <= q ^ (n - 1) * B)%R.
Proof.
  intros X g outs names o C NUC GF HO HN NDN HI OI. assert (OI' := given X outs o C OI). assert (Ho := outputs_or_columns X outs o C HO OI').
  destruct (column_tunable X o C NUC Ho) as (ds & d0 & E & ((rest & ED) & CL & NU) & T). destruct (proj1 GF o d0 T) as (gs & L & GG).
  assert (DI : forall d, In d ds -> dinv d) by (intros d Hd; apply (column_dinv (CProd X) (crosscat_wf X C) o ds E d Hd)).
  destruct (own_hypers_good d0 (DI d0 ltac:(rewrite ED; now left)) NU) as [GH KH].
  assert (W : forall h, (0 < weight ds h)%R) by (intros h; apply weight_pos; exact DI).
  destruct (sweeps_converge (weight ds) gs (hyper_names d0) (dist_get_hypers d0) W (names_nodup d0) KH (proj1 GG)) as (q & Q & CV).
  assert (EG : their_grids X g o = Ok gs) by (rewrite column_grids by assumption; unfold dget; rewrite L; reflexivity).
  exists ds, d0, gs, q. split; [exact E|]. split; [rewrite ED; reflexivity|]. split; [exact L|]. split; [exact Q|].
  intros f B FB fuel clock rowids n Hn m. subst m. destruct (tours X g outs names C HO) as (labels & NL & HL & CH & VI).
  rewrite (named X fuel clock g n outs rowids labels names Hn HN). set (ps := List.concat (repeat (map (tour X g outs labels) names) n)).
  set (Os := targets X names) in *. assert (TUN := targets_tunable X g names C (fun _ => NUC) GF).
  assert (IX : inv X Os X) by (split; [exact C|apply hypers_moved_refl]).
  assert (VP : forall p, In p ps -> visiting X Os (their_grids X g) p).
  { intros p Hp. apply in_rounds in Hp. apply in_map_iff in Hp. destruct Hp as (nm & <- & Hnm). apply VI. exact Hnm. }
  assert (HoO : In o Os).
  { apply in_or_app. left. destruct (in_dec string_dec "hypers_distributions"%string names) as [_|N]; [exact Ho|contradiction]. }
  assert (TM : times o ps = n).
  { unfold ps. rewrite times_rounds, (times_column X g outs labels names o C NDN HI HL Ho OI'). lia. }
  split.
  - destruct (passes_orders X Os _ o ds rest d0 TUN E ED CL DI ps VP) as (ls & HL'). exists ls. apply HL'. exact IX.
  - intros ls AG.
    destruct (passes_law X Os _ o ds rest d0 gs C TUN HoO E ED CL NU DI EG GG f ps VP ls X IX AG) as (ords & PO & LO & LAW). rewrite TM in LO.
    rewrite (LAW X (dist_get_hypers d0) IX).
    + assert (PE : pi (weight ds) gs (hyper_names d0) (dist_get_hypers d0) f = grid_posterior ds gs (hyper_names d0) f).
      { unfold pi, grid_posterior. rewrite ED. reflexivity. }
      rewrite <- PE in *. destruct ords as [|x ords]; [cbn in LO; lia|].
      destruct (CV f B FB ords (fun y Hy => PO y (or_intror Hy))) as [_ C2].
      replace (n - 1)%nat with (List.length ords) by (cbn in LO; lia). apply C2; [apply PO; now left|exact KH].
    + exists ds. split; [exact E|]. split; [apply adjusted_all|]. rewrite ED. reflexivity.
Qed.
Print Assumptions C79_converges.

(** So the mean of any function of the hyperparameters of a column tends to its mean under the
    posterior as passes are added. *)
Theorem C79_limit : forall X g outs names o, crosscat X -> no_normal_uc X -> grids_for X (grids_columns g) (grids_dividers g) -> columns_given X outs ->
  (forall nm, In nm names -> In nm hypers_kernels) -> NoDup names -> In "hypers_distributions"%string names ->
  In o (match outs with None | Some [] => flat_map columns_of X | Some l => l end) ->
  exists ds d0 gs, get_cgpms_by_output_index (CProd X) o = Ok ds /\ hd_error ds = Some d0 /\ lookup o (grids_columns g) = Some gs /\
  forall f eps, (0 < eps)%R -> exists M, forall fuel clock rowids n ls, (M < n < fuel)%nat ->
    agreed ls (transition fuel clock g (CProd X) (Some (nq n)) None (Some names) outs rowids) ->
    (Rabs (expect (settle ls (transition fuel clock g (CProd X) (Some (nq n)) None (Some names) outs rowids)) (fun r => f (hypers_of (fst r) o)) -
           grid_posterior ds gs (hyper_names d0) f) < eps)%R.
Proof.
  intros X g outs names o C NUC GF HO HN NDN HI OI. destruct (C79_converges X g outs names o C NUC GF HO HN NDN HI OI) as (ds & d0 & gs & q & E & HD & L & (Q0 & Q1) & CV).
  exists ds, d0, gs. split; [exact E|]. split; [exact HD|]. split; [exact L|]. intros f eps EP.
  assert (Ho := outputs_or_columns X outs o C HO (given X outs o C OI)).
  destruct (column_tunable X o C NUC Ho) as (ds1 & d1 & E1 & ((rest & ED) & CL & NU) & _). rewrite E in E1. injection E1 as <-.
  rewrite ED in HD. injection HD as ->.
  assert (D0 : dinv d0) by (apply (column_dinv (CProd X) (crosscat_wf X C) o ds E); rewrite ED; now left). destruct (own_hypers_good d0 D0 NU) as [_ KH].
  destruct (bounded gs (hyper_names d0) (dist_get_hypers d0) (names_nodup d0) KH
    (fun h => (f h - grid_posterior ds gs (hyper_names d0) f)%R)) as (B & B0 & FB).
  destruct (pow_lt_1_zero q ltac:(rewrite Rabs_right; lra) (eps / (B + 1))) as (M & HM).
  { apply Rdiv_lt_0_compat; lra. }
  exists M. intros fuel clock rowids n ls Hn AG. destruct (CV f B FB fuel clock rowids n ltac:(lia)) as [_ CV2].
  apply Rle_lt_trans with (1 := CV2 ls AG).
  assert (X1 := HM (n - 1)%nat ltac:(lia)). assert (Y := pow_le q (n - 1) Q0). rewrite Rabs_right in X1 by lra.
  apply Rle_lt_trans with (q ^ (n - 1) * (B + 1))%R; [apply Rmult_le_compat_l; lra|].
  apply (Rmult_lt_compat_r (B + 1)) in X1; [|lra]. unfold Rdiv in X1. rewrite Rmult_assoc, Rinv_l, Rmult_1_r in X1 by lra. exact X1.
Qed.
Print Assumptions C79_limit.

(** And in the limit the hyperparameters of different columns are independent: the mean of a
    product of functions of them, one for each column, tends to the product of their means under
    the posteriors. *)
Theorem C79_joint : forall X g outs names os, crosscat X -> no_normal_uc X -> grids_for X (grids_columns g) (grids_dividers g) -> columns_given X outs ->
  (forall nm, In nm names -> In nm hypers_kernels) -> NoDup names -> In "hypers_distributions"%string names ->
  NoDup os -> (forall o, In o os -> In o (match outs with None | Some [] => flat_map columns_of X | Some l => l end)) ->
  let posterior o f := let ds := components_of (CProd X) o in
    match hd_error ds, lookup o (grids_columns g) with Some d, Some gs => grid_posterior ds gs (hyper_names d) f | _, _ => 0%R end in
  forall f eps, (0 < eps)%R -> exists M, forall fuel clock rowids n ls, (M < n < fuel)%nat ->
    let inference := transition fuel clock g (CProd X) (Some (nq n)) None (Some names) outs rowids in
    agreed ls inference ->
    (Rabs (expect (settle ls inference) (fun r => all_of (fun o => f o (hypers_of (fst r) o)) os) - all_of (fun o => posterior o (f o)) os) < eps)%R.
Proof.
  intros X g outs names os C NUC GF HO HN NDN HI NDO HOS posterior f eps EP.
  destruct (tours X g outs names C HO) as (labels & NL & HL & CH & VI).
  set (Os := targets X names) in *. assert (TUN := targets_tunable X g names C (fun _ => NUC) GF).
  assert (IX : inv X Os X) by (split; [exact C|apply hypers_moved_refl]).
  set (DS := components_of (CProd X)) in *. set (D0 := fun o => hd ber_first (DS o)).
  set (GS := fun o => match lookup o (grids_columns g) with Some gs => gs | None => [] end).
  assert (OO : forall o, In o os -> In o (outputs_or (CProd X) outs)) by (intros o Ho; apply (given X outs o C (HOS o Ho))).
  assert (OC : forall o, In o os -> In o (flat_map columns_of X)) by (intros o Ho; apply (outputs_or_columns X outs o C HO (OO o Ho))).
  assert (COL : forall o, In o os -> exists rest, get_cgpms_by_output_index (CProd X) o = Ok (DS o) /\ DS o = D0 o :: rest /\ tunable (DS o) (D0 o) /\
    lookup o (grids_columns g) = Some (GS o) /\ good_grids (D0 o) (GS o)).
  { intros o Ho. destruct (column_tunable X o C NUC (OC o Ho)) as (ds & d0 & E & TU & T). destruct (proj1 GF o d0 T) as (gs & L & GG).
    assert (TU' := TU). destruct TU' as ((rest & ED) & _). exists rest. unfold GS, D0, DS, components_of. rewrite E, L, ED. cbn [hd]. rewrite <- ED. repeat split; try exact E; try apply TU; try apply GG. }
  destruct (all_limit (fun n a => exists ords, (forall x, In x os -> perms (D0 x) (ords x) /\ List.length (ords x) = n) /\
      a = fun x => laws (weight (DS x)) (GS x) (ords x) (f x) (dist_get_hypers (D0 x))) (fun o => posterior o (f o)) os) with (eps := eps) as (M & HM); [|exact EP|].
  - intros x Hx e E0. destruct (COL x Hx) as (rest & E & ED & (_ & CL & NU) & L & GG).
    assert (DI : forall d, In d (DS x) -> dinv d) by (intros d Hd; apply (column_dinv (CProd X) (crosscat_wf X C) x (DS x) E d Hd)).
    destruct (own_hypers_good (D0 x) (DI (D0 x) ltac:(rewrite ED; now left)) NU) as [GH KH].
    assert (W : forall h, (0 < weight (DS x) h)%R) by (intros h; apply weight_pos; exact DI).
    destruct (sweeps_converge (weight (DS x)) (GS x) (hyper_names (D0 x)) (dist_get_hypers (D0 x)) W (names_nodup (D0 x)) KH (proj1 GG)) as (q & (Q0 & Q1) & CV).
    assert (PE : posterior x (f x) = pi (weight (DS x)) (GS x) (hyper_names (D0 x)) (dist_get_hypers (D0 x)) (f x)).
    { unfold posterior. rewrite L. fold DS. unfold grid_posterior, pi, common. rewrite ED. reflexivity. }
    destruct (bounded (GS x) (hyper_names (D0 x)) (dist_get_hypers (D0 x)) (names_nodup (D0 x)) KH (fun h => (f x h - posterior x (f x))%R)) as (B & B0 & FB).
    destruct (pow_lt_1_zero q ltac:(rewrite Rabs_right; lra) (e / (B + 1))) as (M & HM).
    { apply Rdiv_lt_0_compat; lra. }
    exists M. intros n a Hn (ords & PO & ->). destruct (PO x Hx) as [P1 P2]. destruct (ords x) as [|y ys]; [cbn in P2; lia|].
    rewrite PE in FB |- *. destruct (CV (f x) B FB ys (fun z Hz => P1 z (or_intror Hz))) as [_ C2].
    specialize (C2 y (dist_get_hypers (D0 x)) (P1 y (or_introl eq_refl)) KH). apply Rle_lt_trans with (1 := C2).
    cbn in P2. assert (X1 := HM (List.length ys) ltac:(lia)). assert (Y := pow_le q (List.length ys) Q0). rewrite Rabs_right in X1 by lra.
    apply Rle_lt_trans with (q ^ List.length ys * (B + 1))%R; [apply Rmult_le_compat_l; lra|].
    apply (Rmult_lt_compat_r (B + 1)) in X1; [|lra]. unfold Rdiv in X1. rewrite Rmult_assoc, Rinv_l, Rmult_1_r in X1 by lra. exact X1.
  - exists M. intros fuel clock rowids n ls Hn inference. subst inference.
    rewrite (named X fuel clock g n outs rowids labels names ltac:(lia) HN). set (ps := List.concat (repeat (map (tour X g outs labels) names) n)). intros AG.
    assert (VP : forall p, In p ps -> visiting X Os (their_grids X g) p).
    { intros p Hp. apply in_rounds in Hp. apply in_map_iff in Hp. destruct Hp as (nm & <- & Hnm). apply VI. exact Hnm. }
    destruct (passes_joint X Os (their_grids X g) os DS D0 GS f C TUN NDO) with (ps := ps) (ls := ls) (Y := X) as (ords & PO & LAW); auto.
    { intros o Ho. destruct (COL o Ho) as (rest & E & ED & TU & L & GG). split; [exact E|]. split; [exact TU|]. split; [|exact GG].
      rewrite column_grids by auto. unfold dget. rewrite L. reflexivity. }
    rewrite (LAW X (fun o => dist_get_hypers (D0 o)) IX).
    + apply (HM n); [lia|]. exists ords. split; [|reflexivity]. intros x Hx. destruct (PO x Hx) as [P1 P2]. split; [exact P1|]. rewrite P2. unfold ps.
      rewrite times_rounds, (times_column X g outs labels names x C NDN HI HL (OC x Hx) (OO x Hx)). lia.
    + intros o Ho. destruct (COL o Ho) as (rest & E & ED & _). exists (DS o). split; [exact E|]. split; [apply adjusted_all|]. rewrite ED. reflexivity.
Qed.
Print Assumptions C79_joint.

(** ** Worked case *)

(** Two views with three columns and two rows, with the grids the sampler makes for itself, and
    the kernels for columns and row dividers. *)
Example C79_converges_case : (let names := ["hypers_row_divide"; "hypers_distributions"]%string in
    (forall nm, In nm names -> In nm hypers_kernels) /\ NoDup names /\ In "hypers_distributions"%string names) /\
  crosscat demo_crosscat /\ no_normal_uc demo_crosscat /\ columns_given demo_crosscat (Some [2; 3]) /\
  In 2 (flat_map columns_of demo_crosscat) /\
  exists g, new_sampler (fun a _ n => repeat a n) false (CProd demo_crosscat) = Ok g /\ grids_for demo_crosscat (grids_columns g) (grids_dividers g).
Proof.
  split.
  { cbn zeta. split; [intros nm [<-|[<-|[]]]; cbn; tauto|]. split; [|cbn; tauto]. repeat constructor; cbn; intuition discriminate. }
  destruct C55_case as (A & _ & _ & NU & NE & _ & G & _). split; [exact A|]. split; [exact NU|]. split; [exact G|]. split.
  { replace (flat_map columns_of demo_crosscat) with [1; 2; 3] by (vm_compute; reflexivity). cbn. tauto. }
  destruct (new_sampler_ok (fun a _ n => repeat a n) false demo_crosscat C41_spaced_case A NE NU) as (g & E & _ & GF). exists g. split; [exact E|exact GF].
Qed.

(** The columns 2 and 3 of it, which are given, together. *)
Example C79_joint_case : columns_given demo_crosscat (Some [2; 3]) /\ NoDup [2; 3] /\ forall o, In o [2; 3] -> In o (match Some [2; 3] with None | Some [] => flat_map columns_of demo_crosscat | Some l => l end).
Proof. destruct C79_converges_case as (_ & _ & _ & G & _). split; [exact G|]. split; [repeat constructor; cbn; intuition discriminate|auto]. Qed.
