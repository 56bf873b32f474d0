(** C41: inference of hyperparameters. *)
From Coq Require Import List ZArith QArith Qcanon Reals Bool String Permutation Lia Lra.
From Coq Require Import Relations.Relation_Operators.
From Verif Require Import Base Xr Samp Lgamma Prims Cgpm Lib SpecPrims PrimsInv PrimsDens PrimsThm PrimsThm2
  SpecComp CompInv CompDens SimLaw CompThm PropPrims DemoComp SpecBook Book SpecWalks WalksThm Walks Hypers SpecHypers HypersThm Crosscat HypersThm2.
Import ListNotations.
Local Open Scope Z_scope.

(** ** What can change *)

(** Whatever the components and the grids, and whether transition_hypers returns or raises,
    no component changes in anything but its hyperparameters. If it returns, the components
    are the old ones after set_hypers of the same result, whose values are from the grids. *)
Theorem C41_touches : forall ds gs, always (transition_hypers ds gs) (fun r =>
  Forall2 untouched ds (fst r) /\
  forall h, snd r = Ok h ->
    fst r = map (retune h) ds /\
    forall d k, In d (fst r) -> In k (hyper_names d) ->
      exists v, lookup k h = Some v /\ lookup k (dist_get_hypers d) = Some v /\ In v (grid_of gs k)).
Proof.
  intros ds gs. unfold transition_hypers. destruct (first_of ds) as [d0|e] eqn:FO; cycle 1.
  { cbn [always fst snd]. split; [|discriminate]. clear. induction ds; constructor; auto. repeat split. destruct a; reflexivity. }
  cbn [always]. intros l HP. set (h0 := dist_get_hypers d0). set (names := map (fun i => nth i (keys h0) ""%string) l).
  assert (PN : Permutation (keys h0) names).
  { apply permuted_names. unfold keys. rewrite map_length. exact HP. }
  assert (IN : incl names (keys h0)) by (intros k Hk; apply (Permutation_in k (Permutation_sym PN) Hk)).
  eapply always_imp; [|apply (in_order_main ds h0 gs names IN)]. intros r (A & B). split.
  { clear - A. induction A as [|d d' ds ds' A F IH]; constructor; auto. now apply adjusted_untouched. }
  intros h E. destruct (B h E) as ((K1 & K2 & K3) & EQ & GH). split; [exact EQ|]. intros d k Hd Hk. rewrite EQ in Hd.
  apply in_map_iff in Hd. destruct Hd as (d1 & <- & Hd1). destruct (retune_class h d1) as [CL _]. destruct (class_names _ _ CL) as [NM _].
  rewrite NM in Hk. destruct (GH d1 Hd1) as [G1 G2]. destruct (G1 k Hk) as [v Hv]. exists v. split; [exact Hv|]. split.
  - unfold retune. destruct (dist_set_hypers d1 h) as [d2 r2] eqn:SE. destruct (set_hypers_spec _ _ _ _ SE) as (S1 & _ & _ & S4).
    destruct S1 as [S1 _]. rewrite (S1 (GH d1 Hd1)) in S4. cbn [fst]. rewrite (S4 k Hk). exact Hv.
  - assert (Hn : In k names).
    { apply (Permutation_in k PN). rewrite <- K1. apply (lookup_Some_keys _ _ _ Hv). }
    destruct (K2 k Hn) as (v' & L & G). congruence.
Qed.
Print Assumptions C41_touches.

(** In a model: the components of column [o] having been changed in place, the model differs
    in the hyperparameters of that column at most, and the other columns not at all. *)
Theorem C41_column : forall X o ds gs, grown X -> get_cgpms_by_output_index X o = Ok ds ->
  always (transition_hypers ds gs) (fun r => exists X',
    put_column o X (fst r) = (X', []) /\
    get_cgpms_by_output_index X' o = Ok (fst r) /\
    (forall o', o' <> o -> get_cgpms_by_output_index X' o' = get_cgpms_by_output_index X o') /\
    tuned_at o X X' /\ outputs X' = outputs X /\ grown X').
Proof.
  intros X o ds gs G E. unfold transition_hypers. destruct (first_of ds) as [d0|e] eqn:FO.
  - cbn [always]. intros l HP. set (h0 := dist_get_hypers d0). set (names := map (fun i => nth i (keys h0) ""%string) l).
    assert (PN : Permutation (keys h0) names).
    { apply permuted_names. unfold keys. rewrite map_length. exact HP. }
    assert (IN : incl names (keys h0)) by (intros k Hk; apply (Permutation_in k (Permutation_sym PN) Hk)).
    eapply always_imp; [|apply (in_order_main ds h0 gs names IN)]. intros r (A & _).
    destruct (puts_all o X ds E (fst r) [] A) as (X' & P1 & P2 & P3 & P4 & P5 & P6). rewrite app_nil_r in P1.
    exists X'. repeat (split; [assumption|]). apply (grown_rts X X' G P2).
  - cbn [always fst snd]. destruct (puts_all o X ds E ds [] (adjusted_all ds)) as (X' & P1 & P2 & P3 & P4 & P5 & P6). rewrite app_nil_r in P1.
    exists X'. repeat (split; [assumption|]). apply (grown_rts X X' G P2).
Qed.
Print Assumptions C41_column.

(** ** When it returns *)

(** The components of a column of any reachable model, with grids that have a value for each
    hyperparameter (positive where it must be): transition_hypers returns. *)
Theorem C41_returns : forall X o ds d0 gs, grown X -> get_cgpms_by_output_index X o = Ok ds -> tunable ds d0 -> good_grids d0 gs ->
  always (transition_hypers ds gs) (fun r => exists h, r = (map (retune h) ds, Ok h)).
Proof.
  intros X o ds d0 gs G E ((rest & ED) & CL & NU) (G1 & G2). assert (DI := column_dinv X (grown_wf X G) o ds E).
  unfold transition_hypers. rewrite (first_tunable ds d0 rest ED CL). cbn [always]. intros l HP.
  assert (D0 : dinv d0) by (apply DI; rewrite ED; now left). destruct (own_hypers_good d0 D0 NU) as [GH KH].
  set (h0 := dist_get_hypers d0) in *. set (names := map (fun i => nth i (keys h0) ""%string) l).
  assert (PN : Permutation (keys h0) names).
  { apply permuted_names. unfold keys. rewrite map_length. exact HP. }
  rewrite KH in PN.
  destruct (order_law d0 ds gs (fun _ => 0%R) names ds h0 (adjusted_all ds)) as (_ & A & _).
  - intros d Hd. split; [apply DI; exact Hd|apply CL; exact Hd].
  - exact GH.
  - intros k Hk. apply G1. apply (Permutation_in k (Permutation_sym PN) Hk).
  - intros k v _ Hp Hv. exact (G2 k v Hp Hv).
  - exact A.
Qed.
Print Assumptions C41_returns.

(** The grids the code itself constructs, transition_hyper_grids(cgpms, n) with n >= 1, will
    do (assuming that log_linspace gives points between its ends). *)
Theorem C41_own_grids : forall logspace X o ds d0 n, spaced logspace -> (1 <= n)%nat ->
  grown X -> get_cgpms_by_output_index X o = Ok ds -> tunable ds d0 ->
  exists gs, transition_hyper_grids logspace ds n = Ok gs /\ good_grids d0 gs /\ keys gs = hyper_names d0 /\
    always (transition_hypers ds gs) (fun r => exists h, r = (map (retune h) ds, Ok h)).
Proof.
  intros f X o ds d0 n SP N G E T. assert (T' := T). destruct T' as ((rest & ED) & CL & NU).
  unfold transition_hyper_grids. rewrite (first_tunable ds d0 rest ED CL). cbn [obind].
  match goal with |- exists gs, Ok (construct_hyper_grids _ _ ?D _) = _ /\ _ => set (data := D) end.
  destruct (own_grids f d0 data n SP N NU) as (A & B & C).
  exists (construct_hyper_grids f d0 data n). split; [reflexivity|]. split; [exact A|]. split; [exact B|].
  exact (C41_returns X o ds d0 _ G E T A).
Qed.
Print Assumptions C41_own_grids.

(** A NormalUC column has no grids: construct_hyper_grids is empty, so that inference on its
    components always raises KeyError, whatever the data, and leaves them as they were. *)
Theorem C41_normal_uc_refuted : forall logspace ds s0 n, hd_error ds = Some (DNuc s0) -> (forall d, In d ds -> same_class d (DNuc s0) = true) ->
  exists gs, transition_hyper_grids logspace ds n = Ok gs /\ always (transition_hypers ds gs) (fun r => r = (ds, Err KeyError)).
Proof.
  intros f ds s0 n HD CL. destruct ds as [|d0 rest]; [discriminate|]. cbn [hd_error] in HD. injection HD as ->.
  assert (FO := first_tunable (DNuc s0 :: rest) (DNuc s0) rest eq_refl CL).
  exists []. unfold transition_hyper_grids, transition_hypers. rewrite FO. split; [reflexivity|].
  cbn [always]. intros l HP. cbn [dist_get_hypers] in *. set (h := nuc_hypers s0) in *. destruct l as [|i l]; cbn [map].
  - assert (HE : h = []). { apply Permutation_length in HP. rewrite seq_length in HP. destruct h; [reflexivity|discriminate]. }
    rewrite HE. unfold transition_hypers_in_order. cbn [sweep_hypers sbind snd fst set_all_hypers dist_set_hypers]. reflexivity.
  - reflexivity.
Qed.
Print Assumptions C41_normal_uc_refuted.

(** ** The law of the outcome *)

(** Whatever order of the hyperparameters the generator picks, each is resampled in turn from
    its grid with probability proportional to the marginal likelihood of the data of all
    components given the other hyperparameters. *)
Theorem C41_law : forall X o ds d0 gs, grown X -> get_cgpms_by_output_index X o = Ok ds -> tunable ds d0 -> good_grids d0 gs ->
  forall names f, Permutation (hyper_names d0) names ->
  let m := transition_hypers_in_order ds (dist_get_hypers d0) gs names in
  finite_choices m /\ expect m (on_result f) = gibbs_law (weight ds) gs names f (dist_get_hypers d0).
Proof.
  intros X o ds d0 gs G E ((rest & ED) & CL & NU) (G1 & G2) names f PN. assert (DI := column_dinv X (grown_wf X G) o ds E).
  assert (D0 : dinv d0) by (apply DI; rewrite ED; now left). destruct (own_hypers_good d0 D0 NU) as [GH KH].
  destruct (order_law d0 ds gs (on_result f) names ds (dist_get_hypers d0) (adjusted_all ds)) as (A & _ & B).
  - intros d Hd. split; [apply DI; exact Hd|apply CL; exact Hd].
  - exact GH.
  - intros k Hk. apply G1. apply (Permutation_in k (Permutation_sym PN) Hk).
  - intros k v _ Hp Hv. exact (G2 k v Hp Hv).
  - split; [exact A|exact B].
Qed.
Print Assumptions C41_law.

(** The posterior over the grids is invariant, for each order: if the components start with
    hyperparameters drawn with probability proportional to the marginal likelihood, they end
    so. [h] ranges over all assignments from the grids; the components start as they are
    after set_hypers(h). *)
Theorem C41_invariant : forall X o ds d0 gs, grown X -> get_cgpms_by_output_index X o = Ok ds -> tunable ds d0 -> good_grids d0 gs ->
  forall names f, Permutation (hyper_names d0) names ->
  over_grids gs (hyper_names d0) (fun h =>
    (weight ds h * expect (transition_hypers_in_order (map (retune h) ds) (dist_get_hypers (retune h d0)) gs names) (on_result f))%R)
    (dist_get_hypers d0) =
  over_grids gs (hyper_names d0) (fun h => (weight ds h * f h)%R) (dist_get_hypers d0).
Proof.
  intros X o ds d0 gs G E ((rest & ED) & CL & NU) (G1 & G2) names f PN. assert (DI := column_dinv X (grown_wf X G) o ds E).
  assert (D0 : dinv d0) by (apply DI; rewrite ED; now left). destruct (own_hypers_good d0 D0 NU) as [GH KH].
  assert (ND : NoDup (hyper_names d0)).
  { destruct d0; cbn; repeat constructor; cbn; intuition discriminate. }
  transitivity (over_grids gs (hyper_names d0) (fun h => (weight ds h * gibbs_law (weight ds) gs names f h)%R) (dist_get_hypers d0)).
  - apply (over_grids_good d0); [exact GH|rewrite KH; apply incl_refl|exact G2|]. intros h K GD. f_equal.
    rewrite (restart d0 h NU GD) by congruence.
    destruct (order_law d0 ds gs (on_result f) names (map (retune h) ds) h) as (_ & _ & B).
    + clear. induction ds as [|d ds IH]; constructor; auto. right. exists h. reflexivity.
    + intros d Hd. split; [apply DI; exact Hd|apply CL; exact Hd].
    + exact GD.
    + intros k Hk. apply G1. apply (Permutation_in k (Permutation_sym PN) Hk).
    + intros k v _ Hp Hv. exact (G2 k v Hp Hv).
    + exact B.
  - apply gibbs_invariant; auto.
    + rewrite KH. apply incl_refl.
    + intros h. apply weight_pos. intros d Hd. apply DI. exact Hd.
    + intros k Hk. apply (Permutation_in k (Permutation_sym PN) Hk).
    + intros k Hk. apply G1. apply (Permutation_in k (Permutation_sym PN) Hk).
Qed.
Print Assumptions C41_invariant.

(** transition_hypers_full draws all hyperparameters at once, from the posterior over the
    grids; nothing but hyperparameters changes. *)
Theorem C41_full : forall X o ds d0 gs, grown X -> get_cgpms_by_output_index X o = Ok ds -> tunable ds d0 -> good_grids d0 gs ->
  NoDup (keys gs) -> (forall k, In k (keys gs) -> grid_of gs k <> []) ->
  let Z := over_grids gs (keys gs) (weight ds) [] in
  (0 < Z)%R /\
  always (transition_hypers_full ds gs) (fun r => exists h, r = (map (retune h) ds, Ok h) /\
    forall k, In k (keys gs) -> exists v, lookup k h = Some v /\ In v (grid_of gs k)) /\
  forall f, expect (transition_hypers_full ds gs) (on_result f) = over_grids gs (keys gs) (fun h => weight ds h / Z * f h)%R [].
Proof.
  intros X o ds d0 gs G E ((rest & ED) & CL & NU) GG ND NE Z. assert (DI := column_dinv X (grown_wf X G) o ds E).
  assert (A : forall F, _) by (intros F; exact (full_law d0 ds gs F (ltac:(rewrite ED; discriminate)) (fun d Hd => conj (proj1 (DI d Hd)) (CL d Hd))
    (ltac:(rewrite ED; reflexivity)) ND GG NE)).
  destruct (A (fun _ => 0%R)) as (A1 & _ & A3 & _). split; [exact A1|]. split; [exact A3|].
  intros f. destruct (A (on_result f)) as (_ & _ & _ & A4). exact A4.
Qed.
Print Assumptions C41_full.

(** ** Setting hyperparameters *)

(** set_hypers(cgpms, h) changes hyperparameters only. If it returns, each component has the
    values of [h], and its own for the names that [h] does not have. *)
Theorem C41_set : forall ds h, NoDup (keys h) ->
  Forall2 untouched ds (fst (set_hypers ds h)) /\
  (snd (set_hypers ds h) = Ok tt -> forall d', In d' (fst (set_hypers ds h)) ->
    exists d, In d ds /\ untouched d d' /\ forall k, In k (hyper_names d) ->
      lookup k (dist_get_hypers d') = match lookup k h with Some v => Some v | None => lookup k (dist_get_hypers d) end).
Proof.
  intros ds h ND. assert (A := update_all_adjusted h ds). destruct A as [A B].
  assert (U : Forall2 untouched ds (fst (update_all_hypers ds h))).
  { clear - A. induction A as [|d d' l l' A F IH]; constructor; auto. now apply adjusted_untouched. }
  assert (V : snd (update_all_hypers ds h) = Ok tt -> forall d', In d' (fst (update_all_hypers ds h)) ->
    exists d, In d ds /\ untouched d d' /\ forall k, In k (hyper_names d) ->
      lookup k (dist_get_hypers d') = match lookup k h with Some v => Some v | None => lookup k (dist_get_hypers d) end).
  { intros R d' H. destruct (B R d' H) as (d & D1 & D2 & D3). exists d. split; [exact D1|]. split; [exact D2|].
    intros k Hk. rewrite (D3 k Hk). apply update_lookup. exact ND. }
  unfold set_hypers. destruct ds as [|d ds]; [split; assumption|]. destruct (first_of (d :: ds)) as [d0|e]; [split; assumption|].
  cbn [fst snd]. split; [|discriminate]. clear. induction (d :: ds) as [|x l IH]; constructor; auto. repeat split. destruct x; reflexivity.
Qed.
Print Assumptions C41_set.

(** ** Worked cases *)

(** The Categorical column of the demonstration view: two clusters and the base. *)
Definition demo_column : list dist := match get_cgpms_by_output_index demo_view 1 with Ok ds => ds | Err _ => [] end.
Definition demo_first : dist := hd cat1 demo_column.
Definition demo_grids : grids := [("alpha"%string, [half; 1%Qc; qz 3])].

Example C41_case : grown demo_view /\ get_cgpms_by_output_index demo_view 1 = Ok demo_column /\ List.length demo_column = 3%nat /\
  map (fun d => List.length (dist_data d)) demo_column = [2; 1; 0]%nat /\
  tunable demo_column demo_first /\ good_grids demo_first demo_grids /\ hyper_names demo_first = ["alpha"%string].
Proof.
  split; [exact (creachable_grown _ (proj1 demo_view_reachable))|]. split; [vm_compute; reflexivity|]. split; [vm_compute; reflexivity|].
  split; [vm_compute; reflexivity|]. split; [|split; [|vm_compute; reflexivity]].
  - split; [eexists; vm_compute; reflexivity|]. split.
    + intros d Hd. assert (X : forallb (fun d => same_class d demo_first) demo_column = true) by (vm_compute; reflexivity).
      rewrite forallb_forall in X. exact (X d Hd).
    + intros s. vm_compute. discriminate.
  - split.
    + intros k Hk. assert (K : k = "alpha"%string) by (vm_compute in Hk; intuition congruence). subst k. vm_compute. discriminate.
    + intros k v Hk Hv. assert (K : k = "alpha"%string) by (vm_compute in Hk; intuition congruence). subst k.
      unfold grid_of, demo_grids in Hv. cbn in Hv. destruct Hv as [<-|[<-|[<-|[]]]]; [exact half_pos|exact one_pos|].
      rewrite qr_qz. lra.
Qed.

(** Function [spaced] can be: all points at the lower end. *)
Example C41_spaced_case : spaced (fun a _ n => repeat a n).
Proof.
  intros a b n A B. split; [apply repeat_length|]. intros x H. apply repeat_spec in H. subst x. split; [apply Rmin_l|apply Rmax_l].
Qed.

(** NormalUC components exist in reachable models, with all their hyperparameters. *)
Example C41_normal_uc_case : exists s, reachable (DNuc s) /\ keys (dist_get_hypers (DNuc s)) = hyper_names (DNuc s) /\ good_hypers (DNuc s) (dist_get_hypers (DNuc s)).
Proof.
  set (h := [("m", 0%Qc); ("r", 1%Qc); ("s", 1%Qc); ("nu", 1%Qc)]%string : hypers).
  exists (mkNuc 4 [] 0 0%Qc 0%Qc 0%Qc 1%Qc h). split; [|split; [reflexivity|split]].
  - exists (DNuc (mkNuc 4 [] 0 0%Qc 0%Qc 0%Qc 1%Qc h)), []. split; [|reflexivity]. apply (fresh_nuc 4 h 0%Qc 1%Qc). reflexivity.
  - intros k Hk. cbn in Hk. decompose [or] Hk; try contradiction; subst k; eexists; reflexivity.
  - intros k v Hk L. cbn in Hk. decompose [or] Hk; try contradiction; subst k; cbn in L; injection L as <-; exact one_pos.
Qed.
