(** C70: dependence constraints of GibbsCrossCat. *)
From Coq Require Import List ZArith QArith Qcanon Reals Bool String Permutation Lia Sorted.
From Verif Require Import Base Xr Samp Lgamma Prims Cgpm Lib SpecPrims PrimsInv SpecComp CompInv CompDens CompThm SimShape
  SpecTable SpecHist Table Gibbs Hist Walks SpecWalks WalksThm Trans Views ViewsThm ViewsThm2 ViewsThm3 ViewsThm4 ViewsThm5
  Hypers SpecHypers HypersThm Progress SpecProgress Crosscat HypersThm2 PropHypers PropPrims DemoComp PropComp PropTable PropViews PropCpp CrosscatThm CrosscatThm2 CrosscatThm3.
From Verif Require Import Meta MetaThm Cpp CppThm CppThm2 CppThm3 DependThm DependThm2 DependThm3 DemoDepend.
From Verif Require Import SpecViews SpecCrosscat SpecCpp Depend SpecDepend.
Import ListNotations.
Local Open Scope Z_scope.

(** A sampler that was made with constraints keeps them, and its model obeyed them; the
    columns are then 0 up to how many there are. *)
Theorem C70_accepted : forall legal respects logspace X Cd Ci g, partition_check respects -> crosscat X -> well_named X Cd Ci ->
  new_gibbs legal respects logspace Cd Ci (CProd X) = Ok g ->
  gibbs_Cd g = Cd /\ gibbs_Ci g = Ci /\ (constrained (gibbs_sampler g) = true <-> Cd <> [] \/ Ci <> []) /\ obeys X Cd Ci /\
  (Cd <> [] \/ Ci <> [] -> Permutation (flat_map columns_of X) (zrange (List.length (flat_map columns_of X)))).
Proof. exact constructor_accepts. Qed.
Print Assumptions C70_accepted.

Example C70_accepted_case : partition_check check_partition /\ crosscat demo_views /\ well_named demo_views [[0; 1]] [[0; 2]] /\
  exists g, new_gibbs (fun _ _ _ => Ok tt) check_partition flat_space [[0; 1]] [[0; 2]] (CProd demo_views) = Ok g.
Proof. split; [exact check_partition_ok|]. split; [exact demo_views_ok|]. split; [exact views_named|]. eexists. vm_compute. reflexivity. Qed.

(** Constraints the library finds legal are accepted if the model obeys them, and rejected by
    an AssertionError if it does not. *)
Theorem C70_decides : forall legal respects logspace X Cd Ci, partition_check respects -> spaced logspace -> crosscat X -> X <> [] -> no_normal_uc X ->
  well_named X Cd Ci -> Cd <> [] \/ Ci <> [] -> Permutation (flat_map columns_of X) (zrange (List.length (flat_map columns_of X))) ->
  legal (List.length (flat_map columns_of X)) Cd Ci = Ok tt ->
  (obeys X Cd Ci -> exists g, new_gibbs legal respects logspace Cd Ci (CProd X) = Ok g) /\
  (~ obeys X Cd Ci -> new_gibbs legal respects logspace Cd Ci (CProd X) = Err AssertionError).
Proof. exact constructor_decides. Qed.
Print Assumptions C70_decides.

Example C70_decides_case : spaced flat_space /\ demo_views <> [] /\ no_normal_uc demo_views /\
  Permutation (flat_map columns_of demo_views) (zrange (List.length (flat_map columns_of demo_views))) /\
  obeys demo_views [[0; 1]] [[0; 2]] /\ ~ obeys demo_views [[0; 2]] [] /\ well_named demo_views [[0; 2]] [] /\
  new_gibbs (fun _ _ _ => Ok tt) check_partition flat_space [[0; 2]] [] (CProd demo_views) = Err AssertionError.
Proof.
  split; [exact C41_spaced_case|]. split; [discriminate|]. split; [exact (importable_no_uc _ views_importable)|].
  assert (E : flat_map columns_of demo_views = [0; 1; 2]) by (vm_compute; reflexivity). split; [rewrite E; apply Permutation_refl|].
  split; [exact views_obey|]. split; [exact views_disobey|]. split; [split; [rewrite E; intros b v [[<-|[]]|[]] Hv; cbn in *; intuition|intros b []]|]. vm_compute. reflexivity.
Qed.

(** No constraints are accepted for a model whose columns are numbered otherwise. *)
Theorem C70_numbering : forall legal respects logspace X Cd Ci, crosscat X -> Cd <> [] \/ Ci <> [] ->
  ~ Permutation (flat_map columns_of X) (zrange (List.length (flat_map columns_of X))) ->
  new_gibbs legal respects logspace Cd Ci (CProd X) = Err AssertionError.
Proof. exact constructor_gaps. Qed.
Print Assumptions C70_numbering.

Example C70_numbering_case : crosscat demo_numbers /\ ~ Permutation (flat_map columns_of demo_numbers) (zrange (List.length (flat_map columns_of demo_numbers))).
Proof.
  split; [exact demo_numbers_ok|]. assert (E : flat_map columns_of demo_numbers = [1; 2; 3]) by (vm_compute; reflexivity). rewrite E. intros P.
  assert (Y := Permutation_in 0 (Permutation_sym P) (or_introl eq_refl)). cbn in Y. intuition lia.
Qed.

(** However a constrained sampler and its model are used, whatever calls raise, every view
    keeps its columns: the constraints stay obeyed. *)
Theorem C70_kept : forall X Cd Ci g c, crosscat X -> obeys X Cd Ci -> constrained g = true -> sampler_calls g (CProd X) c ->
  exists X', c = CProd X' /\ map columns_of X' = map columns_of X /\ obeys X' Cd Ci.
Proof.
  intros X Cd Ci g c C [O1 O2] EC H. destruct (calls_stay X g c C EC H) as (X' & -> & F). exists X'. split; [reflexivity|].
  assert (M : forall m, In m X -> mixed m) by (intros m Hm; apply (crosscat_mixed X m C Hm)). split; [apply stays_columns; assumption|].
  assert (T : forall v w, together X' v w <-> together X v w) by (intros v w; apply stays_together; assumption). split; intros; rewrite T; eauto.
Qed.
Print Assumptions C70_kept.

(** Row 9 is observed, then the sampler is asked to move column 0 to the view of column 2. *)
Example C70_kept_case : exists g c, new_gibbs (fun _ _ _ => Ok tt) check_partition flat_space [[0; 1]] [[0; 2]] (CProd demo_views) = Ok g /\
  constrained (gibbs_sampler g) = true /\ obeys demo_views [[0; 1]] [[0; 2]] /\ sampler_calls (gibbs_sampler g) (CProd demo_views) c /\ c <> CProd demo_views.
Proof.
  eexists. exists (state_of (observe (CProd demo_views) 9 [(9, vz 0); (0, vz 1); (1, vz 1); (19, vz 1); (2, vz 0)] [])). split; [vm_compute; reflexivity|].
  split; [reflexivity|]. split; [exact views_obey|]. split.
  - eapply scs_more; [apply (scs_more _ _ (CProd demo_views)); [apply scs_none|]|].
    + apply (sc_set_view _ _ _ 0 (Some 2)). reflexivity.
    + eapply (sc_observe _ _ _ 9 [(9, vz 0); (0, vz 1); (1, vz 1); (19, vz 1); (2, vz 0)] []). vm_compute. reflexivity.
  - vm_compute. discriminate.
Qed.

(** Moving columns between views is refused and changes nothing. *)
Theorem C70_refused : forall g c, constrained g = true ->
  (forall outs, always (transition_view_assignments (constrained g) c outs) (fun r => r = (c, Err AssertionError))) /\
  (forall o0 o1, always (set_view_assignment (constrained g) c o0 o1) (fun r => r = (c, Err AssertionError))).
Proof. intros g c EC. rewrite EC. split; intros; reflexivity. Qed.
Print Assumptions C70_refused.

Example C70_refused_case : exists g, new_gibbs (fun _ _ _ => Ok tt) check_partition flat_space [] [[0; 2]] (CProd demo_views) = Ok g /\
  constrained (gibbs_sampler g) = true.
Proof. eexists. split; [vm_compute; reflexivity|reflexivity]. Qed.
