(** C72: what the external engine is told of the latent state. *)
From Coq Require Import List ZArith QArith Qcanon Reals Bool String Permutation Lia.
From Verif Require Import Base Xr Samp Lgamma Prims Cgpm Lib SpecPrims PrimsInv SpecComp CompInv PropPrims DemoComp PropComp
  SpecTable SpecHist Table Walks SpecWalks Views Crosscat PropViews Cpp LatentsThm PropCpp.
From Verif Require Import SpecViews SpecCrosscat SpecCpp SpecLatents.
Import ListNotations.
Local Open Scope Z_scope.

(** The engine is told the hyperparameters of every column, the number of categories in use,
    how many columns each view has, and of each view its columns, how many rows each cluster
    has and the concentration of its row divider. *)
Theorem C72_told : forall srt scc X N S kernels rowids cols Cd Ci seed rq obs,
  (forall l, Permutation (srt l) l) -> importable X ->
  cpp_request srt scc (CProd X) N S kernels rowids cols Cd Ci seed = Ok (Some (rq, obs)) ->
  Forall2 (column_told X) (flat_map columns_of X) (column_hypers (rq_X_L rq)) /\
  tallied (assignments (rq_X_L rq)) (partition_counts (rq_X_L rq)) /\
  List.length (rq_X_D rq) = List.length X /\
  Forall2 (fun p => view_told (fst p) (snd p)) (combine X (rq_X_D rq)) (view_states (rq_X_L rq)).
Proof. exact request_told. Qed.
Print Assumptions C72_told.

(** Column 3 can have five categories and has two. *)
Example C72_told_case : importable demo_numbers /\
  exists rq obs, cpp_request (fun l => l) (fun _ => []) (CProd demo_numbers) (Some 10) None None None None [] [] None = Ok (Some (rq, obs)) /\
    column_hypers (rq_X_L rq) = [[("fixed", 0%Qc); ("dirichlet_alpha", half); ("K", qz 1)];
      [("fixed", 0%Qc); ("mu", 0%Qc); ("nu", 1%Qc); ("r", 1%Qc); ("s", half)];
      [("fixed", 0%Qc); ("dirichlet_alpha", half); ("K", qz 2)]]%string /\
    partition_counts (rq_X_L rq) = [2; 1] /\
    view_states (rq_X_L rq) = [mkViewState 2 [1; 2] [1; 1] half; mkViewState 1 [3] [2] half].
Proof.
  split; [exact demo_importable|]. eexists. eexists. split; [vm_compute; reflexivity|]. split; [|split; [reflexivity|]]; vm_compute; reflexivity.
Qed.
