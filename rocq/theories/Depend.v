(** Dependence constraints of src/transition_crosscat.py, and the moves of GibbsCrossCat that
    are left to the external engine. The library functions used are arguments:
    [legal] is validate_dependency_constraints and [respects] is
    validate_crp_constrained_partition of cgpm.utils.validation (lines 8-9), with no constraints on rows. *)
From Coq Require Import List ZArith QArith Qcanon Reals Bool String.
From Verif Require Import Base Xr Samp Lgamma Prims Cgpm Trans Meta Walks Views Hypers Progress Crosscat Cpp.
Import ListNotations.
Local Open Scope Z_scope.

(** src/transition_crosscat.py:83 the view of every output *)
Definition view_numbers (c : cgpm) : dict Z nat :=
  dict_of (flat_map (fun p : nat * cgpm => map (fun o => (o, fst p)) (outputs (snd p))) (enum_from 0 (views_of c))).

(** src/transition_crosscat.py:76-84 validate_crosscat_dependencies *)
Definition validate_crosscat_dependencies (legal : nat -> list (list Z) -> list (list Z) -> out unit)
    (respects : dict Z nat -> list (list Z) -> list (list Z) -> out bool) (c : cgpm) (Cd Ci : list (list Z)) : out unit :=
  match Cd, Ci with
  | [], [] => Ok tt
  | _, _ =>
    let outs := zsort (get_distribution_outputs c) in
    let N := List.length outs in
    do _ <- oassert (if list_eq_dec Z.eq_dec outs (zrange N) then true else false);
    do _ <- legal N Cd Ci;
    do b <- respects (view_numbers c) Cd Ci;
    oassert b
  end.

(** A GibbsCrossCat object with its constraints, src/transition_crosscat.py:93-97. *)
Record gibbs := mkGibbs { gibbs_sampler : sampler; gibbs_Cd : list (list Z); gibbs_Ci : list (list Z) }.

(** [self.Cd or self.Ci] as a condition, src/transition_crosscat.py:162, 218 *)
Definition some_constraint (Cd Ci : list (list Z)) : bool := match Cd, Ci with [], [] => false | _, _ => true end.

(** src/transition_crosscat.py:93-104 GibbsCrossCat.__init__. Constraints None and empty are
    alike (lines 96, 97). *)
Definition new_gibbs (legal : nat -> list (list Z) -> list (list Z) -> out unit)
    (respects : dict Z nat -> list (list Z) -> list (list Z) -> out bool)
    (logspace : Qc -> Qc -> nat -> list Qc) (Cd Ci : list (list Z)) (c : cgpm) : out gibbs :=
  do _ <- validate_crosscat c;
  do _ <- validate_crosscat_dependencies legal respects c Cd Ci;
  do g <- new_sampler logspace (some_constraint Cd Ci) c;
  Ok (mkGibbs g Cd Ci).

(** What follows the engine, src/transition_crosscat.py:180-181, 191-192, 199-200. The state
    is not given when an exception is raised: the model then shares objects with the one
    before. *)
Definition refresh_hypers (g : gibbs) (c : cgpm) : samp (out cgpm) :=
  let! p := transition_hypers_distributions (gibbs_sampler g) c None in
  match snd p with
  | Err e => Ret (Err e)
  | Ok _ =>
    let! q := transition_hypers_row_divide (gibbs_sampler g) (fst p) None in
    match snd q with Err e => Ret (Err e) | Ok _ => Ret (Ok (fst q)) end
  end.

(** src/transition_crosscat.py:171 the seed drawn for the engine *)
Definition with_seed {A} (k : Z -> samp A) : samp A := DrawInt 0 (2 ^ 32 - 1) k.

(** The common part of the three moves: the engine, then the hyperparameters. *)
Definition engine_move (srt : list Qc -> list Qc) (order : list Z -> list Z) (scc : list (list Z) -> list (Z * list Z))
    (engine : request -> latents * list (list Z)) (g : gibbs) (c : cgpm) (N : option Z) (S : option Qc)
    (kernels : option (list string)) (rowids cols : option (list Z)) : samp (out cgpm) :=
  with_seed (fun seed =>
    let! r := transition_cpp srt order scc engine c N S kernels rowids cols (gibbs_Cd g) (gibbs_Ci g) (Some seed) in
    match r with Err e => Ret (Err e) | Ok c' => refresh_hypers g c' end).

(** src/transition_crosscat.py:170-181 transition_row_assignments_cpp *)
Definition transition_row_assignments_cpp srt order scc engine (g : gibbs) (c : cgpm) (N : option Z) (S : option Qc)
    (rowids : option (list Z)) : samp (out cgpm) :=
  engine_move srt order scc engine g c N S
    (Some ["row_partition_hyperparameters"; "column_hyperparameters"; "row_partition_hyperparameters"; "row_partition_assignments"]%string) rowids None.

(** src/transition_crosscat.py:183-192 transition_view_assignments_cpp *)
Definition transition_view_assignments_cpp srt order scc engine (g : gibbs) (c : cgpm) (N : option Z) (S : option Qc)
    (outs : option (list Z)) : samp (out cgpm) :=
  engine_move srt order scc engine g c N S (Some ["column_partition_assignments"; "column_partition_hyperparameter"]%string) None outs.

(** src/transition_crosscat.py:194-200 transition_structure_cpp; reporting progress is left
    out. *)
Definition transition_structure_cpp srt order scc engine (g : gibbs) (c : cgpm) (N : option Z) (S : option Qc)
    (outs : option (list Z)) : samp (out cgpm) :=
  engine_move srt order scc engine g c N S None None outs.

(** src/crosscat_ensemble.py:320-327 make_default_inference_program: the function it makes,
    applied to a model. [Cd] and [Ci] are those of the ensemble; reporting progress is left
    out. *)
Definition default_program legal respects logspace srt order scc engine (Cd Ci : list (list Z)) (N : option Z) (S : option Qc)
    (outs : option (list Z)) (c : cgpm) : samp (out cgpm) :=
  match new_gibbs legal respects logspace Cd Ci c with
  | Err e => Ret (Err e)
  | Ok g => transition_structure_cpp srt order scc engine g c N S outs
  end.
