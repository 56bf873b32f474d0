(** What C79 says of hyperparameter inference on a whole model. *)
From Coq Require Import List ZArith QArith Qcanon Reals Bool String Permutation.
From Verif Require Import Base Xr Samp Prims Cgpm Hypers SpecHypers SpecConv Walks.
Import ListNotations.
Local Open Scope Z_scope.

(** The permutations a computation asks for, fixed beforehand: it takes them from [ls] one
    after the other. What is left to chance are the choices by weight. *)
Fixpoint settle {A} (ls : list (list nat)) (m : samp A) : samp A :=
  match m with
  | Ret a => Ret a
  | Flip ws k => Flip ws (fun i => settle ls (k i))
  | DrawPerm _ k => match ls with l :: ls' => settle ls' (k l) | [] => m end
  | _ => m
  end.

(** [ls] are the permutations for [m]: of the sizes it asks for and as many. *)
Fixpoint agreed {A} (ls : list (list nat)) (m : samp A) : Prop :=
  match m with
  | Ret _ => ls = []
  | Flip ws k => forall i, (i < List.length ws)%nat -> (0 < nth i ws 0)%R -> agreed ls (k i)
  | DrawPerm n k => match ls with l :: ls' => Permutation (seq 0 n) l /\ agreed ls' (k l) | [] => False end
  | _ => False
  end.

(** The hyperparameters of column [o] of a model. *)
Definition hypers_of (c : cgpm) (o : Z) : hypers := match get_cgpms_by_output_index c o with Ok ds => common ds | Err _ => [] end.

(** The names of the kernels of GibbsCrossCat.transition that infer hyperparameters. *)
Definition hypers_kernels : list string := ["hypers_distributions"; "hypers_row_divide"; "hypers_column_divide"]%string.

(** The product of the numbers [a x] for [x] in [l]. *)
Definition all_of (a : Z -> R) (l : list Z) : R := fold_right (fun x p => (a x * p)%R) 1%R l.

(** The components of an output of a model. *)
Definition components_of (c : cgpm) (o : Z) : list dist := match get_cgpms_by_output_index c o with Ok ds => ds | Err _ => [] end.
