(** Abstract syntax of an arbitrary model: src/conversion.py:59-81. *)
From Coq Require Import List ZArith QArith Qcanon Reals Bool String.
From Verif Require Import Base Xr Samp Lgamma Prims Cgpm Walks Trans Views Dsl.
Import ListNotations.
Local Open Scope Z_scope.

(** What src/conversion.py:59-81 returns: a pair of a name with distargs and hyperparameters
    (62-66), a list (68), or a pair of a row divider and a base (73). *)
Inductive tree :=
| TPrim (name : string) (distargs hyps : dict string Qc)
| TList (l : list tree)
| TMix (divide base : tree).

(** [[f(x) for x in l]] where [f] may raise (src/conversion.py:68) *)
Fixpoint all_some {A} (l : list (option A)) : option (list A) :=
  match l with
  | [] => Some []
  | Some a :: l' => match all_some l' with Some r => Some (a :: r) | None => None end
  | None :: _ => None
  end.

(** src/conversion.py:62-66: a DistributionCGPM *)
Definition prim_to_ast (d : dist) : tree := TPrim (dist_name d) (dist_distargs d) (dist_get_hypers d).

(** src/conversion.py:59-81 convert_cgpm_to_ast; None where NotImplementedError is raised. A
    FlexibleRowMixture is tested for before its superclass FiniteRowMixture; it always has a
    FlexibleArray. The children of a Chain that have inputs are not represented. *)
Fixpoint convert_cgpm_to_ast (c : cgpm) : option tree :=
  match c with
  | CDist d => Some (prim_to_ast d)
  | CProd cs => match all_some (map convert_cgpm_to_ast cs) with Some l => Some (TList l) | None => None end
  | CMix true div (CFlexArr _ base _ _) _ =>
      match convert_cgpm_to_ast base with Some b => Some (TMix (prim_to_ast div) b) | None => None end
  | CMix _ _ _ _ => None
  | CFlexArr _ _ _ _ => None
  | CFinArr _ _ _ => None
  end.
