(** What the estimators of src/entropy.py should return. *)
From Coq Require Import List ZArith QArith Qcanon Reals Bool String.
From Verif Require Import Base Xr Samp Prims Cgpm SpecComp.
Import ListNotations.
Local Open Scope Z_scope.

(** The cluster labels of the mixtures in a model. *)
Fixpoint labels (c : cgpm) : list Z :=
  match c with
  | CDist _ => []
  | CProd cs => flat_map labels cs
  | CFinArr _ cs _ => flat_map labels cs
  | CFlexArr _ base cs _ => labels base ++ flat_map (fun p => let '(_, c') := p in labels c') cs
  | CMix _ div arr _ => dist_o div :: labels arr
  end.

(** The cluster labels of mixtures inside a component of another mixture. *)
Fixpoint nested (c : cgpm) : list Z :=
  match c with
  | CDist _ => []
  | CProd cs => flat_map nested cs
  | CMix _ _ arr _ => labels arr
  | _ => []
  end.

(** No child of the product has columns of both lists. *)
Definition apart (cs : list cgpm) (t0 t1 : list Z) : Prop :=
  forall c, In c cs -> forall a b, In a t0 -> In b t1 -> In a (outputs c) -> ~ In b (outputs c).

(** A query the estimators can answer: distinct target columns, apart from the constraints
    and from labels of nested mixtures, and constraints of positive density. *)
Definition askable (c : cgpm) (ts : list Z) (C : row) : Prop :=
  ts <> [] /\ NoDup ts /\ (forall k, In k ts -> In k (outputs c) /\ ~ In k (keys C) /\ ~ In k (nested c)) /\
  NoDup (keys C) /\ (forall k, In k (keys C) -> In k (outputs c)) /\
  labelled c C /\ solid c C /\ (0 < dens c C)%R.

(** The constraints, absent ones being none. *)
Definition given_cells (C : option row) : row := match C with Some C => C | None => [] end.
