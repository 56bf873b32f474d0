(** Specification for C24: what may happen to the dictionaries of the caller. *)
From Coq Require Import List ZArith QArith Qcanon Reals Bool String.
From Verif Require Import Base Xr Samp Lgamma Prims Cgpm Args.
Import ListNotations.

(** Every dictionary of [h] is the same in [h']. *)
Definition untouched (h h' : heap) : Prop :=
  (List.length h <= List.length h')%nat /\ forall a, (a < List.length h)%nat -> get h' a = get h a.

(** Every dictionary of [h] but the one at [x] is the same in [h']. *)
Definition untouched_but (x : nat) (h h' : heap) : Prop :=
  (List.length h <= List.length h')%nat /\ forall a, (a < List.length h)%nat -> a <> x -> get h' a = get h a.

(** The component arrays, used directly. *)
Definition is_array (c : cgpm) : bool :=
  match c with CFinArr _ _ _ => true | CFlexArr _ _ _ _ => true | _ => false end.
Definition indexer (c : cgpm) : Z :=
  match c with CFinArr ix _ _ => ix | CFlexArr ix _ _ _ => ix | _ => 0%Z end.
