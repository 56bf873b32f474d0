(** What C78 says of hyperparameter inference done again and again. *)
From Coq Require Import List ZArith QArith Qcanon Reals Bool String.
From Verif Require Import Base Xr Samp Prims Cgpm Hypers SpecPrims SpecHypers.
Import ListNotations.
Local Open Scope Z_scope.

(** A call with the permutation it asks for being [l]. *)
Definition in_order {A} (l : list nat) (m : samp A) : samp A :=
  match m with DrawPerm _ k => k l | _ => m end.

(** The hyperparameters the components of a column share. *)
Definition common (ds : list dist) : hypers := match ds with d :: _ => dist_get_hypers d | [] => [] end.

(** transition_hypers called once for each of the permutations, on what the call before left;
    the first failing call ends it. *)
Fixpoint inferred (ds : list dist) (gs : grids) (orders : list (list nat)) : samp (list dist * out hypers) :=
  match orders with
  | [] => Ret (ds, Ok (common ds))
  | l :: rest =>
    let! r := in_order l (transition_hypers ds gs) in
    match snd r with Ok _ => inferred (fst r) gs rest | Err e => Ret (fst r, Err e) end
  end.

(** The mean of [f] over the grids, each point weighed by the marginal likelihood of the
    data of the components. *)
Definition grid_posterior (ds : list dist) (gs : grids) (names : list string) (f : hypers -> R) : R :=
  (over_grids gs names (fun h => weight ds h * f h) (common ds) / over_grids gs names (weight ds) (common ds))%R.

(** A point of the grids: a value from its grid for each of the hyperparameters. *)
Definition on_grids (gs : grids) (names : list string) (h : hypers) : Prop :=
  keys h = names /\ forall k, In k names -> exists v, lookup k h = Some v /\ In v (grid_of gs k).

(** Where inference on the components [ds] may start: as they are, or with any acceptable
    hyperparameters set on all of them. *)
Definition started (ds : list dist) (d0 : dist) (ds' : list dist) : Prop :=
  ds' = ds \/ exists h, keys h = hyper_names d0 /\ good_hypers d0 h /\ ds' = map (retune h) ds.
