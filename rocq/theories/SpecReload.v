(** What is expected of reloading regressions, forests and chains. *)
From Coq Require Import List ZArith QArith Qcanon Reals Bool String.
From Verif Require Import Base Xr Samp Prims Cgpm Meta SpecWalks Regress RegressMeta SpecRegress.
Import ListNotations.
Local Open Scope Z_scope.

(** A history of calls on a regression: observe, unobserve, set_hypers. *)
Inductive handled : linreg -> linreg -> Prop :=
| handled_refl : forall g, handled g g
| handled_observe : forall g g' rid obs inp, handled g g' -> handled g (fst (linreg_observe g' rid obs inp))
| handled_unobserve : forall g g' rid, handled g g' -> handled g (fst (linreg_unobserve g' rid))
| handled_hypers : forall g g' h, handled g g' -> handled g (fst (linreg_set_hypers g' h)).

(** A regression a user can bring about whose coefficients have the default prior. *)
Definition default_prior (g : linreg) : Prop :=
  exists outs ins levels a b g0, new_linreg outs ins levels a b None None = Ok g0 /\ handled g0 g.

(** A child of a chain that a user can bring about; the classifiers are trained by [fit]. *)
Definition sound_part (fit : list (list val) -> list val -> out (list val * (list val -> list xr))) (m : part) : Prop :=
  match m with
  | PModel c => grown c
  | PLinreg g => default_prior g
  | PForest f => exists b, forest_state fit b f
  end.

(** A chain a user can bring about: children that a user can bring about, then calls of
    observe (whatever is drawn and whether or not it raises) and unobserve. *)
Inductive sound_network (fit : list (list val) -> list val -> out (list val * (list val -> list xr))) : network -> Prop :=
| network_new : forall ms acc nw, (forall m, In m ms -> sound_part fit m) -> new_network ms acc = Ok nw -> sound_network fit nw
| network_observed : forall nw rid obs inp ms r, sound_network fit nw ->
    possible (network_observe (nw_parts nw) rid obs inp) (fun p => p = (ms, r)) -> sound_network fit (mkNetwork ms (nw_accuracy nw))
| network_unobserved : forall nw rid ms r, sound_network fit nw ->
    network_unobserve (nw_parts nw) rid = (ms, r) -> sound_network fit (mkNetwork ms (nw_accuracy nw)).
