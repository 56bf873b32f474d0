(** What C74 says of several samples drawn at once, and of the estimates made from them. *)
From Coq Require Import List ZArith QArith Qcanon Reals Bool String.
From Verif Require Import Base Xr Samp Prims Cgpm Entropy SpecComp SpecSim.
Import ListNotations.
Local Open Scope Z_scope.

(** The sum of [g] over the samples of an answer; 0 when the call raises. *)
Definition total (g : row -> R) (r : out sres) : R :=
  match r with
  | Ok (SOne s) => g s
  | Ok (SMany l) => rsum (map g l)
  | Err _ => 0%R
  end.

(** How many of the samples agree with the cells [T]. *)
Definition tally (T : row) : out sres -> R := total (fun s => if hit T s then 1 else 0)%R.

(** [g] only reads the cells of the columns [cols], in whatever order they are listed. *)
Definition reads (cols : list Z) (g : row -> R) : Prop :=
  forall s s' : row, (forall k, In k cols -> lookup k s = lookup k s') -> g s = g s'.

(** [g] is a sum of functions that each read the columns of one child of a Product. *)
Definition separate (cs : list cgpm) (g : row -> R) : Prop :=
  exists gs : list (cgpm * (row -> R)), (forall v h, In (v, h) gs -> In v cs /\ reads (outputs v) h) /\
    forall s, g s = rsum (map (fun p => snd p s) gs).

(** What can be averaged over samples drawn together: any function of the cells of a view,
    and sums of functions of one view each for a state. *)
Definition additive (m : cgpm) (g : row -> R) : Prop :=
  (view m /\ reads (outputs m) g) \/ exists cs, m = CProd cs /\ state m /\ separate cs g.

(** The probability of the cells [T] given [C], as logpdf reports it. *)
Definition prob (m : cgpm) (T C : row) : R :=
  match logpdf m None T C [] with Ok l => xexp l | Err _ => 0%R end.

(** [V] lists every possible value of the columns [ts] once: they can all be asked about,
    and their probabilities add up to 1. *)
Definition exhausts (m : cgpm) (ts : list Z) (C : row) (V : list row) : Prop :=
  NoDup V /\
  (forall T, In T V -> keys T = ts /\ labelled m (T ++ C) /\ forall k x, In (k, x) T -> exists z, x = vz z) /\
  rsum (map (fun T => prob m T C) V) = 1%R.

(** The entropy of the listed values: minus the sum of p log p. *)
Definition entropy (m : cgpm) (C : row) (V : list row) : R :=
  (- rsum (map (fun T => prob m T C * ln (prob m T C)) V))%R.

(** The cells of a row in the columns [cols], in that order. *)
Definition at_columns (cols : list Z) (T : row) : row :=
  map (fun k => (k, match lookup k T with Some x => x | None => VNan end)) cols.

(** The mutual information of the columns [t0] and [t1]: the sum of
    p(x, y) log (p(x, y) / (p(x) p(y))). *)
Definition information (m : cgpm) (t0 t1 : list Z) (C : row) (V : list row) : R :=
  rsum (map (fun T => prob m T C *
    ln (prob m T C / (prob m (at_columns t0 T) C * prob m (at_columns t1 T) C)))%R V).

(** The mean of an estimate, where it is a number. *)
Definition mean_of (r : out estimate) : R :=
  match r with Ok e => match est_mean e with Fin x => x | _ => 0%R end | Err _ => 0%R end.
