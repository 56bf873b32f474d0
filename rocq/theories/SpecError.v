(** What C77 says of the samples of a view drawn at once, and of the error of the estimates
    made from them. *)
From Coq Require Import List ZArith QArith Qcanon Reals Bool String.
From Verif Require Import Base Xr Samp Prims Cgpm Entropy SpecComp SpecMany.
Import ListNotations.
Local Open Scope Z_scope.

(** The product of [g] over the samples of an answer; 0 when the call raises. *)
Definition product_over (g : row -> R) (r : out sres) : R :=
  match r with
  | Ok (SOne s) => g s
  | Ok (SMany l) => rprod (map g l)
  | Err _ => 0%R
  end.

(** The mean and the spread of [g] over the listed values of the columns. *)
Definition mean_over (m : cgpm) (C : row) (V : list row) (g : row -> R) : R :=
  rsum (map (fun T => prob m T C * g T)%R V).
Definition spread_over (m : cgpm) (C : row) (V : list row) (g : row -> R) : R :=
  rsum (map (fun T => prob m T C * ((g T - mean_over m C V g) * (g T - mean_over m C V g)))%R V).

(** How far the mean of an estimate is from [x], squared. *)
Definition squared_error (x : R) (r : out estimate) : R := ((mean_of r - x) * (mean_of r - x))%R.

(** The variance an estimate reports for its mean, where it is a number. *)
Definition reported (r : out estimate) : R :=
  match r with Ok e => match est_variance e with Fin x => x | _ => 0%R end | Err _ => 0%R end.

(** How many samples an estimate is made from: as many as asked, and 100 where none are asked. *)
Definition sample_size (N : option nat) : nat :=
  match N with Some n => if Nat.eqb n 0 then 100 else n | None => 100 end.

(** Minus the log of the probability of a value, and the log of how much likelier it is than
    if the two groups of columns were independent. *)
Definition surprise (m : cgpm) (C T : row) : R := (- ln (prob m T C))%R.
Definition association (m : cgpm) (t0 t1 : list Z) (C T : row) : R :=
  ln (prob m T C / (prob m (at_columns t0 T) C * prob m (at_columns t1 T) C)).

(** 1 when the mean of an estimate is at least [eps] away from [x]. *)
Definition off_by (eps x : R) (r : out estimate) : R := if Rle_dec eps (Rabs (mean_of r - x)) then 1%R else 0%R.
