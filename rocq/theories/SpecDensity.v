(** What it is to be a probability density on the real line. *)
From Coq Require Import List ZArith Reals QArith Qcanon.
From Coquelicot Require Import Coquelicot.
From Verif Require Import Base Xr Samp Lgamma Prims Cgpm SpecPrims SpecComp.
Import ListNotations.
Local Open Scope R_scope.

(** The integral of [f] over the real line is [l]. *)
Definition integral (f : R -> R) (l : R) : Prop :=
  forall eps, 0 < eps -> exists M, forall u v, u < - M -> M < v -> exists i, is_RInt f u v i /\ Rabs (i - l) < eps.

(** [F] answers with the logarithm of a probability density at every number. Numbers are
    rational; the density is continuous, so that it is determined by what it is there. *)
Definition log_density (F : Qc -> out xr) : Prop :=
  exists f, (forall x, 0 < f x /\ continuous f x) /\ integral f 1 /\ forall q, F q = Ok (Fin (ln (f (qr q)))).

(** Every primitive that models the column [o] satisfies [P], and [o] is no column of
    cluster labels. *)
Fixpoint modelled (o : Z) (P : dist -> Prop) (c : cgpm) : Prop :=
  match c with
  | CDist d => dist_o d = o -> P d
  | CProd cs => each (modelled o P) cs
  | CFinArr _ cs _ => each (modelled o P) cs
  | CFlexArr _ base cs _ => modelled o P base /\ each (fun p => let '(_, c') := p in modelled o P c') cs
  | CMix _ div arr _ => dist_o div <> o /\ modelled o P arr
  end.

(** Columns of real numbers, of counts, and of categories (at most [k] of them). *)
Definition real_column (d : dist) : Prop := match d with DNrm _ | DNuc _ => True | _ => False end.
Definition count_column (d : dist) : Prop := match d with DPoi _ => True | _ => False end.
Definition category_column (k : Z) (d : dist) : Prop :=
  match d with DCat s => (cat_k s <= k)%Z | DBer _ => (2 <= k)%Z | _ => False end.
