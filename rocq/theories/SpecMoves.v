(** Specification of the law of a move of columns between views. *)
From Coq Require Import List ZArith Reals Bool.
From Verif Require Import Base Xr Samp Cgpm SpecTable SpecViews.
Import ListNotations.
Local Open Scope Z_scope.

(** Only choices among finitely many things, with well-defined probabilities: an index with
    given weights or an integer of a range. *)
Fixpoint choices {A} (m : samp A) : Prop :=
  match m with
  | Ret _ => True
  | Flip ws k => (forall w, In w ws -> (0 <= w)%R) /\ (0 < rsum ws)%R /\
      forall i, (i < List.length ws)%nat -> (0 < nth i ws 0)%R -> choices (k i)
  | DrawInt lo hi k => lo < hi /\ forall z, lo <= z < hi -> choices (k z)
  | _ => False
  end.

(** The mean of [f] over the outcomes of [m], for [choices]: an index has a probability
    proportional to its weight, the integers of a range have the same probability. *)
Fixpoint mean {A} (m : samp A) (f : A -> R) : R :=
  match m with
  | Ret a => f a
  | Flip ws k =>
      rsum (map (fun i => (nth i ws 0 / rsum ws * mean (k i) f)%R) (seq 0 (List.length ws)))
  | DrawInt lo hi k =>
      (rsum (map (fun i => mean (k (lo + Z.of_nat i)%Z) f) (seq 0 (Z.to_nat (hi - lo)%Z))) / IZR (hi - lo)%Z)%R
  | _ => 0%R
  end.

(** In the outcome [p] some column of [outs] is in one view with some other column. *)
Definition joined (outs : list Z) (p : cgpm * out cgpm) : Prop :=
  exists X' o v, snd p = Ok (CProd X') /\ In o outs /\ ~ In v outs /\ together X' o v.
