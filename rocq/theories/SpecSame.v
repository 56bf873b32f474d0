(** Specification of what the answers of a view depend on. *)
From Coq Require Import List ZArith QArith Qcanon Reals Bool String.
From Verif Require Import Base Xr Samp Lgamma Prims Cgpm SpecPrims SpecComp SpecTable SpecHist.
Import ListNotations.
Local Open Scope Z_scope.

(** Every row is in the same cluster and has the same cells. *)
Definition same_rows (m m' : cgpm) : Prop :=
  (forall r, seat m' r = seat m r) /\ forall r o, In o (columns_of m) -> cell m' r o = cell m r o.

(** The row dividers have the same label and concentration, and the columns are the same with
    the same hyperparameters, in every cluster. *)
Definition same_settings (m m' : cgpm) : Prop :=
  match m, m' with
  | CMix _ div arr _, CMix _ div' arr' _ =>
      settings div' = settings div /\
      forall k, map settings (leaves (component_at arr' k)) = map settings (leaves (component_at arr k))
  | _, _ => False
  end.

(** Every question gets the same answer, and simulate makes the same draws. *)
Definition answer_alike (c c' : cgpm) : Prop :=
  (forall rid T C ins, logpdf c' rid T C ins = logpdf c rid T C ins) /\
  (forall rid ts C ins N, simulate c' rid ts C ins N = simulate c rid ts C ins N) /\
  score c' = score c.

(** No hyperparameters are changed on the way. *)
Definition untuned (es : list event) : Prop := ~ In ETune es.

(** Every row is in the cluster renamed by [f] and has the same cells; clusters that are in
    use get different names. *)
Definition renamed_rows (f : Z -> Z) (m m' : cgpm) : Prop :=
  (forall r, seat m' r = match seat m r with Some (VQ q) => Some (vz (f (trunc q))) | x => x end) /\
  (forall r r' z z', seat m r = Some (vz z) -> seat m r' = Some (vz z') -> f z = f z' -> z = z') /\
  forall r o, In o (columns_of m) -> cell m' r o = cell m r o.

(** The row divider has the settings of that of [m] and all columns have, in every cluster,
    the hyperparameters of the base of [m]. *)
Definition uniform (m m' : cgpm) : Prop :=
  match m, m' with
  | CMix _ div (CFlexArr _ base _ _) _, CMix _ div' arr' _ =>
      settings div' = settings div /\ forall k, map settings (leaves (component_at arr' k)) = map settings (leaves base)
  | _, _ => False
  end.
