(** Specification of a CrossCat model as one table whose columns are grouped into views. *)
From Coq Require Import List ZArith QArith Qcanon Reals Bool String Permutation.
From Verif Require Import Base Xr Samp Lgamma Prims Cgpm SpecPrims SpecComp SpecTable Walks SpecWalks.
Import ListNotations.
Local Open Scope Z_scope.

(** The views of a CrossCat model: each a well-kept view (in particular with at least one
    column) that some user can bring about; no two outputs have the same name. *)
Definition crosscat (X : list cgpm) : Prop :=
  (forall m, In m X -> grown m /\ sheet m /\ consistent m) /\ NoDup (flat_map outputs X).

(** The cell of row [r] in column [v] is [x]. *)
Definition holds (X : list cgpm) (r v : Z) (x : val) : Prop := exists m, In m X /\ cell m r v = Some x.

(** Column [v] is of type [k]. *)
Definition typed (X : list cgpm) (v : Z) (k : kind) : Prop := exists m, In m X /\ kind_at m v = Some k.

(** Columns [v] and [w] are in the same view. *)
Definition together (X : list cgpm) (v w : Z) : Prop :=
  exists m, In m X /\ In v (columns_of m) /\ In w (columns_of m).

(** Every row with a cell in one of the columns [outs] has a cluster in every view. *)
Definition aligned (outs : list Z) (X : list cgpm) : Prop :=
  forall r v x, In v outs -> holds X r v x -> forall m, In m X -> seat m r <> None.

(** [X'] is the same table as [X]; only the columns [outs] may be in other views, and they
    are in one view. Every other column is in a view with the same row divider and the same
    clusters as before. *)
Definition reassigned (outs : list Z) (X X' : list cgpm) : Prop :=
  crosscat X' /\
  Permutation (flat_map columns_of X') (flat_map columns_of X) /\
  (forall r v x, holds X' r v x <-> holds X r v x) /\
  (forall v k, typed X' v k <-> typed X v k) /\
  (forall v w, In v outs -> In w outs -> together X' v w) /\
  (forall v w, ~ In v outs -> ~ In w outs -> (together X' v w <-> together X v w)) /\
  (forall m v, In m X -> In v (columns_of m) -> ~ In v outs -> exists m', In m' X' /\ In v (columns_of m') /\
     divider m' = divider m /\ forall r, seat m' r = seat m r).

(** [X'] is the same table as [X], with the columns [outs] in any views. *)
Definition regrouped (outs : list Z) (X X' : list cgpm) : Prop :=
  crosscat X' /\
  Permutation (flat_map columns_of X') (flat_map columns_of X) /\
  (forall r v x, holds X' r v x <-> holds X r v x) /\
  (forall v k, typed X' v k <-> typed X v k) /\
  (forall v w, ~ In v outs -> ~ In w outs -> (together X' v w <-> together X v w)) /\
  (forall m v, In m X -> In v (columns_of m) -> ~ In v outs -> exists m', In m' X' /\ In v (columns_of m') /\
     divider m' = divider m /\ forall r, seat m' r = seat m r).

(** Every row with a cell in some column has a cell, possibly holding NaN, in every column. *)
Definition complete (X : list cgpm) : Prop :=
  forall r v x w, holds X r v x -> In w (flat_map columns_of X) -> exists y, holds X r w y.

(** Every outcome for which all random integers drawn satisfy [F] satisfies [P]. *)
Fixpoint given {A} (F : Z -> Prop) (m : samp A) (P : A -> Prop) : Prop :=
  match m with
  | Ret a => P a
  | Flip ws k => forall i, (i < List.length ws)%nat -> (0 < nth i ws 0)%R -> given F (k i) P
  | DrawQ l k => forall q, law_ok l q -> given F (k q) P
  | DrawNat _ _ k => forall n, given F (k n) P
  | DrawInt lo hi k => forall z, (lo <= z < hi)%Z -> F z -> given F (k z) P
  | DrawPerm n k => forall l, Permutation (seq 0 n) l -> given F (k l) P
  end.
