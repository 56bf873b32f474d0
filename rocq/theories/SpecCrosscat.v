(** Specification of inference on a whole CrossCat model. *)
From Coq Require Import List ZArith QArith Qcanon Reals Bool String Permutation.
From Verif Require Import Base Xr Samp Lgamma Prims Cgpm SpecPrims SpecComp SpecTable Walks SpecWalks Hypers SpecHypers SpecViews.
Import ListNotations.
Local Open Scope Z_scope.

(** [X'] is the same table as [X]: the same columns, of the same types, with the same cells.
    Views, clusters and hyperparameters may differ. *)
Definition same_data (X X' : list cgpm) : Prop :=
  crosscat X' /\
  Permutation (flat_map columns_of X') (flat_map columns_of X) /\
  (forall r v x, holds X' r v x <-> holds X r v x) /\
  (forall v k, typed X' v k <-> typed X v k).

(** No cell is missing in a column that gives missing cells density 0. *)
Definition no_gaps (X : list cgpm) : Prop :=
  forall r v, holds X r v VNan -> ~ typed X v KBit /\ ~ typed X v KCount.

(** The names of columns, if given, are those of columns. *)
Definition columns_given (X : list cgpm) (outs : option (list Z)) : Prop :=
  forall l o, outs = Some l -> In o l -> In o (flat_map columns_of X).

(** Grids for inference on every column of [X] and on the row dividers. *)
Definition grids_for (X : list cgpm) (columns : dict Z grids) (dividers : grids) : Prop :=
  (forall v d, typed X v (kind_of d) -> exists gs, lookup v columns = Some gs /\ good_grids d gs) /\
  (forall s, good_grids (DCrp s) dividers).

(** No column is a NormalUC. *)
Definition no_normal_uc (X : list cgpm) : Prop := forall v, ~ typed X v (KReal false).

(** The same columns, of the same types, with the same cells. *)
Definition same_cells (m m' : cgpm) : Prop :=
  outputs m' = outputs m /\ columns_of m' = columns_of m /\ (forall o, kind_at m' o = kind_at m o) /\ forall r o, cell m' r o = cell m r o.

(** The views with one of the columns given, the rows given; all, if none are given. *)
Definition chosen (outs : option (list Z)) (m : cgpm) : Prop :=
  match outs with None | Some [] => True | Some l => exists o, In o l /\ In o (columns_of m) end.
Definition picked (rowids : option (list Z)) (r : Z) : Prop :=
  match rowids with None | Some [] => True | Some l => In r l end.

(** What inference on rows does to a view. *)
Definition rows_moved (outs rowids : option (list Z)) (m m' : cgpm) : Prop :=
  same_cells m m' /\ (~ chosen outs m -> m' = m) /\ (forall r, ~ picked rowids r -> seat m' r = seat m r) /\
  (forall r, seat m' r <> None <-> seat m r <> None).

(** What inference of hyperparameters of the outputs [os] does to a whole model. *)
Definition hypers_moved (os : list Z) (X X' : list cgpm) : Prop :=
  Forall2 (fun m m' => same_cells m m' /\ forall r, seat m' r = seat m r) X X' /\
  (forall o, ~ In o os -> get_cgpms_by_output_index (CProd X') o = get_cgpms_by_output_index (CProd X) o) /\
  (forall o ds, get_cgpms_by_output_index (CProd X) o = Ok ds ->
     exists ds', get_cgpms_by_output_index (CProd X') o = Ok ds' /\ Forall2 untouched ds ds').

(** Row [r0] joins the cluster of row [r1] in the views with one of the columns given, or
    gets a cluster of its own if there is no [r1]; nothing else changes. *)
Definition row_joined (outs : option (list Z)) (r0 : Z) (r1 : option Z) (m m' : cgpm) : Prop :=
  same_cells m m' /\ (~ chosen outs m -> m' = m) /\ (forall r, r <> r0 -> seat m' r = seat m r) /\
  (chosen outs m -> match r1 with
    | Some r => seat m' r0 = seat m r
    | None => exists k, seat m' r0 = Some k /\ forall r, seat m' r = Some k -> r = r0
    end).
