(** Specification of a view (a flexible row mixture over a Product of columns) as a table:
    every row has a cluster and some cells. *)
From Coq Require Import List ZArith QArith Qcanon Reals Bool String.
From Verif Require Import Base Xr Samp Lgamma Prims Cgpm SpecPrims SpecComp SpecBook.
Import ListNotations.
Local Open Scope Z_scope.

(** ** Reading a view *)

(** The component of cluster [k]; clusters never used have the base as component. *)
Definition component_at (arr : cgpm) (k : val) : cgpm :=
  match arr with
  | CFlexArr _ base cs _ => match lookup k cs with Some c => c | None => base end
  | _ => CProd []
  end.

(** The cell of row [r] in column [o]. *)
Definition in_column (ds : list dist) (r o : Z) : option val :=
  match find (fun d => dist_o d =? o) ds with
  | Some d => lookup r (dist_data d)
  | None => None
  end.

(** The cluster of a row, and its cell in a column. *)
Definition seat (m : cgpm) (r : Z) : option val :=
  match m with CMix _ _ _ r2c => lookup r r2c | _ => None end.

Definition cell (m : cgpm) (r o : Z) : option val :=
  match m with
  | CMix _ _ arr r2c =>
      match lookup r r2c with
      | Some k => in_column (leaves (component_at arr k)) r o
      | None => None
      end
  | _ => None
  end.

(** The label column and the data columns of a view. *)
Definition label_of (m : cgpm) : Z := match m with CMix _ div _ _ => dist_o div | _ => 0 end.
Definition columns_of (m : cgpm) : list Z := match m with CMix _ _ arr _ => outputs arr | _ => [] end.
Definition divider (m : cgpm) : option dist := match m with CMix _ div _ _ => Some div | _ => None end.

(** The type of a column. *)
Definition kind_at (m : cgpm) (o : Z) : option kind :=
  match m with
  | CMix _ _ (CFlexArr _ base _ _) _ =>
      match find (fun d => dist_o d =? o) (leaves base) with Some d => Some (kind_of d) | None => None end
  | _ => None
  end.

(** ** Well-kept views *)

(** The same columns in the same order, of the same types. *)
Definition alike (ds ds' : list dist) : Prop :=
  map (fun d => (dist_o d, kind_of d)) ds' = map (fun d => (dist_o d, kind_of d)) ds.

(** A view: CRP row divider, a nonempty Product of columns as base, and components with the
    same columns. *)
Inductive sheet : cgpm -> Prop :=
| sheet_intro : forall s bs cs r2i r2c,
    bs <> [] -> (forall d, In d bs -> kind_of d <> KTable /\ dist_data d = []) ->
    (forall k c, In (k, c) cs -> exists ds, c = CProd (map CDist ds) /\ alike bs ds) ->
    sheet (CMix true (DCrp s) (CFlexArr (crp_o s) (CProd (map CDist bs)) cs r2i) r2c).

(** The three row maps (row divider, mixture, component array) agree, clusters are
    integers, and a row is only recorded in the component of its own cluster. *)
Definition consistent (m : cgpm) : Prop :=
  match m with
  | CMix _ div arr r2c =>
      NoDup (keys r2c) /\ NoDup (keys (row_index arr)) /\
      (forall r, lookup r (dist_data div) = lookup r r2c) /\
      (forall r, lookup r (row_index arr) = lookup r r2c) /\
      (forall r k, lookup r r2c = Some k -> exists z, k = vz z) /\
      (forall r k d, In d (leaves (component_at arr k)) -> In r (keys (dist_data d)) -> lookup r r2c = Some k)
  | _ => False
  end.

(** ** Effects on the table *)

(** All rows but [r] are as before. *)
Definition others_same (r : Z) (m m' : cgpm) : Prop :=
  forall r', r' <> r -> seat m' r' = seat m r' /\ forall o, cell m' r' o = cell m r' o.

(** The columns and their types are as before. *)
Definition same_columns (m m' : cgpm) : Prop :=
  label_of m' = label_of m /\ columns_of m' = columns_of m /\ forall o, kind_at m' o = kind_at m o.

(** The row divider of [m'] has exactly the rows of that of [m] without [r]. *)
Definition row_out (r : Z) (div div' : dist) : Prop :=
  kind_of div' = kind_of div /\ dist_o div' = dist_o div /\ dist_data div' = ddel r (dist_data div).

(** No cell of the row is missing in a column that gives missing cells density 0. *)
Definition observable (m : cgpm) (r : Z) : Prop :=
  forall o, cell m r o = Some VNan -> kind_at m o <> Some KBit /\ kind_at m o <> Some KCount.

(** ** Whole histories *)

(** A table: every recorded row has a cluster and a cell in some of the columns. *)
Definition table := Z -> option (val * (Z -> option val)).
Definition put (t : table) (r : Z) (e : option (val * (Z -> option val))) : table :=
  fun r' => if eq_dec r' r then e else t r'.

(** The view [m] records the table [t]. *)
Definition records (m : cgpm) (t : table) : Prop :=
  forall r, seat m r = match t r with Some (k, _) => Some k | None => None end /\
    forall o, In o (columns_of m) -> cell m r o = match t r with Some (_, f) => f o | None => None end.

(** Successful calls on a view; [EUnobserve] carries the returned row, [ETune] is any change
    of hyperparameters or parameters. *)
Inductive event :=
| EObserve (rid : Z) (obs : row)
| EUnobserve (rid : Z) (result : row)
| ETransition (rid : Z)
| EReseat (rid0 : Z) (rid1 : option Z)
| ETune.

(** What each call does to a table with label column [ix] and columns [cols]. *)
Inductive table_step (ix : Z) (cols : list Z) (t : table) : event -> table -> Prop :=
| ts_more_cells : forall rid obs k old, t rid = Some (k, old) ->
    (forall o x, In o cols -> lookup o obs = Some x -> old o = None) ->
    table_step ix cols t (EObserve rid obs)
      (put t rid (Some (k, fun o => match lookup o obs with Some x => Some x | None => old o end)))
| ts_new_row : forall rid obs z, t rid = None ->
    (forall y, lookup ix obs = Some y -> y = vz z) ->
    table_step ix cols t (EObserve rid obs) (put t rid (Some (vz z, fun o => lookup o obs)))
| ts_unobserve : forall rid result k f, t rid = Some (k, f) ->
    NoDup (keys result) -> (forall o, In o (keys result) -> o = ix \/ In o cols) ->
    lookup ix result = Some k -> (forall o, In o cols -> lookup o result = f o) ->
    table_step ix cols t (EUnobserve rid result) (put t rid None)
| ts_transition : forall rid k f z, t rid = Some (k, f) ->
    table_step ix cols t (ETransition rid) (put t rid (Some (vz z, f)))
| ts_join : forall r0 k f r1 k1 f1, t r0 = Some (k, f) -> t r1 = Some (k1, f1) ->
    table_step ix cols t (EReseat r0 (Some r1)) (put t r0 (Some (k1, f)))
| ts_same : forall r, table_step ix cols t (EReseat r (Some r)) t
| ts_alone : forall r0 k f z, t r0 = Some (k, f) ->
    (forall r e, r <> r0 -> t r = Some e -> fst e <> vz z) ->
    table_step ix cols t (EReseat r0 None) (put t r0 (Some (vz z, f)))
| ts_tune : table_step ix cols t ETune t.

Inductive table_history (ix : Z) (cols : list Z) (t : table) : list event -> table -> Prop :=
| th_nil : table_history ix cols t [] t
| th_step : forall es t1 e t2, table_history ix cols t es t1 -> table_step ix cols t1 e t2 ->
    table_history ix cols t (es ++ [e]) t2.
