(** Specification of the bookkeeping of composite models: what is recorded where, and the
    score of a model as a sum over its parts. *)
From Coq Require Import List ZArith QArith Qcanon Reals Bool String.
From Verif Require Import Base Xr Samp Lgamma Prims Cgpm SpecPrims SpecComp.
Import ListNotations.
Local Open Scope Z_scope.

(** ** Scores *)

(** Every mixture in the model is a FlexibleRowMixture. *)
Fixpoint flexible (c : cgpm) : Prop :=
  match c with
  | CDist _ => True
  | CProd cs => each flexible cs
  | CFinArr _ _ _ => False
  | CFlexArr _ base cs _ => flexible base /\ each (fun p => let '(_, c') := p in flexible c') cs
  | CMix _ _ arr _ => flexible arr
  end.

(** Nothing is recorded anywhere in the model. *)
Fixpoint vacant (c : cgpm) : Prop :=
  match c with
  | CDist d => dist_data d = []
  | CProd cs => each vacant cs
  | CFinArr _ cs _ => each vacant cs
  | CFlexArr _ base cs _ => vacant base /\ each (fun p => let '(_, c') := p in vacant c') cs
  | CMix _ div arr _ => dist_data div = [] /\ vacant arr
  end.

(** New clusters start empty: nothing is recorded in the base of any flexible array. *)
Fixpoint clean (c : cgpm) : Prop :=
  match c with
  | CDist _ => True
  | CProd cs => each clean cs
  | CFinArr _ cs _ => each clean cs
  | CFlexArr _ base cs _ => vacant base /\ clean base /\ each (fun p => let '(_, c') := p in clean c') cs
  | CMix _ _ arr _ => clean arr
  end.

(** The score of a primitive, as a number. *)
Definition prim_score (d : dist) : R := match dist_score d with Ok (Fin r) => r | _ => 0%R end.

(** The score of a model: the scores of all its primitives added up, those of the bases
    of flexible arrays left out. *)
Fixpoint total_score (c : cgpm) : R :=
  match c with
  | CDist d => prim_score d
  | CProd cs => rsum (map total_score cs)
  | CFinArr _ cs _ => rsum (map total_score cs)
  | CFlexArr _ _ cs _ => rsum (map (fun p => let '(_, c') := p in total_score c') cs)
  | CMix _ div arr _ => prim_score div + total_score arr
  end%R.

(** Every mixture that [S] says something about is also told its cluster. (A Product only
    passes an observation on to the children it concerns.) *)
Fixpoint named (c : cgpm) (S : row) : Prop :=
  match c with
  | CDist _ => True
  | CProd cs => each (fun c' => (forall k, In k (outputs c') -> lookup k S = None) \/ named c' S) cs
  | CFinArr _ cs _ => each (fun c' => named c' S) cs
  | CFlexArr _ base cs _ => named base S /\ each (fun p => let '(_, c') := p in named c' S) cs
  | CMix _ div arr _ => (exists z, lookup (dist_o div) S = Some (vz z)) /\ named arr S
  end.

(** ** Rejected observations *)

(** What a single column does with its cell of a row: nothing if it has none, else it
    accepts it. *)
Definition takes (rid : Z) (obs : row) (d d' : dist) : Prop :=
  match lookup (dist_o d) obs with
  | None => d' = d
  | Some x => dist_observe d rid [(dist_o d, x)] [] = (d', Ok tt)
  end.

(** A column rejects its cell, and stays as it is. *)
Definition refuses (rid : Z) (obs : row) (d : dist) (e : exn) : Prop :=
  exists x, lookup (dist_o d) obs = Some x /\ dist_observe d rid [(dist_o d, x)] [] = (d, Err e).

(** ** Filling a table row by row *)

(** [filled c t c']: [c'] arises from [c] by observing new rows one after the other, every
    mixture concerned being told its cluster, and [t] is the sum of the log densities of
    these rows, each taken just before it is observed. *)
Inductive filled : cgpm -> R -> cgpm -> Prop :=
| filled_none : forall c, filled c 0 c
| filled_row : forall c t c1 rid obs l c2, filled c t c1 ->
    unknown c1 (Some rid) -> named c1 obs -> labelled c1 obs -> NoDup (keys obs) -> obs <> [] ->
    (forall k, In k (keys obs) -> In k (outputs c1)) ->
    logpdf c1 (Some rid) obs [] [] = Ok (Fin l) ->
    possible (observe c1 rid obs []) (fun r => r = (c2, Ok tt)) ->
    filled c (t + l) c2.

(** ** Row maps *)

(** The rows a component array knows and the component it sent them to
    ([self.rowid_to_index], src/flexible_array.py:26, src/finite_array.py:23). *)
Definition row_index (arr : cgpm) : dict Z val :=
  match arr with CFinArr _ _ r2i => r2i | CFlexArr _ _ _ r2i => r2i | _ => [] end.
