(** Specification of dependence constraints. *)
From Coq Require Import List ZArith QArith Qcanon Reals Bool String.
From Verif Require Import Base Xr Samp Lgamma Prims Cgpm SpecTable SpecViews SpecCpp Trans Hypers Progress Meta Walks Views Crosscat Cpp Depend.
Import ListNotations.
Local Open Scope Z_scope.

(** The columns of a block are in one view; those of a pair are in different views. *)
Definition obeys (X : list cgpm) (Cd Ci : list (list Z)) : Prop :=
  (forall b v w, In b Cd -> In v b -> In w b -> together X v w) /\
  (forall v w, In [v; w] Ci -> ~ together X v w).

(** The constraints name only columns of [X], and those of the second kind are pairs. *)
Definition well_named (X : list cgpm) (Cd Ci : list (list Z)) : Prop :=
  (forall b v, In b Cd \/ In b Ci -> In v b -> In v (flat_map columns_of X)) /\
  (forall b, In b Ci -> exists v w, b = [v; w]).

(** The constraints hold of a numbering of the views. *)
Definition met (Zv : dict Z nat) (Cd Ci : list (list Z)) : Prop :=
  (forall b v w, In b Cd -> In v b -> In w b -> exists i, lookup v Zv = Some i /\ lookup w Zv = Some i) /\
  (forall v w, In [v; w] Ci -> exists i j, lookup v Zv = Some i /\ lookup w Zv = Some j /\ i <> j).

(** What is assumed of validate_crp_constrained_partition of cgpm.utils.validation: it says
    yes only if the constraints hold, and answers rightly if they name known columns and are
    blocks and pairs. *)
Definition partition_check (respects : dict Z nat -> list (list Z) -> list (list Z) -> out bool) : Prop :=
  forall Zv Cd Ci,
    (respects Zv Cd Ci = Ok true -> met Zv Cd Ci) /\
    ((forall b v, In b Cd \/ In b Ci -> In v b -> In v (keys Zv)) -> (forall b, In b Ci -> exists v w, b = [v; w]) ->
     exists b, respects Zv Cd Ci = Ok b /\ (b = true <-> met Zv Cd Ci)).

(** One public call on the sampler, or of observe or unobserve on its model, with any
    arguments; the model afterwards, whether it returned or raised. *)
Inductive sampler_call (g : sampler) (c c' : cgpm) : Prop :=
| sc_transition : forall fuel clock N T kernels outs rowids,
    possible (transition fuel clock g c N T kernels outs rowids) (fun p => fst p = c') -> sampler_call g c c'
| sc_hypers_columns : forall outs, possible (transition_hypers_distributions g c outs) (fun p => fst p = c') -> sampler_call g c c'
| sc_hypers_dividers : forall outs, possible (transition_hypers_row_divide g c outs) (fun p => fst p = c') -> sampler_call g c c'
| sc_rows : forall outs rowids, possible (transition_row_assignments c outs rowids) (fun p => fst p = c') -> sampler_call g c c'
| sc_views : forall outs, possible (transition_view_assignments (constrained g) c outs) (fun p => fst p = c') -> sampler_call g c c'
| sc_set_column : forall o h, c' = fst (set_hypers_distribution c o h) -> sampler_call g c c'
| sc_set_divider : forall o h, c' = fst (set_hypers_row_divide c o h) -> sampler_call g c c'
| sc_set_row : forall outs r0 r1, possible (set_rowid_component_all c outs r0 r1) (fun p => fst p = c') -> sampler_call g c c'
| sc_set_view : forall o0 o1, possible (set_view_assignment (constrained g) c o0 o1) (fun p => fst p = c') -> sampler_call g c c'
| sc_observe : forall rid obs ins, possible (observe c rid obs ins) (fun p => fst p = c') -> sampler_call g c c'
| sc_unobserve : forall rid, c' = fst (unobserve c rid) -> sampler_call g c c'.

(** Any number of calls. *)
Inductive sampler_calls (g : sampler) (c : cgpm) : cgpm -> Prop :=
| scs_none : sampler_calls g c c
| scs_more : forall c1 c2, sampler_calls g c c1 -> sampler_call g c1 c2 -> sampler_calls g c c2.

(** [D] tells for every column of a block, by its position among [cols], the positions of the
    columns of the block; nothing else. *)
Definition tells (cols : list Z) (l : list (Z * list Z)) (D : dict nat (list nat)) : Prop :=
  forall i js, lookup i D = Some js <-> exists v b, In (v, b) l /\ nth_error cols i = Some v /\ positions cols b js.

(** The answer of the engine keeps to the constraints it was sent. *)
Definition obedient (rq : request) (views : list Z) : Prop :=
  (forall D i js j, dependent (rq_X_L rq) = Some D -> lookup i D = Some js -> In j js -> nth_error views i = nth_error views j) /\
  (forall D i js j, independent (rq_X_L rq) = Some D -> lookup i D = Some js -> In j js -> nth_error views i <> nth_error views j).

(** A proper answer to a request about [n] columns and [k] rows: it numbers the views and the
    clusters, says as much about views as about clusters, and keeps to the constraints. *)
Definition proper (n k : nat) (rq : request) (answer : latents * list (list Z)) : Prop :=
  structure n k (assignments (fst answer)) (snd answer) /\
  List.length (view_states (fst answer)) = List.length (snd answer) /\
  obedient rq (assignments (fst answer)).

(** What the engine is asked: the number of steps and the time, a seed, the kernels, the
    positions of the columns and rows to work on (none for all), and the constraints. *)
Definition asks (X : list cgpm) (rows : list Z) (n : Z) (t : Qc) (kernels : list string) (rowids cols : option (list Z))
    (Cd Ci : list (list Z)) (links : list (Z * list Z)) (rq : request) : Prop :=
  rq_steps rq = n /\ rq_time rq = t /\ 0 <= rq_seed rq < 2 ^ 32 - 1 /\ rq_kernels rq = kernels /\
  positions (flat_map columns_of X) (match cols with Some l => l | None => [] end) (rq_cols rq) /\
  positions rows (match rowids with Some l => l | None => [] end) (rq_rows rq) /\
  match Cd with
  | [] => dependent (rq_X_L rq) = None
  | _ => exists D, dependent (rq_X_L rq) = Some D /\ tells (flat_map columns_of X) (flat_map (fun b => map (fun v => (v, b)) b) Cd) D
  end /\
  match Ci with
  | [] => independent (rq_X_L rq) = None
  | _ => exists D, independent (rq_X_L rq) = Some D /\ tells (flat_map columns_of X) links D
  end.
