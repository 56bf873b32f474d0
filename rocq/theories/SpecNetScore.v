(** Scores of Chains with regressions: what a child must be for its score to be known, and what
    a row must be for the chain to weigh it without sampling. *)
From Coq Require Import List ZArith QArith Qcanon Reals Bool String.
From Verif Require Import Base Xr Samp Prims Cgpm SpecPrims SpecComp SpecWalks SpecBook Chain SpecChain Regress SpecRegress RegressMeta.
Import ListNotations.
Local Open Scope Z_scope.

(** A child after any history: a model made of Products and flexible row mixtures whose bases
    are empty, or a regression. *)
Definition scorable (m : part) : Prop :=
  match m with
  | PModel c => grown c /\ flexible c /\ clean c
  | PLinreg g => exists g0, fresh_linreg g0 /\ used g0 g
  | PForest _ => False
  end.

(** A child without data. *)
Definition blank (m : part) : Prop :=
  match m with PModel c => vacant c | PLinreg g => fresh_linreg g | PForest _ => True end.

(** The row is new to the child, and the cells of the child's row dividers are given. *)
Definition welcome (rid : Z) (obs : row) (m : part) : Prop :=
  match m with
  | PModel c => unknown c (Some rid) /\
      let mine := cells_of (outputs c) obs in mine <> [] -> named c mine /\ labelled c mine
  | _ => True
  end.

(** The row with its inputs can be weighed: the inputs are columns no child outputs, and each
    child with a cell in the row is told all its inputs. *)
Definition fits (ms : list part) (rid : Z) (obs inp : row) : Prop :=
  (forall m, In m ms -> welcome rid obs m) /\ disjoint_rows inp obs /\
  exogenous (map part_node ms) inp /\ determined (map part_node ms) obs inp.

(** Rows observed one after the other, [t] the sum of the log densities that logpdf answered
    for each before it was observed. *)
Inductive gathered : network -> R -> network -> Prop :=
| gathered_none : forall nw, gathered nw 0 nw
| gathered_row : forall nw t nw' rid obs inp l ms', gathered nw t nw' -> fits (nw_parts nw') rid obs inp ->
    network_logpdf nw' (Some rid) obs [] inp = Ret (Ok (Fin l)) ->
    possible (network_observe (nw_parts nw') rid obs inp) (fun r => r = (ms', Ok tt)) ->
    gathered nw (t + l) (mkNetwork ms' (nw_accuracy nw')).
