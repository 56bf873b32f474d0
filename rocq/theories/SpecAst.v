(** Specification of the abstract syntax of models. *)
From Coq Require Import List ZArith QArith Qcanon Reals Bool String.
From Verif Require Import Base Xr Samp Lgamma Prims Cgpm SpecPrims SpecComp SpecTable Dsl Ast.
Import ListNotations.
Local Open Scope Z_scope.

(** A view just built: no rows, its columns without data; none of them a NormalUC, whose
    parameters are not among its hyperparameters. *)
Definition unused (m : cgpm) : Prop :=
  exists ix a bs, m = new_flexmix (DCrp (crp_new ix a)) (CProd (map CDist bs)) /\
    forall d, In d bs -> reachable d /\ dist_data d = [] /\ kind_of d <> KTable /\ forall s, d <> DNuc s.

(** The same description without the columns: distargs that are left out are empty. *)
Definition nameless (p : ast_primitive) : tree :=
  TPrim (ast_name p) (match ast_distargs p with Some l => l | None => [] end) (match ast_hypers p with Some l => l | None => [] end).
Definition nameless_view (v : ast_view) : tree := TMix (nameless (fst v)) (TList (map nameless (snd v))).

(** Somewhere among the children of Products and the bases of flexible mixtures there is a
    mixture with a fixed number of components or a bare array. *)
Inductive foreign : cgpm -> Prop :=
| foreign_mix : forall div arr r2c, foreign (CMix false div arr r2c)
| foreign_finite : forall ix cs r2i, foreign (CFinArr ix cs r2i)
| foreign_flexible : forall ix base cs r2i, foreign (CFlexArr ix base cs r2i)
| foreign_child : forall cs c, In c cs -> foreign c -> foreign (CProd cs)
| foreign_base : forall div ix base cs r2i r2c, foreign base -> foreign (CMix true div (CFlexArr ix base cs r2i) r2c).
