(** Histories of successful calls on a view. *)
From Coq Require Import List ZArith QArith Qcanon Reals Bool String.
From Verif Require Import Base Xr Samp Lgamma Prims Cgpm SpecPrims SpecComp SpecBook SpecTable Trans.
Import ListNotations.
Local Open Scope Z_scope.

(** [happens m e m']: the call [e] on [m] can succeed and leave [m']. Observations mention a
    column once and name clusters by integers. *)
Definition happens (m : cgpm) (e : event) (m' : cgpm) : Prop :=
  match e with
  | EObserve rid obs =>
      NoDup (keys obs) /\ (forall y, lookup (label_of m) obs = Some y -> exists z, y = vz z) /\
      possible (observe m rid obs []) (fun r => r = (m', Ok tt))
  | EUnobserve rid result => exists ins, unobserve m rid = (m', Ok (result, ins))
  | ETransition rid => possible (transition_rows m rid) (fun r => r = (m', Ok tt))
  | EReseat r0 r1 => possible (set_rowid_component m r0 r1) (fun r => r = (m', Ok tt))
  | ETune => retuned m m'
  end.

Inductive history (m : cgpm) : list event -> cgpm -> Prop :=
| h_nil : history m [] m
| h_step : forall es m1 e m2, history m es m1 -> happens m1 e m2 -> history m (es ++ [e]) m2.

(** A new view: an empty CRP, a nonempty Product of empty columns, no components. *)
Definition new_view (m : cgpm) : Prop :=
  exists s bs, m = new_flexmix (DCrp s) (CProd (map CDist bs)) /\ creachable m /\ dist_data (DCrp s) = [] /\
    bs <> [] /\ forall d, In d bs -> kind_of d <> KTable /\ dist_data d = [].
