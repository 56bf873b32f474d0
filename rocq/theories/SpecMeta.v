(** What it means that metadata is a copy: objects and snapshots behave as if they were
    values, without any memory behind them. *)
From Coq Require Import List ZArith QArith Qcanon Reals Bool String.
From Verif Require Import Base Xr Samp Prims Cgpm SpecPrims Meta Alias.
Import ListNotations.

(** The values: the state of every object, with a mark on those built from metadata, and
    the state recorded in every snapshot. *)
Definition values_world := (list (dist * bool) * list dist)%type.

Definition ideal_step (v : values_world) (p : op) : values_world :=
  let '(os, ss) := v in
  match p with
  | New d => (os ++ [(d, false)], ss)
  | Call i c =>
      match nth_error os i with
      | Some (d, l) => (set_nth i (after d c, l) os, ss)
      | None => v
      end
  | Snap i => match nth_error os i with Some (d, _) => (os, ss ++ [d]) | None => v end
  | Load j => match nth_error ss j with Some d => (os ++ [(d, true)], ss) | None => v end
  end.

Definition ideal (ps : list op) : values_world := fold_left ideal_step ps ([], []).

Definition is_bernoulli (d : dist) : Prop := match d with DBer _ => True | _ => False end.
Definition is_normal_uc (d : dist) : Prop := match d with DNuc _ => True | _ => False end.

(** The two uses that go wrong: taking the metadata of a Bernoulli that was itself built
    from metadata, and setting the hyperparameters of a NormalUC. *)
Definition harmless (v : values_world) (p : op) : Prop :=
  match p with
  | New d => reachable d
  | Call i (SetHypers _) => forall d l, nth_error (fst v) i = Some (d, l) -> ~ is_normal_uc d
  | Snap i => forall d, nth_error (fst v) i = Some (d, true) -> ~ is_bernoulli d
  | _ => True
  end.

(** A program all of whose steps are harmless. *)
Inductive careful : list op -> Prop :=
| careful_nil : careful []
| careful_step : forall ps p, careful ps -> harmless (ideal ps) p -> careful (ps ++ [p]).

(** The state a snapshot records: what an object built from it is in. *)
Definition recorded (h : heap) (s : snap) : option dist :=
  match load h s with Some (h', o) => denote h' o | None => None end.

(** Memory behaves as if objects and snapshots were values. *)
Definition as_values (w : world) (v : values_world) : Prop :=
  map (denote (w_heap w)) (w_objs w) = map (fun x => Some (fst x)) (fst v) /\
  map (recorded (w_heap w)) (w_snaps w) = map Some (snd v).
