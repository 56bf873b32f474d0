(** Specification of ensembles: what the calls do on every chain, and dependence matrices. *)
From Coq Require Import List ZArith QArith Qcanon Reals Bool String Permutation.
From Verif Require Import Base Xr Samp Lgamma Prims Cgpm SpecPrims SpecComp SpecTable Walks SpecWalks SpecHist SpecViews.
From Verif Require Import Ensemble.
Import ListNotations.
Local Open Scope Z_scope.

(** ** Matrices *)

(** The entry in row [i] and column [j]. *)
Definition entry (M : list (list Z)) (i j : nat) : Z := nth j (nth i M []) 0.

(** [M] is square, of size [n]. *)
Definition square (n : nat) (M : list (list Z)) : Prop :=
  List.length M = n /\ forall row, In row M -> List.length row = n.

(** [M] is a symmetric matrix of zeros and ones with ones on the diagonal, and transitive. *)
Definition equivalence_matrix (n : nat) (M : list (list Z)) : Prop :=
  square n M /\
  (forall i j, (i < n)%nat -> (j < n)%nat -> entry M i j = 0 \/ entry M i j = 1) /\
  (forall i, (i < n)%nat -> entry M i i = 1) /\
  (forall i j, (i < n)%nat -> (j < n)%nat -> entry M i j = entry M j i) /\
  (forall i j k, (i < n)%nat -> (j < n)%nat -> (k < n)%nat -> entry M i j = 1 -> entry M j k = 1 -> entry M i k = 1).

(** [M] has a one exactly for the pairs of items of [l] that are related. *)
Definition indicates (l : list Z) (related : Z -> Z -> Prop) (M : list (list Z)) : Prop :=
  forall i j a b, nth_error l i = Some a -> nth_error l j = Some b -> (entry M i j = 1 <-> related a b).

(** Outputs [v] and [w] (columns or row dividers) are in the same view. *)
Definition same_view (X : list cgpm) (v w : Z) : Prop :=
  exists m, In m X /\ In v (outputs m) /\ In w (outputs m).

(** ** Calls on every chain *)

(** [c'] and [a] are what a call on [c] can leave and answer. *)
Definition can {A} (f : cgpm -> samp (cgpm * out A)) (c c' : cgpm) (a : A) : Prop :=
  possible (f c) (fun r => r = (c', Ok a)).

(** The call [f] on [c] can fail with [x] and leave [c']. *)
Definition can_fail {A} (f : cgpm -> samp (cgpm * out A)) (c c' : cgpm) (x : exn) : Prop :=
  possible (f c) (fun r => r = (c', Err x)).

(** Every chain of the ensemble is there. *)
Definition whole (e : ensemble) : Prop := List.length (cgpms e) = chains e.

(** The same ensemble with other chains. *)
Definition same_but_chains (e e' : ensemble) : Prop :=
  chains e' = chains e /\ ens_outputs e' = ens_outputs e /\ ens_distributions e' = ens_distributions e.

(** [c'] can be what is left of [c] after the calls [fs], one after the other, that answer
    [answers]. *)
Inductive successively {A} : list (cgpm -> samp (cgpm * out A)) -> cgpm -> cgpm -> list A -> Prop :=
| after_none : forall c, successively [] c c []
| after_call : forall f fs c c1 c2 a l, can f c c1 a -> successively fs c1 c2 l -> successively (f :: fs) c c2 (a :: l).

(** Calls on an ensemble, one after the other, up to the first that raises. *)
Fixpoint ens_calls (fs : list (ensemble -> samp (ensemble * out unit))) (e : ensemble) : samp (ensemble * out unit) :=
  match fs with
  | [] => Ret (e, Ok tt)
  | f :: fs' =>
    let! r := f e in
    match snd r with
    | Ok _ => ens_calls fs' (fst r)
    | Err x => Ret (fst r, Err x)
    end
  end.

(** A number for a result, counted only if the call succeeded. *)
Definition success {A} (g : A -> R) (r : out A) : R := match r with Ok a => g a | Err _ => 0%R end.

(** A number for what a call leaves, counted only if it succeeded. *)
Definition left_by {A B} (g : A -> R) (r : A * out B) : R := match snd r with Ok _ => g (fst r) | Err _ => 0%R end.

(** One number for every item, multiplied. *)
Definition product_of {A} (gs : list (A -> R)) (l : list A) : R := rprod (map (fun p => fst p (snd p)) (combine gs l)).

(** ** The table of an ensemble *)

(** The type of the columns made for a distribution. *)
Inductive column_kind : distribution -> kind -> Prop :=
| ck_categorical : forall args k, lookup "k"%string args = Some k -> 0 < k -> column_kind ("categorical"%string, args) (KCategory k)
| ck_bernoulli : forall args, column_kind ("bernoulli"%string, args) KBit
| ck_normal : forall args, column_kind ("normal"%string, args) (KReal true)
| ck_poisson : forall args, column_kind ("poisson"%string, args) KCount.

(** A table: the cell of every row in every column, if there is one. *)
Definition sheet_of := Z -> Z -> option val.

(** [c] is a CrossCat model whose columns are [outs], of types [ks], and whose cells are
    those of [F]. *)
Definition showing (outs : list Z) (ks : list kind) (F : sheet_of) (c : cgpm) : Prop :=
  exists X, c = CProd X /\ crosscat X /\ Permutation (flat_map columns_of X) outs /\
    Forall2 (typed X) outs ks /\ forall r v x, holds X r v x <-> F r v = Some x.

(** What recording [obs] as row [rid], and removing row [rid], do to a table. *)
Definition with_cells (rid : Z) (obs : row) (F : sheet_of) : sheet_of :=
  fun r v => if Z.eq_dec r rid then match lookup v obs with Some x => Some x | None => F r v end else F r v.
Definition without_row (rid : Z) (F : sheet_of) : sheet_of :=
  fun r v => if Z.eq_dec r rid then None else F r v.

(** A change of a table: a row recorded, or a row removed. *)
Inductive change := Recorded (rid : Z) (obs : row) | Removed (rid : Z).
Definition apply_change (F : sheet_of) (h : change) : sheet_of :=
  match h with Recorded rid obs => with_cells rid obs F | Removed rid => without_row rid F end.

(** The observation is about columns of the ensemble, each named once. *)
Definition about (outs : list Z) (obs : row) : Prop := NoDup (keys obs) /\ incl (keys obs) outs.

(** An inference program that keeps the table of the chains whenever it succeeds. *)
Definition keeps_table (e : ensemble) (program : cgpm -> samp (cgpm * out cgpm)) : Prop :=
  forall outs ks F c s c', In c (cgpms e) -> showing outs ks F c -> can program c s c' -> showing outs ks F c'.

(** Successful calls on an ensemble, with the changes they stand for. *)
Inductive ens_history (e0 : ensemble) : list change -> ensemble -> Prop :=
| eh_start : ens_history e0 [] e0
| eh_observe : forall l e e' mp rid obs, ens_history e0 l e -> about (ens_outputs e0) obs ->
    possible (ens_observe e (AInt rid) (ADict obs) ANone mp) (fun r => r = (e', Ok tt)) ->
    ens_history e0 (l ++ [Recorded rid obs]) e'
| eh_observe_bulk : forall l e e' mp rowids observations, ens_history e0 l e -> List.length observations = List.length rowids ->
    (forall obs, In obs observations -> about (ens_outputs e0) obs) ->
    possible (ens_observe_bulk e (Some (map AInt rowids)) (Some (map ADict observations)) None mp) (fun r => r = (e', Ok tt)) ->
    ens_history e0 (l ++ map (fun p => Recorded (fst p) (snd p)) (combine rowids observations)) e'
| eh_unobserve : forall l e e' mp rid, ens_history e0 l e ->
    possible (ens_unobserve e (AInt rid) mp) (fun r => r = (e', Ok tt)) ->
    ens_history e0 (l ++ [Removed rid]) e'
| eh_unobserve_bulk : forall l e e' mp rowids, ens_history e0 l e ->
    possible (ens_unobserve_bulk e (Some (map AInt rowids)) mp) (fun r => r = (e', Ok tt)) ->
    ens_history e0 (l ++ map Removed rowids) e'
| eh_transition : forall l e e' mp program, ens_history e0 l e -> keeps_table e program ->
    possible (ens_transition e program mp) (fun r => r = (e', Ok tt)) ->
    ens_history e0 l e'.

(** A new chain: no cell is recorded, and no row. *)
Definition new_chain (outs : list Z) (ks : list kind) (c : cgpm) : Prop :=
  showing outs ks (fun _ _ => None) c /\ exists X, c = CProd X /\ forall m, In m X -> new_view m.

(** Columns are together exactly if they have the same assignment. *)
Definition assigned (outs : list Z) (l : list Z) (c : cgpm) : Prop :=
  exists X, c = CProd X /\ forall i j o o', nth_error outs i = Some o -> nth_error outs j = Some o' ->
    (together X o o' <-> nth_error l i = nth_error l j).
