(** What a Chain stands for: the product along the network of the density each child gives its
    own cells when told the values of its inputs. *)
From Coq Require Import List ZArith QArith Qcanon Reals Bool String Permutation.
From Verif Require Import Base Xr Samp Lgamma Prims Cgpm SpecPrims SpecComp Chain.
Import ListNotations.
Local Open Scope Z_scope.

(** The log density a child gives its cells of the row [S], told its inputs among the given
    inputs [I] and the row; nothing when the row has none of its cells. *)
Definition local (n : node) (rid : option Z) (S I : row) : out xr :=
  match cells_of (n_outs n) S with
  | [] => Ok (Fin 0)
  | Sn => n_logpdf n rid Sn [] (cells_of (n_ins n) (I ++ S))
  end.

(** Every child with a cell in the row has its inputs in the row, or given from outside. *)
Definition determined (ns : list node) (S I : row) : Prop :=
  forall n, In n ns -> cells_of (n_outs n) S <> [] -> forall i, In i (n_ins n) -> In i (keys (I ++ S)).

(** The given inputs are columns no child outputs. *)
Definition exogenous (ns : list node) (I : row) : Prop :=
  forall i, In i (keys I) -> ~ In i (flat_map n_outs ns).

(** Infinite, as [math.isinf] has it. *)
Definition infinite (x : xr) : Prop := x = NInf \/ x = PInf.

(** ** Unobserved parents *)

(** The rows that give every column of the list one of its values. *)
Fixpoint fillings (dom : Z -> list val) (cols : list Z) : list row :=
  match cols with
  | [] => [[]]
  | c :: cols' => flat_map (fun x => map (cons (c, x)) (fillings dom cols')) (dom c)
  end.

(** The density of a child's cells, in linear domain. *)
Definition density (n : node) (rid : option Z) (S I : row) : R :=
  match local n rid S I with Ok x => xexp x | Err _ => 0 end%R.

(** The joint density of a row. *)
Definition joint (ns : list node) (rid : option Z) (S I : row) : R :=
  rprod (map (fun n => density n rid S I) ns).

(** Every input of the child and nothing else, with possible values. *)
Definition told (dom : Z -> list val) (n : node) (J : row) : Prop :=
  NoDup (keys J) /\ (forall i, In i (keys J) <-> In i (n_ins n)) /\ forall i x, In (i, x) J -> In x (dom i).

(** A child with one column, of finitely many values: given its inputs, it draws from the
    density its logpdf reports. *)
Definition lawful (dom : Z -> list val) (rid : option Z) (n : node) : Prop :=
  exists o (p : row -> val -> R), n_outs n = [o] /\
  (forall ts C J, finite_choices (n_simulate n rid ts C J None)) /\ forall J, told dom n J ->
    (forall x, In x (dom o) -> (0 <= p J x)%R /\ n_logpdf n rid [(o, x)] [] J = Ok (xlog (p J x))) /\
    rsum (map (p J) (dom o)) = 1%R /\
    (forall g, expect (n_simulate n rid [o] [] J None) g =
       rsum (map (fun x => p J x * g (Ok (SOne [(o, x)])))%R (dom o))) /\
    always (n_simulate n rid [o] [] J None) (fun r => exists x, In x (dom o) /\ r = Ok (SOne [(o, x)])) /\
    (forall J', told dom n J' -> (forall i, lookup i J' = lookup i J) -> p J' = p J).

(** The columns of the network not in the row. *)
Definition hidden (ns : list node) (S : row) : list Z :=
  filter (fun v => negb (existsb (Z.eqb v) (keys S))) (flat_map n_outs ns).

(** The sum of [f] over all completions of the row [S], each with its joint density. *)
Definition total (ns : list node) (dom : Z -> list val) (rid : option Z) (S I : row) (f : row -> R) : R :=
  rsum (map (fun D => joint ns rid (S ++ D) I * f (S ++ D)) (fillings dom (hidden ns S)))%R.

(** The marginal density of the row [S]. *)
Definition marginal (ns : list node) (dom : Z -> list val) (rid : option Z) (S I : row) : R :=
  total ns dom rid S I (fun _ => 1%R).

(** The cells of the row in the columns asked for, in that order. *)
Definition asked (ts : list Z) (T : row) : row :=
  flat_map (fun k => match lookup k T with Some x => [(k, x)] | None => [] end) ts.

(** The inputs given are possible values of columns no child outputs, among them every input
    that no child outputs. *)
Definition supplied (ns : list node) (dom : Z -> list val) (I : row) : Prop :=
  exogenous ns I /\ NoDup (keys I) /\ (forall k x, In (k, x) I -> In x (dom k)) /\
  forall n i, In n ns -> In i (n_ins n) -> In i (flat_map n_outs ns) \/ In i (keys I).

(** Possible values of columns of the network. *)
Definition possible_row (ns : list node) (dom : Z -> list val) (S : row) : Prop :=
  NoDup (keys S) /\ (forall k, In k (keys S) -> In k (flat_map n_outs ns)) /\ forall k x, In (k, x) S -> In x (dom k).
