(** Specification of the exchange with the external engine. *)
From Coq Require Import List ZArith QArith Qcanon Reals Bool String Permutation Sorted.
From Verif Require Import Base Xr Samp Lgamma Prims Cgpm SpecPrims SpecComp SpecTable Walks SpecWalks SpecViews SpecCrosscat.
Import ListNotations.
Local Open Scope Z_scope.

(** [order] lists the members of a set of ints, each once; those of 0..n-1 in increasing order
    (CPython's tables for small ints), others in any order. *)
Definition set_order (order : list Z -> list Z) : Prop :=
  (forall l, NoDup (order l) /\ forall z, In z (order l) <-> In z l) /\
  (forall l n, (forall z, In z l <-> 0 <= z < Z.of_nat n) -> order l = map Z.of_nat (seq 0 n)).

(** [a] is an outcome of [m], the random integers drawn being [draws]. *)
Fixpoint outcome {A} (m : samp A) (draws : list Z) (a : A) : Prop :=
  match m with
  | Ret b => draws = [] /\ a = b
  | Flip ws k => exists i, (i < List.length ws)%nat /\ (0 < nth i ws 0)%R /\ outcome (k i) draws a
  | DrawQ l k => exists q, law_ok l q /\ outcome (k q) draws a
  | DrawNat _ _ k => exists n, outcome (k n) draws a
  | DrawInt lo hi k => exists z rest, draws = z :: rest /\ lo <= z < hi /\ outcome (k z) rest a
  | DrawPerm n k => exists l, Permutation (seq 0 n) l /\ outcome (k l) draws a
  end.

(** The rows of a table, in increasing order. *)
Definition rows_of (X : list cgpm) (rows : list Z) : Prop :=
  StronglySorted Z.lt rows /\ forall r, In r rows <-> exists v x, holds X r v x.

(** A numbering of the views of [n] columns, and for each view one of the clusters of [k]
    rows. *)
Definition structure (n k : nat) (views : list Z) (clusters : list (list Z)) : Prop :=
  List.length views = n /\ (forall z, In z views <-> 0 <= z < Z.of_nat (List.length clusters)) /\
  forall part, In part clusters -> List.length part = k.

(** The views and clusters of [X] are those numbered by [views] and [clusters]. *)
Definition grouped (cols rows : list Z) (views : list Z) (clusters : list (list Z)) (X : list cgpm) : Prop :=
  (forall o a p b, In (o, a) (combine cols views) -> In (p, b) (combine cols views) -> (together X o p <-> a = b)) /\
  (forall o a part m, In (o, a) (combine cols views) -> nth_error clusters (Z.to_nat a) = Some part -> In m X -> In o (columns_of m) ->
     forall r k r' l, In (r, k) (combine rows part) -> In (r', l) (combine rows part) -> seat m r <> None /\ (seat m r = seat m r' <-> k = l)).

(** What the external engine can be given: at least one column; every column Normal or
    Categorical, the latter with some value; every row of a view has cells. *)
Definition importable (X : list cgpm) : Prop :=
  crosscat X /\ complete X /\ X <> [] /\
  (forall v k, typed X v k -> k = KReal true \/ exists n, k = KCategory n) /\
  (forall v n, typed X v (KCategory n) -> exists r q, holds X r v (VQ q)) /\
  (forall m r, In m X -> seat m r <> None -> exists v x, holds X r v x).

(** [code] leaves missing values and the values of Normal columns alone; it gives the values of
    a Categorical column different numbers, 0 up to how many there are. *)
Definition numbering (X : list cgpm) (v : Z) (code : val -> val) : Prop :=
  code VNan = VNan /\
  (typed X v (KReal true) -> forall x, code x = x) /\
  (forall n, typed X v (KCategory n) ->
     (exists K, forall y, (exists r q, holds X r v (VQ q) /\ code (VQ q) = y) <-> exists i, y = vz i /\ 0 <= i < K) /\
     (forall r q r' q', holds X r v (VQ q) -> holds X r' v (VQ q') -> code (VQ q) = code (VQ q') -> q = q')).

(** Line by line the cells of a table, each as [code] has it. *)
Definition tabulated (X : list cgpm) (cols rows : list Z) (code : Z -> val -> val) (T : list (list val)) : Prop :=
  Forall2 (fun r line => Forall2 (fun v y => exists x, holds X r v x /\ y = code v x) cols line) rows T.

(** The positions [is] of the members of [l] among [names]. *)
Definition positions (names l : list Z) (is : list nat) : Prop := Forall2 (fun v i => nth_error names i = Some v) l is.

(** Arguments that make sense for [X]: a number of steps or a time is given; only columns and
    rows of [X] are named; [links] are the constraints on pairs as the engine's library
    groups them. *)
Definition sensible (X : list cgpm) (N : option Z) (S : option Qc) (rowids cols : option (list Z)) (Cd : list (list Z)) (links : list (Z * list Z)) : Prop :=
  (N <> None \/ S <> None) /\ columns_given X cols /\
  (forall l r, rowids = Some l -> In r l -> exists v x, holds X r v x) /\
  (forall b o, In b Cd -> In o b -> In o (flat_map columns_of X)) /\
  (forall o b, In (o, b) links -> In o (flat_map columns_of X) /\ forall p, In p b -> In p (flat_map columns_of X)).

(** [X'] has the same views and the same clusters as [X]. *)
Definition same_partitions (X X' : list cgpm) : Prop :=
  (forall v w, In v (flat_map columns_of X) -> In w (flat_map columns_of X) -> (together X' v w <-> together X v w)) /\
  (forall m m' v, In m X -> In v (columns_of m) -> In m' X' -> In v (columns_of m') ->
     forall r r' w x w' x', holds X r w x -> holds X r' w' x' -> (seat m' r = seat m' r' <-> seat m r = seat m r')).
