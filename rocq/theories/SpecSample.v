(** Specification of random partitions, of the renumbering of clusters and of rendered
    views. *)
From Coq Require Import List ZArith QArith Qcanon Reals Bool String Permutation Sorted.
From Verif Require Import Base Xr Samp Lgamma Prims Cgpm SpecPrims SpecComp SpecTable Walks SpecWalks SpecViews Sample.
Import ListNotations.
Local Open Scope Z_scope.

(** [p] is a list of nonempty disjoint blocks that cover 0..N-1. *)
Definition partition_of (N : nat) (p : list (list Z)) : Prop :=
  (forall b, In b p -> b <> []) /\ NoDup (List.concat p) /\ forall z, In z (List.concat p) <-> 0 <= z < Z.of_nat N.

(** The blocks are in the order of their first members, and each in increasing order. *)
Definition by_appearance (p : list (list Z)) : Prop :=
  (forall b, In b p -> StronglySorted Z.lt b) /\ StronglySorted Z.lt (map (hd 0) p).

(** The probability of a partition under the Chinese restaurant process with concentration
    [alpha]. *)
Definition crp_probability (alpha : R) (p : list (list Z)) : R :=
  (alpha ^ List.length p * rprod (map (fun b => INR (fact (List.length b - 1))) p) /
     rprod (map (fun i => alpha + INR i) (seq 0 (List.length (List.concat p)))))%R.

(** [f] gives the tables [ts] different numbers, 0 up to how many there are. *)
Definition renumbering (f : Z -> Z) (ts : list Z) : Prop :=
  (forall t u, In t ts -> In u ts -> f t = f u -> t = u) /\
  exists K, forall z, In z (map f ts) <-> 0 <= z < K.

(** [l] has the rows and tables of [l0], ordered by table; the rows of a table in the same
    order as before. *)
Definition ordered_by_table (l0 l : list (Z * Z)) : Prop :=
  Permutation l l0 /\ StronglySorted (fun p q => snd p <= snd q) l /\
  forall t, filter (fun p => snd p =? t) l = filter (fun p => snd p =? t) l0.

(** The row divider [d] accepts the rows [l] with their tables, one after the other, and is
    [d'] afterwards. *)
Inductive seated : dist -> list (Z * Z) -> dist -> Prop :=
| seated_nil : forall d, seated d [] d
| seated_cons : forall d d1 d2 r t l,
    dist_observe d r [(dist_o d, vz t)] [] = (d1, Ok tt) -> seated d1 l d2 -> seated d ((r, t) :: l) d2.

(** The hyperparameter [k] of the column is positive if given. *)
Definition positive (k : string) (d : dim) : Prop := forall q, lookup k (dim_hypers d) = Some q -> (0 < qr q)%R.

(** The columns of CGPM that can be imported, and their types. *)
Inductive column_type (d : dim) : kind -> Prop :=
| ct_categorical : forall k, dim_cctype d = "categorical"%string -> dim_k d = Some k -> 0 < k ->
    positive "alpha" d -> column_type d (KCategory k)
| ct_normal : dim_cctype d = "normal"%string -> positive "r" d -> positive "s" d -> positive "nu" d -> column_type d (KReal true)
| ct_poisson : dim_cctype d = "poisson"%string -> positive "a" d -> positive "b" d -> column_type d KCount.

(** A view of a CGPM state that can be imported: columns as above, at least one; a CRP for
    its rows; all names different; a legal value in every column for every row. *)
Definition convertible (v : cgpm_view) : Prop :=
  cv_dims v <> [] /\ NoDup (dim_output (cv_crp v) :: map dim_output (cv_dims v)) /\
  (forall d, In d (cv_dims v) -> exists k, column_type d k) /\
  dim_cctype (cv_crp v) = "crp"%string /\ positive "alpha" (cv_crp v) /\
  NoDup (keys (cv_Zr v)) /\
  (forall d k r, In d (cv_dims v) -> column_type d k -> In r (keys (cv_Zr v)) -> exists column x,
     lookup (dim_output d) (cv_X v) = Some column /\ lookup r column = Some x /\ in_domain k [] x).

(** The hyperparameters that [d] gives are those of [b]. *)
Definition hypers_as (d : dim) (b : dist) : Prop :=
  forall k x q, lookup k (dist_get_hypers b) = Some x -> lookup k (dim_hypers d) = Some q -> x = q.

(** The columns of cluster [k] of a view. *)
Definition cluster_columns (m : cgpm) (k : val) : list dist :=
  match m with CMix _ _ arr _ => leaves (component_at arr k) | _ => [] end.

(** The view [m] is the CGPM view [v]: its columns, rows, values and hyperparameters, and its
    clusters renumbered. *)
Definition imported (v : cgpm_view) (m : cgpm) : Prop :=
  (grown m /\ sheet m /\ consistent m) /\
  label_of m = dim_output (cv_crp v) /\ columns_of m = map dim_output (cv_dims v) /\
  (forall d k, In d (cv_dims v) -> column_type d k -> kind_at m (dim_output d) = Some k) /\
  (exists f, renumbering f (values (cv_Zr v)) /\
     forall r, seat m r = option_map (fun t => vz (f t)) (lookup r (cv_Zr v))) /\
  (forall r c, In c (columns_of m) ->
     cell m r c = match lookup r (cv_Zr v), lookup c (cv_X v) with Some _, Some column => lookup r column | _, _ => None end) /\
  (forall s, divider m = Some s -> hypers_as (cv_crp v) s) /\
  (forall d b k, In d (cv_dims v) -> In b (cluster_columns m k) -> dist_o b = dim_output d -> hypers_as d b).

(** Every row of the view has at least one cell. *)
Definition no_empty_rows (m : cgpm) : Prop := forall r, seat m r <> None -> exists c x, cell m r c = Some x.

(** The statement [obs] has exactly the cells of row [r]. *)
Definition cells_of_row (m : cgpm) (r : Z) (obs : row) : Prop :=
  forall c, c <> label_of m -> lookup c obs = cell m r c.

(** The rows of a view with their clusters, in the order they are recorded. *)
Definition recorded_rows (m : cgpm) (l : list (Z * Z)) : Prop :=
  exists s, divider m = Some s /\ dist_data s = map (fun p : Z * Z => (fst p, vz (snd p))) l.

(** [obs] names the cluster [t]. *)
Definition names_cluster (m : cgpm) (t : Z) (obs : row) : Prop := lookup (label_of m) obs = Some (vz t).

(** [order] lists the members of a set, each once, in some order. *)
Definition lists (order : list Z -> list Z) : Prop := forall l, NoDup (order l) /\ forall z, In z (order l) <-> In z l.
