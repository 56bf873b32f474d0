(** Specification of the inference of hyperparameters. *)
From Coq Require Import List ZArith QArith Qcanon Reals Bool String.
From Verif Require Import Base Xr Samp Lgamma Prims Cgpm SpecPrims Hypers.
Import ListNotations.
Local Open Scope Z_scope.

(** The parameters of a primitive, apart from its hyperparameters. *)
Definition params_of (d : dist) : option (Qc * Qc) :=
  match d with DNuc s => Some (nuc_mu s, nuc_var s) | _ => None end.

(** Two primitives that differ in their hyperparameters at most. *)
Definition untouched (d d' : dist) : Prop :=
  dist_o d' = dist_o d /\ kind_of d' = kind_of d /\ same_class d' d = true /\ dist_data d' = dist_data d /\
  dist_suffstats d' = dist_suffstats d /\ params_of d' = params_of d.

(** The primitive after [set_hypers(h)]. *)
Definition retune (h : hypers) (d : dist) : dist := fst (dist_set_hypers d h).

(** The grid of hyperparameter [k]. *)
Definition grid_of (gs : grids) (k : string) : list Qc := match lookup k gs with Some g => g | None => [] end.

(** Grids for every hyperparameter of [d], none empty, positive values where needed. *)
Definition good_grids (d : dist) (gs : grids) : Prop :=
  (forall k, In k (hyper_names d) -> grid_of gs k <> []) /\
  (forall k v, In k (positive_names d) -> In v (grid_of gs k) -> (0 < qr v)%R).

(** The marginal likelihood of the data of the components, given hyperparameters [h]. *)
Definition weight (ds : list dist) (h : hypers) : R :=
  fold_right (fun d p => (match dist_score (retune h d) with Ok x => xexp x | Err _ => 0%R end * p)%R) 1%R ds.

(** Resampling the hyperparameters [names] one after the other from their grids, each with
    probability proportional to [w] given the others: the expectation of [f], starting from
    the values [h]. *)
Fixpoint gibbs_law (w : hypers -> R) (gs : grids) (names : list string) (f : hypers -> R) (h : hypers) : R :=
  match names with
  | [] => f h
  | k :: ks =>
    let Z := rsum (map (fun g => w (dset k g h)) (grid_of gs k)) in
    rsum (map (fun g => (w (dset k g h) / Z * gibbs_law w gs ks f (dset k g h))%R) (grid_of gs k))
  end.

(** The sum of [F] over all ways to give the hyperparameters [names] values from their grids. *)
Fixpoint over_grids (gs : grids) (names : list string) (F : hypers -> R) (h : hypers) : R :=
  match names with
  | [] => F h
  | k :: ks => rsum (map (fun g => over_grids gs ks F (dset k g h)) (grid_of gs k))
  end.

(** What the theorems assume of log_linspace: [n] points, between the two ends. *)
Definition spaced (logspace : Qc -> Qc -> nat -> list Qc) : Prop :=
  forall a b n, (0 < qr a)%R -> (0 < qr b)%R ->
    List.length (logspace a b n) = n /\ forall x, In x (logspace a b n) -> (Rmin (qr a) (qr b) <= qr x <= Rmax (qr a) (qr b))%R.

(** Two models that differ at most in the hyperparameters of the components of column [o]:
    the same tree, the same components, the same assignments of rows. *)
Inductive tuned_at (o : Z) : cgpm -> cgpm -> Prop :=
| tn_same : forall c, tuned_at o c c
| tn_dist : forall d d', dist_o d = o -> untouched d d' -> tuned_at o (CDist d) (CDist d')
| tn_prod : forall cs cs', Forall2 (tuned_at o) cs cs' -> tuned_at o (CProd cs) (CProd cs')
| tn_fin : forall ix cs cs' m, Forall2 (tuned_at o) cs cs' -> tuned_at o (CFinArr ix cs m) (CFinArr ix cs' m)
| tn_flex : forall ix b b' cs cs' m, tuned_at o b b' ->
    Forall2 (fun p q => fst p = fst q /\ tuned_at o (snd p) (snd q)) cs cs' -> tuned_at o (CFlexArr ix b cs m) (CFlexArr ix b' cs' m)
| tn_mix : forall f d d' arr arr' m, d' = d \/ (dist_o d = o /\ untouched d d') -> tuned_at o arr arr' ->
    tuned_at o (CMix f d arr m) (CMix f d' arr' m).

(** A list of components to which inference of hyperparameters applies: there is at least
    one, all are of the same class, and it is not NormalUC. *)
Definition tunable (ds : list dist) (d0 : dist) : Prop :=
  (exists rest, ds = d0 :: rest) /\ (forall d, In d ds -> same_class d d0 = true) /\ forall s, d0 <> DNuc s.

(** What a function of the resulting hyperparameters is worth on a result. *)
Definition on_result (f : hypers -> R) (r : list dist * out hypers) : R := match snd r with Ok h => f h | Err _ => 0%R end.
