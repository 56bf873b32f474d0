(** Specification of the posterior over the partitions of the rows of a view. *)
From Coq Require Import List ZArith QArith Qcanon Reals Bool String.
From Verif Require Import Base Xr Samp Lgamma Prims Cgpm SpecPrims SpecComp SpecBook SpecTable SpecWalks SpecSame.
Import ListNotations.
Local Open Scope Z_scope.

(** [m] holds the table of [m0] (the same rows with the same cells, in the same columns with
    the same hyperparameters), in clusters of its own. *)
Definition arranged (m0 m : cgpm) : Prop :=
  grown m /\ sheet m /\ consistent m /\ uniform m0 m /\
  (forall r, seat m r = None <-> seat m0 r = None) /\
  forall r o, In o (columns_of m0) -> cell m r o = cell m0 r o.

(** The same rows are together; the names of the clusters may differ. *)
Definition same_blocks (m m' : cgpm) : Prop :=
  forall r r', seat m r <> None -> seat m r' <> None -> (seat m' r = seat m' r' <-> seat m r = seat m r').

(** [Om] has one view for every way to divide the rows of [m0] into clusters. *)
Definition all_partitions (m0 : cgpm) (Om : list cgpm) : Prop :=
  (forall m, In m Om -> arranged m0 m) /\
  ForallOrdPairs (fun m m' => ~ same_blocks m m') Om /\
  forall a : Z -> Z, exists m, In m Om /\
    forall r r', seat m0 r <> None -> seat m0 r' <> None -> (seat m r = seat m r' <-> a r = a r').

(** The exponential of logpdf_score: prior probability of the clusters times the likelihood of
    the cells. *)
Definition exp_score (m : cgpm) : R := match score m with Ok (Fin x) => exp x | _ => 0%R end.

(** The posterior probability of the clusters of [m]. *)
Definition posterior_of (Om : list cgpm) (m : cgpm) : R := (exp_score m / rsum (map exp_score Om))%R.

(** [f] depends on which rows are together, not on the names of clusters. *)
Definition of_blocks (m0 : cgpm) (f : cgpm -> R) : Prop :=
  forall m m', arranged m0 m -> arranged m0 m' -> same_blocks m m' -> f m' = f m.

(** The average of [f] under the posterior. *)
Definition average (Om : list cgpm) (f : cgpm -> R) : R := rsum (map (fun m => posterior_of Om m * f m)%R Om).

(** [rids] lists every recorded row once. *)
Definition order_of (m0 : cgpm) (rids : list Z) : Prop := NoDup rids /\ forall r, In r rids <-> seat m0 r <> None.
