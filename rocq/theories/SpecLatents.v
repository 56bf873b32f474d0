(** Specification of what the external engine is told of the latent state. *)
From Coq Require Import List ZArith QArith Qcanon Reals Bool String.
From Verif Require Import Base Xr Samp Lgamma Prims Cgpm SpecPrims SpecComp SpecTable Walks SpecWalks SpecViews SpecCrosscat Cpp.
Import ListNotations.
Local Open Scope Z_scope.

(** The hyperparameters told of column [v] are those of a component without data that models
    it, under the names the engine has for them; of a Categorical column also the number of
    different values in it. *)
Definition column_told (X : list cgpm) (v : Z) (h : hypers) : Prop :=
  exists d, In d (modelling (CProd X) v) /\ dist_data d = [] /\
    match d with
    | DNrm s => h = [("fixed", 0%Qc); ("mu", nrm_m s); ("nu", nrm_nu s); ("r", nrm_r s); ("s", nrm_s s)]%string
    | DCat s => exists seen : list Qc, NoDup seen /\ (forall q, In q seen <-> exists r, holds X r v (VQ q)) /\
        h = [("fixed", 0%Qc); ("dirichlet_alpha", cat_alpha s); ("K", qz (Z.of_nat (List.length seen)))]%string
    | _ => False
    end.

(** [counts] says of each of 0, 1, ... how often it occurs in [l], and all of [l] is counted. *)
Definition tallied (l counts : list Z) : Prop :=
  (forall z, In z l -> 0 <= z < Z.of_nat (List.length counts)) /\
  forall k n, nth_error counts k = Some n -> n = Z.of_nat (count_occ Z.eq_dec l (Z.of_nat k)) /\ 0 < n.

(** What is told of a view whose rows have the clusters [part]: its columns, how many rows each
    cluster has, how many clusters there are, and the concentration of its row divider. *)
Definition view_told (m : cgpm) (part : list Z) (vs : view_state) : Prop :=
  vs_columns vs = columns_of m /\ tallied part (vs_counts vs) /\ vs_blocks vs = List.length (vs_counts vs) /\
  exists s, divider m = Some (DCrp s) /\ vs_alpha vs = crp_alpha s.
