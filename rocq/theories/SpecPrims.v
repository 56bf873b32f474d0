(** Specification of the primitives, independent of how they are implemented:
    what is recorded, which values are accepted, what the statistics mean. *)
From Coq Require Import List ZArith QArith Qcanon Reals Bool String Permutation.
From Verif Require Import Base Xr Samp Lgamma Prims.
Import ListNotations.
Local Open Scope Z_scope.

(** ** Histories *)

(** A state-changing call a user can make on a primitive. (The queries logpdf,
    simulate, logpdf_score, support return a value and no new state.) *)
Inductive call :=
| Observe (rid : Z) (obs I : row)
| Unobserve (rid : Z)
| SetHypers (h : hypers)
| SetParams (p : dict string Qc).

(** The object after the call, whether it returned or raised. *)
Definition after (d : dist) (c : call) : dist :=
  match c with
  | Observe rid obs ins => fst (dist_observe d rid obs ins)
  | Unobserve rid => fst (dist_unobserve d rid)
  | SetHypers h => fst (dist_set_hypers d h)
  | SetParams p => fst (dist_set_params d p)
  end.

(** A freshly constructed primitive with positive hyperparameters. *)
Inductive fresh : dist -> Prop :=
| fresh_crp : forall o alpha, (0 < qr alpha)%R -> fresh (DCrp (crp_new o alpha))
| fresh_cat : forall o k alpha, 0 < k -> (0 < qr alpha)%R -> fresh (DCat (cat_new o k alpha))
| fresh_ber : forall o alpha beta, (0 < qr alpha)%R -> (0 < qr beta)%R ->
    fresh (DBer (ber_new o alpha beta))
| fresh_poi : forall o a b p, poi_new o a b = Ok p -> fresh (DPoi p)
| fresh_nrm : forall o m r s nu p, nrm_new o m r s nu = Ok p -> fresh (DNrm p)
| fresh_nuc : forall o h mu var p, nuc_new o h mu var = Ok p -> fresh (DNuc p).

(** A state some user can bring about, by any calls, successful or raising. *)
Definition reachable (d : dist) : Prop :=
  exists d0 calls, fresh d0 /\ d = fold_left after calls d0.

(** ** What is recorded *)

(** The class of a primitive: it determines the cells it holds. [KReal true] is Normal,
    [KReal false] is NormalUC. *)
Inductive kind := KTable | KCategory (k : Z) | KBit | KCount | KReal (collapsed : bool).

Definition kind_of (d : dist) : kind :=
  match d with
  | DCrp _ => KTable
  | DCat s => KCategory (cat_k s)
  | DBer _ => KBit
  | DPoi _ => KCount
  | DNrm _ => KReal true
  | DNuc _ => KReal false
  end.

(** Some recorded row sits at table [t]. *)
Definition occupied (data : dict Z val) (t : Z) : Prop := exists rid, In (rid, vz t) data.

(** [t] is the first table past all occupied ones (0 when nobody is seated). *)
Definition next_table (data : dict Z val) (t : Z) : Prop :=
  (data = [] /\ t = 0) \/ (occupied data (t - 1) /\ forall t', occupied data t' -> t' < t).

(** Values that may be recorded given what is already recorded. *)
Definition in_domain (K : kind) (data : dict Z val) (x : val) : Prop :=
  match K, x with
  | KTable, VNan => False
  | KTable, VQ q => occupied data (trunc q) \/ next_table data (trunc q)
  | _, VNan => True
  | KCategory k, VQ q => exists z, q = qz z /\ 0 <= z < k
  | KBit, VQ q => q = qz 0 \/ q = qz 1
  | KCount, VQ q => exists z, q = qz z /\ 0 <= z
  | KReal _, VQ _ => True
  end.

(** What is remembered of an accepted value: tables are truncated to an int. *)
Definition stored (K : kind) (x : val) : val :=
  match K, x with
  | KTable, VQ q => vz (trunc q)
  | _, _ => x
  end.

(** The exception for a value outside the domain. *)
Definition rejection (K : kind) (x : val) : exn :=
  match K, x with
  | KTable, VNan => ValueError
  | KTable, _ => AssertionError
  | KBit, _ => AssertionError
  | _, _ => ValueError
  end.

(** Recording in the abstract: a table of (row, value) pairs. [spec_observe K o data
    rid obs I data' res] says that observing leaves [data'] recorded and returns or
    raises [res]. *)
Inductive spec_observe (K : kind) (o : Z) (data : dict Z val) (rid : Z) (obs I : row)
  : dict Z val -> out unit -> Prop :=
| so_duplicate : In rid (keys data) -> spec_observe K o data rid obs I data (Err ValueError)
| so_inputs : ~ In rid (keys data) -> I <> [] ->
    spec_observe K o data rid obs I data (Err AssertionError)
| so_keys : ~ In rid (keys data) -> I = [] -> keys obs <> [o] ->
    spec_observe K o data rid obs I data (Err AssertionError)
| so_domain : forall x, ~ In rid (keys data) -> I = [] -> obs = [(o, x)] -> ~ in_domain K data x ->
    spec_observe K o data rid obs I data (Err (rejection K x))
| so_accept : forall x, ~ In rid (keys data) -> I = [] -> obs = [(o, x)] -> in_domain K data x ->
    spec_observe K o data rid obs I (data ++ [(rid, stored K x)]) (Ok tt).

(** Removal in the abstract. *)
Inductive spec_unobserve (o : Z) (data : dict Z val) (rid : Z)
  : dict Z val -> out (row * row) -> Prop :=
| su_unknown : ~ In rid (keys data) -> spec_unobserve o data rid data (Err ValueError)
| su_known : forall l1 l2 x, data = l1 ++ (rid, x) :: l2 ->
    spec_unobserve o data rid (l1 ++ l2) (Ok ([(o, x)], [])).

(** ** What the statistics mean *)

(** The non-missing recorded values. *)
Definition cells (data : dict Z val) : list Qc :=
  flat_map (fun p => match snd p with VQ q => [q] | VNan => [] end) data.

(** How often [z] occurs among the recorded values. *)
Definition occurrences (z : Z) (data : dict Z val) : Z :=
  Z.of_nat (List.length (filter (fun q => eqb q (qz z)) (cells data))).

(** Natural logarithm of the factorial of a natural number given as a rational. *)
Definition log_factorial (q : Qc) : R := ln (INR (fact (Z.to_nat (trunc q)))).

(** The statistics of a primitive are those of its recorded data. *)
Definition stats_of_data (K : kind) (data : dict Z val) (s : suffstats) : Prop :=
  match K, s with
  | KTable, SSCrp N counts =>
      N = Z.of_nat (List.length data) /\ NoDup (keys counts) /\
      (forall t n, lookup t counts = Some n <-> n = occurrences t data /\ 0 < n)
  | KCategory k, SSCat N counts =>
      N = Z.of_nat (List.length (cells data)) /\
      counts = map (fun z => occurrences z data) (zrange (Z.to_nat k))
  | KBit, SSBer N x_sum =>
      N = Z.of_nat (List.length (cells data)) /\ x_sum = occurrences 1 data
  | KCount, SSPoi N sum_x slf =>
      N = Z.of_nat (List.length (cells data)) /\ sum_x = qsum (cells data) /\
      slf = rsum (map log_factorial (cells data))
  | KReal _, SSNrm N sum_x sum_x_sq =>
      N = Z.of_nat (List.length (cells data)) /\ sum_x = qsum (cells data) /\
      sum_x_sq = qsum (map (fun q => q * q)%Qc (cells data))
  | _, _ => False
  end.

(** ** Predictive densities, from the recorded data and the hyperparameters *)

(** Logarithm of a nonnegative density as an extended log density. *)
Definition xlog (p : R) : xr := if Rlt_dec 0%R p then Fin (ln p) else NInf.

(** The table after the largest one in use; 0 when none is. *)
Definition first_free (data : dict Z val) : Z :=
  1 + fold_right Z.max (-1) (map trunc (cells data)).

Definition count_of (data : dict Z val) : R := INR (List.length (cells data)).
Definition sum_of (data : dict Z val) : R := rsum (map qr (cells data)).

(** [a (a+1) ... (a+n-1)] *)
Fixpoint rising (a : R) (n : nat) : R :=
  match n with O => 1%R | S n' => (rising a n' * (a + INR n'))%R end.

(** Negative binomial with real shape [a] and success probability [b/(b+1)]: the
    Poisson-Gamma predictive. *)
Definition neg_binomial (a b : R) (x : nat) : R :=
  (rising a x / INR (fact x) * Rpower (b / (b + 1)) a * (1 / (b + 1)) ^ x)%R.

(** Student t with [nu] degrees of freedom, location [mu] and squared scale [s2]. *)
Definition student_t (nu mu s2 x : R) : R :=
  (exp (lgamma ((nu + 1) / 2) - lgamma (nu / 2)) / sqrt (nu * PI * s2)
  * Rpower (1 + (x - mu) * (x - mu) / (nu * s2)) (- ((nu + 1) / 2)))%R.

Definition gaussian (mu var x : R) : R :=
  (exp (- ((x - mu) * (x - mu)) / (2 * var)) / sqrt (2 * PI * var))%R.

(** Posterior of the Normal with Normal-Gamma prior given the data [xs] (hyperparameters
    m, r, s, nu): location, and the prior scale plus squared deviations. *)
Definition post_loc (m r : R) (xs : list R) : R :=
  ((r * m + rsum xs) / (r + INR (List.length xs)))%R.
Definition post_scale (m r s : R) (xs : list R) : R :=
  let l := post_loc m r xs in
  (s + r * (m - l) * (m - l) + rsum (map (fun x => (x - l) * (x - l)) xs))%R.

(** Predictive density of the value [q] under a primitive, from its data. *)
Definition prim_density (d : dist) (q : Qc) : R :=
  let data := dist_data d in
  let n := count_of data in
  let z := trunc q in
  match d with
  | DCrp s =>
      if (0 <? occurrences z data)%Z then IZR (occurrences z data) / (n + qr (crp_alpha s))
      else if (z =? first_free data)%Z then qr (crp_alpha s) / (n + qr (crp_alpha s)) else 0
  | DCat s =>
      if is_int q && (0 <=? z)%Z && (z <? cat_k s)%Z
      then (IZR (occurrences z data) + qr (cat_alpha s)) / (n + IZR (cat_k s) * qr (cat_alpha s))
      else 0
  | DBer s =>
      if is_int q && (z =? 1)%Z
      then (IZR (occurrences 1 data) + qr (ber_alpha s)) / (n + qr (ber_alpha s) + qr (ber_beta s))
      else if is_int q && (z =? 0)%Z
      then (IZR (occurrences 0 data) + qr (ber_beta s)) / (n + qr (ber_alpha s) + qr (ber_beta s))
      else 0
  | DPoi s =>
      if is_int q && (0 <=? z)%Z
      then neg_binomial (qr (poi_a s) + sum_of data) (qr (poi_b s) + n) (Z.to_nat z)
      else 0
  | DNrm s =>
      let xs := map qr (cells data) in
      let nu := qr (nrm_nu s) + n in
      let r := qr (nrm_r s) + n in
      student_t nu (post_loc (qr (nrm_m s)) (qr (nrm_r s)) xs)
        (post_scale (qr (nrm_m s)) (qr (nrm_r s)) (qr (nrm_s s)) xs * (r + 1) / (r * nu)) (qr q)
  | DNuc s => gaussian (qr (nuc_mu s)) (qr (nuc_var s)) (qr q)
  end%R.

(** The class, variable and parameters of a primitive, without its data. *)
Definition settings (d : dist) : dist :=
  match d with
  | DCrp s => DCrp (crp_new (crp_o s) (crp_alpha s))
  | DCat s => DCat (cat_new (cat_o s) (cat_k s) (cat_alpha s))
  | DBer s => DBer (ber_new (ber_o s) (ber_alpha s) (ber_beta s))
  | DPoi s => DPoi (mkPoi (poi_o s) [] 0 0%Qc 0%R (poi_a s) (poi_b s))
  | DNrm s => DNrm (mkNrm (nrm_o s) [] 0 0%Qc 0%Qc (nrm_m s) (nrm_r s) (nrm_s s) (nrm_nu s))
  | DNuc s => DNuc (mkNuc (nuc_o s) [] 0 0%Qc 0%Qc (nuc_mu s) (nuc_var s) (nuc_hypers s))
  end.

(** Sizes of the blocks of the recorded partition. *)
Definition block_sizes (data : dict Z val) : list Z :=
  map (fun t => occurrences t data) (dedup (map trunc (cells data))).

(** ** Sequential prediction *)

(** [predicted d0 rows d r]: recording [rows] one after the other turns [d0] into [d],
    every call succeeding, and the logarithms of the predictive densities of the values,
    each taken before its value is recorded, add up to [r] (a missing value adds 0). *)
Inductive predicted : dist -> list (Z * val) -> dist -> R -> Prop :=
| predicted_none : forall d, predicted d [] d 0%R
| predicted_missing : forall d rid d' rows d'' r,
    dist_observe d rid [(dist_o d, VNan)] [] = (d', Ok tt) ->
    predicted d' rows d'' r -> predicted d ((rid, VNan) :: rows) d'' r
| predicted_value : forall d rid q d' rows d'' l r,
    dist_observe d rid [(dist_o d, VQ q)] [] = (d', Ok tt) ->
    dist_logpdf d (Some rid) [(dist_o d, VQ q)] [] [] = Ok (Fin l) ->
    predicted d' rows d'' r -> predicted d ((rid, VQ q) :: rows) d'' (l + r)%R.

(** ** Hyperparameter names *)

(** The hyperparameters of a primitive, and those that must be positive. *)
Definition hyper_names (d : dist) : list string :=
  match d with
  | DCrp _ | DCat _ => ["alpha"]
  | DBer _ => ["alpha"; "beta"]
  | DPoi _ => ["a"; "b"]
  | DNrm _ | DNuc _ => ["m"; "r"; "s"; "nu"]
  end%string.
Definition positive_names (d : dist) : list string :=
  match d with
  | DNrm _ | DNuc _ => ["r"; "s"; "nu"]
  | _ => hyper_names d
  end%string.

(** Acceptable arguments of set_hypers. *)
Definition good_hypers (d : dist) (h : hypers) : Prop :=
  (forall k, In k (hyper_names d) -> exists v, lookup k h = Some v) /\
  (forall k v, In k (positive_names d) -> lookup k h = Some v -> (0 < qr v)%R).

(** Weight of table [t] for a customer entering the room [data] when the fresh-table
    weight [alpha] is shared by [m] fresh tables. *)
Definition seat_weight (data : dict Z val) (alpha : R) (m : Z) (t : Z) : R :=
  if (0 <? occurrences t data)%Z then IZR (occurrences t data) else (alpha / IZR m)%R.

(** ** Whole histories in the abstract *)

(** Effect of one call on the abstract table of (row, value) pairs. *)
Definition spec_step (K : kind) (o : Z) (data : dict Z val) (c : call) (data' : dict Z val) : Prop :=
  match c with
  | Observe rid obs ins => exists res, spec_observe K o data rid obs ins data' res
  | Unobserve rid => exists res, spec_unobserve o data rid data' res
  | SetHypers _ | SetParams _ => data' = data
  end.

Inductive spec_run (K : kind) (o : Z) : dict Z val -> list call -> dict Z val -> Prop :=
| spec_run_nil : forall data, spec_run K o data [] data
| spec_run_cons : forall data c data' cs data'',
    spec_step K o data c data' -> spec_run K o data' cs data'' -> spec_run K o data (c :: cs) data''.

(** ** Comparing states *)

(** The row asked about is hypothetical or not yet recorded. *)
Definition unrecorded (rid : option Z) (data : dict Z val) : Prop :=
  match rid with None => True | Some r => ~ In r (keys data) end.

(** Same statistics up to the order of the CRP tables. *)
Definition same_stats (a b : suffstats) : Prop :=
  match a, b with
  | SSCrp N c, SSCrp N' c' => N = N' /\ Permutation c c'
  | _, _ => a = b
  end.

(** Every query gets the same answer. *)
Definition same_answers (d1 d2 : dist) : Prop :=
  (forall rid T C ins, dist_logpdf d1 rid T C ins = dist_logpdf d2 rid T C ins) /\
  (forall rid ts C ins N, dist_simulate d1 rid ts C ins N = dist_simulate d2 rid ts C ins N) /\
  dist_score d1 = dist_score d2 /\ dist_support d1 = dist_support d2 /\
  dist_get_hypers d1 = dist_get_hypers d2.
