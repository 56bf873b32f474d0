(** Properties C01-C14 of the univariate primitives. Statements use only the model of the
    API (Prims.v) and the specification (SpecPrims.v). *)
From Coq Require Import List ZArith QArith Qcanon Reals Bool String Permutation Sorted Lia Lra.
From Verif Require Import Base Xr Samp Lgamma Prims Lib SpecPrims PrimsInv PrimsDens PrimsThm PrimsThm2.
Import ListNotations.
Local Open Scope Z_scope.

(** ** Worked states used to show that hypotheses are met *)

Definition half : Qc := Q2Qc (1 # 2).
Definition obs1 (rid x : Z) : call := Observe rid [(7, vz x)] [].

(** A CRP after seating four rows, a rejected row, a removal and a new concentration. *)
Definition demo_crp : dist :=
  fold_left after [obs1 0 0; obs1 1 0; obs1 2 1; obs1 3 2; obs1 4 9; Unobserve 1;
                   SetHypers [("alpha"%string, half)]] (DCrp (crp_new 7 1%Qc)).
Definition demo_cat : dist :=
  fold_left after [obs1 0 2; obs1 1 0; Observe 2 [(7, VNan)] []; obs1 3 5; obs1 4 2; Unobserve 0]
    (DCat (cat_new 7 3 half)).
Definition demo_ber : dist :=
  fold_left after [obs1 0 1; obs1 1 0; obs1 2 2] (DBer (ber_new 7 1%Qc half)).
Definition poi0 : poi := mkPoi 7 [] 0 0%Qc 0%R 1%Qc half.
Definition demo_poi : dist := fold_left after [obs1 0 4; obs1 1 0; Unobserve 0; obs1 3 2] (DPoi poi0).
Definition nrm0 : nrm := mkNrm 7 [] 0 0%Qc 0%Qc 0%Qc 1%Qc half 1%Qc.
Definition demo_nrm : dist := fold_left after [obs1 0 4; obs1 1 (-3)] (DNrm nrm0).

Lemma half_pos : (0 < qr half)%R.
Proof. unfold qr, half. cbn. unfold Q2R. cbn. lra. Qed.
Lemma one_pos : (0 < qr 1%Qc)%R.
Proof. rewrite qr_1. lra. Qed.

Example demo_crp_reachable : reachable demo_crp /\ keys (dist_data demo_crp) = [0; 2; 3].
Proof.
  split; [|vm_compute; reflexivity].
  exists (DCrp (crp_new 7 1%Qc)). eexists. split; [|reflexivity]. apply fresh_crp. exact one_pos.
Qed.
Example demo_cat_reachable : reachable demo_cat /\ keys (dist_data demo_cat) = [1; 2; 4].
Proof.
  split; [|vm_compute; reflexivity].
  exists (DCat (cat_new 7 3 half)). eexists. split; [|reflexivity].
  apply fresh_cat; [lia|exact half_pos].
Qed.
Example demo_ber_reachable : reachable demo_ber /\ keys (dist_data demo_ber) = [0; 1].
Proof.
  split; [|vm_compute; reflexivity].
  exists (DBer (ber_new 7 1%Qc half)). eexists. split; [|reflexivity].
  apply fresh_ber; [exact one_pos|exact half_pos].
Qed.
Example demo_poi_reachable : reachable demo_poi.
Proof.
  exists (DPoi poi0). eexists. split; [|reflexivity].
  apply (fresh_poi 7 1%Qc half). reflexivity.
Qed.
Example demo_nrm_reachable : reachable demo_nrm /\ keys (dist_data demo_nrm) = [0; 1].
Proof.
  split; [|reflexivity].
  exists (DNrm nrm0). eexists. split; [|reflexivity].
  apply (fresh_nrm 7 0%Qc 1%Qc half 1%Qc). reflexivity.
Qed.

(** ** C01 *)

(** In every reachable state the sufficient statistics are those of the recorded data:
    one value per row, counts are numbers of occurrences, sums are sums. *)
Theorem C01_suffstats_are_recomputed : forall d, reachable d ->
  NoDup (keys (dist_data d)) /\ stats_of_data (kind_of d) (dist_data d) (dist_suffstats d).
Proof. exact suffstats_recomputed. Qed.
Print Assumptions C01_suffstats_are_recomputed.

Example C01_case : dist_suffstats demo_crp = SSCrp 3 [(0, 1); (1, 1); (2, 1)] /\
                   dist_suffstats demo_cat = SSCat 2 [1; 0; 1].
Proof. split; vm_compute; reflexivity. Qed.

(** ** C02 *)

(** If observe succeeds then unobserve of the same row succeeds, returns the value and
    restores the object exactly (every attribute). *)
Theorem C02_unobserve_undoes_observe : forall d rid obs ins d', reachable d ->
  dist_observe d rid obs ins = (d', Ok tt) ->
  exists x, obs = [(dist_o d, x)] /\
    dist_unobserve d' rid = (d, Ok ([(dist_o d, stored (kind_of d) x)], [])).
Proof. exact observe_then_unobserve. Qed.
Print Assumptions C02_unobserve_undoes_observe.

Example C02_case : snd (dist_observe demo_crp 8 [(7, vz 3)] []) = Ok tt /\
                   snd (dist_observe demo_cat 8 [(7, vz 1)] []) = Ok tt.
Proof. split; vm_compute; reflexivity. Qed.

(** ** C03 *)

(** observe behaves as recording in an abstract table; a raising call has no effect. *)
Theorem C03_observe_refines_table : forall d rid obs ins d' res, reachable d ->
  dist_observe d rid obs ins = (d', res) ->
  spec_observe (kind_of d) (dist_o d) (dist_data d) rid obs ins (dist_data d') res /\
  (forall e, res = Err e -> d' = d).
Proof. exact observe_table. Qed.
Print Assumptions C03_observe_refines_table.

(** The same for unobserve. *)
Theorem C03_unobserve_refines_table : forall d rid d' res, reachable d ->
  dist_unobserve d rid = (d', res) ->
  spec_unobserve (dist_o d) (dist_data d) rid (dist_data d') res /\
  (forall e, res = Err e -> d' = d).
Proof. exact unobserve_table. Qed.
Print Assumptions C03_unobserve_refines_table.

(** Any history of calls leaves exactly the records the abstract table would hold. *)
Theorem C03_history_refines_table : forall d0 calls, fresh d0 ->
  spec_run (kind_of d0) (dist_o d0) [] calls (dist_data (fold_left after calls d0)).
Proof. exact history_table. Qed.
Print Assumptions C03_history_refines_table.

Example C03_case : snd (dist_observe demo_crp 8 [(7, vz 5)] []) = Err AssertionError /\
                   snd (dist_observe demo_crp 0 [(7, vz 0)] []) = Err ValueError /\
                   snd (dist_unobserve demo_cat 0) = Err ValueError.
Proof. repeat split; vm_compute; reflexivity. Qed.

(** ** C04 *)

(** Two histories that end with the same class, variable, parameters and the same
    (row, value) pairs in any order cannot be told apart by any query. *)
Theorem C04_exchangeable : forall d1 d2, reachable d1 -> reachable d2 ->
  settings d1 = settings d2 -> Permutation (dist_data d1) (dist_data d2) ->
  same_stats (dist_suffstats d1) (dist_suffstats d2) /\ same_answers d1 d2.
Proof. exact exchangeable_states. Qed.
Print Assumptions C04_exchangeable.

Definition demo_crp' : dist :=
  fold_left after [obs1 0 0; obs1 9 0; obs1 2 1; obs1 3 2; Unobserve 0; obs1 0 0; Unobserve 9]
    (DCrp (crp_new 7 half)).
Example C04_case : reachable demo_crp' /\ settings demo_crp' = settings demo_crp /\
  dist_data demo_crp' <> dist_data demo_crp /\ Permutation (dist_data demo_crp') (dist_data demo_crp).
Proof.
  split; [|split; [vm_compute; reflexivity|split]].
  - exists (DCrp (crp_new 7 half)). eexists. split; [|reflexivity]. apply fresh_crp. exact half_pos.
  - vm_compute. discriminate.
  - assert (E : dist_data demo_crp' = [(2, vz 1); (3, vz 2); (0, vz 0)]) by (vm_compute; reflexivity).
    assert (E' : dist_data demo_crp = [(0, vz 0); (2, vz 1); (3, vz 2)]) by (vm_compute; reflexivity).
    rewrite E, E'. symmetry. apply (Permutation_middle [(2, vz 1); (3, vz 2)] []).
Qed.

(** ** C05 *)

(** One step of the chain rule. *)
Theorem C05_score_step : forall d rid x d', reachable d ->
  dist_observe d rid [(dist_o d, x)] [] = (d', Ok tt) ->
  exists r l, dist_score d = Ok (Fin r) /\ dist_score d' = Ok (Fin (r + l)%R) /\
    match x with
    | VNan => l = 0%R
    | VQ _ => dist_logpdf d (Some rid) [(dist_o d, x)] [] [] = Ok (Fin l)
    end.
Proof. exact score_one_step. Qed.
Print Assumptions C05_score_step.

(** The score of an empty primitive is 0. *)
Theorem C05_score_empty : forall d, fresh d -> dist_score d = Ok (Fin 0%R).
Proof. exact score_fresh. Qed.
Print Assumptions C05_score_empty.

(** Whatever the history of [d], its score is the sum of the sequential predictive log
    densities of its data, in any order in which they can be recorded. *)
Theorem C05_score_is_chain_rule : forall d d0 rows d1 r, reachable d -> fresh d0 ->
  predicted d0 rows d1 r -> settings d1 = settings d -> Permutation (dist_data d1) (dist_data d) ->
  dist_score d = Ok (Fin r).
Proof. exact score_chain_rule. Qed.
Print Assumptions C05_score_is_chain_rule.

Example C05_case : exists r d1,
  predicted (DCrp (crp_new 7 half)) [(2, vz 0); (3, vz 1); (0, vz 2)] d1 r.
Proof. exact predicted_example. Qed.

(** ** C06 *)

(** Discrete predictive probabilities over the support are positive (finite logs) and
    sum to one. *)
Theorem C06_discrete_normalised : forall d K rid, reachable d -> unrecorded rid (dist_data d) ->
  dist_support d = Ok K ->
  exists ls, oseq (map (fun z => dist_logpdf d rid [(dist_o d, vz z)] [] []) K) = Ok ls /\
    Forall (fun l => exists r, l = Fin r) ls /\ rsum (map xexp ls) = 1%R.
Proof. exact discrete_normalised. Qed.
Print Assumptions C06_discrete_normalised.

Example C06_case : dist_support demo_crp = Ok [0; 1; 2; 3] /\ dist_support demo_cat = Ok [0; 1; 2] /\
  dist_support demo_ber = Ok [0; 1] /\ unrecorded (Some 1) (dist_data demo_crp).
Proof.
  repeat split; try (vm_compute; reflexivity).
  intros X. vm_compute in X. intuition discriminate.
Qed.

(** ** C07 *)

(** The Poisson predictive is a probability distribution on the nonnegative integers. *)
Theorem C07_poisson_normalised : forall s rid, reachable (DPoi s) -> unrecorded rid (dist_data (DPoi s)) ->
  exists f : nat -> R,
    (forall n, dist_logpdf (DPoi s) rid [(dist_o (DPoi s), vz (Z.of_nat n))] [] [] = Ok (Fin (f n))) /\
    infinite_sum (fun n => exp (f n)) 1.
Proof. exact poisson_predictive_normalised. Qed.
Print Assumptions C07_poisson_normalised.

Example C07_case : exists s, demo_poi = DPoi s /\ reachable (DPoi s) /\ keys (poi_data s) = [1; 3].
Proof. eexists. split; [reflexivity|split; [exact demo_poi_reachable|reflexivity]]. Qed.

(** ** C08 *)

(** Normal: the posterior scale is the prior scale plus squared deviations, hence at least
    the prior scale; predictions never fail and are Student t. *)
Theorem C08_normal_student_t : forall s rid q, reachable (DNrm s) -> unrecorded rid (dist_data (DNrm s)) ->
  let xs := map qr (cells (dist_data (DNrm s))) in
  let n := INR (List.length xs) in
  let m := qr (nrm_m s) in let r := qr (nrm_r s) in
  let scale := post_scale m r (qr (nrm_s s)) xs in
  let nu := (qr (nrm_nu s) + n)%R in
  (0 < qr (nrm_s s) <= scale)%R /\
  qr (post_s (nrm_posterior (nrm_N s) (nrm_sum s) (nrm_sumsq s) (nrm_m s) (nrm_r s) (nrm_s s) (nrm_nu s)))
    = scale /\
  (exists l, dist_logpdf (DNrm s) rid [(dist_o (DNrm s), VQ q)] [] [] = Ok (Fin l) /\
     exp l = student_t nu (post_loc m r xs) (scale * (r + n + 1) / ((r + n) * nu)) (qr q)) /\
  (exists l, dist_score (DNrm s) = Ok (Fin l)).
Proof. exact normal_student_t. Qed.
Print Assumptions C08_normal_student_t.

Example C08_case : exists s, demo_nrm = DNrm s /\ reachable (DNrm s) /\ keys (nrm_data s) = [0; 1].
Proof. eexists. split; [reflexivity|split; [exact (proj1 demo_nrm_reachable)|reflexivity]]. Qed.

(** ** C09 *)

(** logpdf is the logarithm of the closed-form predictive density [prim_density]. *)
Theorem C09_logpdf_is_log_density : forall d rid q, reachable d -> unrecorded rid (dist_data d) ->
  dist_logpdf d rid [(dist_o d, VQ q)] [] [] = Ok (xlog (prim_density d q)) /\
  (0 <= prim_density d q)%R.
Proof. exact logpdf_is_log_density. Qed.
Print Assumptions C09_logpdf_is_log_density.

(** logpdf is -inf exactly for the values observe rejects, finite for the others. *)
Theorem C09_neginf_iff_rejected : forall d rid q, reachable d -> ~ In rid (keys (dist_data d)) ->
  match snd (dist_observe d rid [(dist_o d, VQ q)] []) with
  | Ok _ => exists l, dist_logpdf d (Some rid) [(dist_o d, VQ q)] [] [] = Ok (Fin l)
  | Err _ => dist_logpdf d (Some rid) [(dist_o d, VQ q)] [] [] = Ok NInf
  end.
Proof. exact neginf_rejected. Qed.
Print Assumptions C09_neginf_iff_rejected.

Example C09_case : ~ In 8 (keys (dist_data demo_cat)) /\
  snd (dist_observe demo_cat 8 [(7, vz 2)] []) = Ok tt /\
  snd (dist_observe demo_cat 8 [(7, vz 3)] []) = Err ValueError.
Proof.
  repeat split; try (vm_compute; reflexivity). intros X. vm_compute in X. intuition discriminate.
Qed.

(** ** C10 *)

(** Recording a missing value changes no statistic, score, support, parameter or
    prediction (for any other row). *)
Theorem C10_missing_neutral : forall d rid d', reachable d ->
  dist_observe d rid [(dist_o d, VNan)] [] = (d', Ok tt) ->
  dist_suffstats d' = dist_suffstats d /\ dist_score d' = dist_score d /\
  dist_support d' = dist_support d /\ settings d' = settings d /\ dist_o d' = dist_o d /\
  forall rid' T C ins, rid' <> Some rid -> dist_logpdf d' rid' T C ins = dist_logpdf d rid' T C ins.
Proof. exact missing_is_neutral. Qed.
Print Assumptions C10_missing_neutral.

(** logpdf of a missing value is 0 for Categorical, Normal and NormalUC. *)
Theorem C10_missing_logpdf : forall d rid, reachable d -> unrecorded rid (dist_data d) ->
  match d with DCat _ | DNrm _ | DNuc _ => True | _ => False end ->
  dist_logpdf d rid [(dist_o d, VNan)] [] [] = Ok (Fin 0%R).
Proof. exact missing_logpdf_zero. Qed.
Print Assumptions C10_missing_logpdf.

(** Deviation: Bernoulli and Poisson accept a missing value in observe, but give it
    zero density in every state. *)
Theorem C10_missing_logpdf_refuted : forall d rid, reachable d -> ~ In rid (keys (dist_data d)) ->
  match d with DBer _ | DPoi _ => True | _ => False end ->
  snd (dist_observe d rid [(dist_o d, VNan)] []) = Ok tt /\
  dist_logpdf d (Some rid) [(dist_o d, VNan)] [] [] = Ok NInf.
Proof. exact missing_logpdf_neginf. Qed.
Print Assumptions C10_missing_logpdf_refuted.

Example C10_case : snd (dist_observe demo_cat 8 [(7, VNan)] []) = Ok tt /\
                   snd (dist_observe demo_ber 8 [(7, VNan)] []) = Ok tt.
Proof. split; vm_compute; reflexivity. Qed.

(** ** C11 *)

(** The support of a CRP: strictly increasing; the occupied tables and one unoccupied
    table past the largest; nonnegative; all accepted by observe. *)
Theorem C11_crp_support : forall s, reachable (DCrp s) ->
  let data := dist_data (DCrp s) in
  exists K free, dist_support (DCrp s) = Ok K /\ StronglySorted Z.lt K /\
    next_table data free /\ ~ occupied data free /\
    (forall t, In t K <-> occupied data t \/ t = free) /\
    (forall t, In t K -> 0 <= t) /\
    (forall t rid, In t K -> ~ In rid (keys data) ->
       snd (dist_observe (DCrp s) rid [(dist_o (DCrp s), vz t)] []) = Ok tt).
Proof. exact crp_support_shape. Qed.
Print Assumptions C11_crp_support.

Example C11_case : exists s, demo_crp = DCrp s /\ reachable (DCrp s) /\ dist_support (DCrp s) = Ok [0; 1; 2; 3].
Proof.
  eexists. split; [reflexivity|split; [exact (proj1 demo_crp_reachable)|vm_compute; reflexivity]].
Qed.

(** ** C12 *)

(** The score of a CRP is the Ewens partition probability of the recorded blocks. *)
Theorem C12_crp_score_is_ewens : forall s, reachable (DCrp s) ->
  let a := qr (crp_alpha s) in
  let blocks := block_sizes (dist_data (DCrp s)) in
  exists r, dist_score (DCrp s) = Ok (Fin r) /\
  exp r = (a ^ List.length blocks * rprod (map (fun n => INR (fact (Z.to_nat (n - 1)))) blocks)
           / rising a (List.length (dist_data (DCrp s))))%R.
Proof. exact crp_ewens. Qed.
Print Assumptions C12_crp_score_is_ewens.

(** Hence it depends only on the block sizes: relabelling tables or rows changes nothing. *)
Theorem C12_crp_score_relabelling : forall s1 s2, reachable (DCrp s1) -> reachable (DCrp s2) ->
  crp_alpha s1 = crp_alpha s2 ->
  Permutation (block_sizes (dist_data (DCrp s1))) (block_sizes (dist_data (DCrp s2))) ->
  dist_score (DCrp s1) = dist_score (DCrp s2).
Proof. exact crp_relabelling. Qed.
Print Assumptions C12_crp_score_relabelling.

Example C12_case : block_sizes (dist_data (fold_left after
    [obs1 0 0; obs1 1 1; obs1 2 1] (DCrp (crp_new 7 half)))) = [1; 2] /\
  block_sizes (dist_data (fold_left after
    [obs1 5 0; obs1 1 0; obs1 2 1] (DCrp (crp_new 7 half)))) = [2; 1].
Proof. split; vm_compute; reflexivity. Qed.

(** ** C13 *)

(** Gibbs weights of a recorded row: the tables offered are distinct, contain every table
    occupied once the row is removed and exactly [m] unoccupied ones; an occupied table
    weighs the number of other rows there, an unoccupied one [alpha/m]; the total is
    [N-1+alpha]. *)
Theorem C13_gibbs_weights : forall s rid m, reachable (DCrp s) -> In rid (keys (dist_data (DCrp s))) ->
  0 < m ->
  let data' := dist_data (fst (dist_unobserve (DCrp s) rid)) in
  exists ts,
    crp_gibbs_tables s rid m = Ok ts /\
    crp_gibbs_logps s rid m
      = Ok (map (fun t => Fin (ln (seat_weight data' (qr (crp_alpha s)) m t))) ts) /\
    NoDup ts /\ (forall t, occupied data' t -> In t ts) /\
    List.length (filter (fun t => negb (0 <? occurrences t data')) ts) = Z.to_nat m /\
    rsum (map (seat_weight data' (qr (crp_alpha s)) m) ts) = (count_of data' + qr (crp_alpha s))%R.
Proof. exact gibbs_weights. Qed.
Print Assumptions C13_gibbs_weights.

(** These weights are the predictive probabilities of the CRP with the row removed, times
    [N-1+alpha]: table by table when occupied, jointly for the unoccupied ones. *)
Theorem C13_gibbs_is_predictive : forall s rid s' t m, reachable (DCrp s) ->
  fst (dist_unobserve (DCrp s) rid) = DCrp s' -> 0 < m ->
  let data' := dist_data (DCrp s') in
  let total := (count_of data' + qr (crp_alpha s))%R in
  (occupied data' t -> dist_logpdf (DCrp s') (Some rid) [(dist_o (DCrp s'), vz t)] [] []
     = Ok (Fin (ln (seat_weight data' (qr (crp_alpha s)) m t / total)))) /\
  (next_table data' t -> dist_logpdf (DCrp s') (Some rid) [(dist_o (DCrp s'), vz t)] [] []
     = Ok (Fin (ln (IZR m * seat_weight data' (qr (crp_alpha s)) m t / total)))).
Proof. exact gibbs_predictive. Qed.
Print Assumptions C13_gibbs_is_predictive.

Example C13_case : exists s, demo_crp = DCrp s /\ In 2 (keys (dist_data (DCrp s))) /\
  crp_gibbs_tables s 2 3 = Ok [0; 1; 2; 3; 4].
Proof. eexists. split; [reflexivity|split; [vm_compute; tauto|vm_compute; reflexivity]]. Qed.

(** ** C14 *)

(** set_hypers succeeds exactly for complete dictionaries positive where required; then
    get_hypers returns them; otherwise AssertionError/KeyError and nothing changes; data
    and statistics never change. *)
Theorem C14_set_hypers : forall d h d' res, dist_set_hypers d h = (d', res) ->
  (good_hypers d h <-> res = Ok tt) /\
  dist_data d' = dist_data d /\ dist_suffstats d' = dist_suffstats d /\
  match res with
  | Ok _ => forall k, In k (hyper_names d) -> lookup k (dist_get_hypers d') = lookup k h
  | Err e => d' = d /\ (e = AssertionError \/ e = KeyError)
  end.
Proof. exact set_hypers_spec. Qed.
Print Assumptions C14_set_hypers.

Example C14_case : snd (dist_set_hypers demo_ber [("beta", half); ("alpha", half)]%string) = Ok tt /\
  snd (dist_set_hypers demo_ber [("beta", half)]%string) = Err KeyError /\
  snd (dist_set_hypers demo_ber [("alpha", 0%Qc); ("beta", half)]%string) = Err AssertionError.
Proof. repeat split; vm_compute; reflexivity. Qed.
