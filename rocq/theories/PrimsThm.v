(** Proofs of the primitive-level properties (C02, C04-C06, C10-C14). *)
From Coq Require Import List ZArith QArith Qcanon Reals Bool String Permutation Sorted Lia Lra.
From Verif Require Import Base Xr Samp Lgamma Prims Lib SpecPrims PrimsInv PrimsDens.
Import ListNotations.
Local Open Scope Z_scope.

(** ** C02: unobserve undoes observe *)

Lemma add_at_inv : forall n l, add_at n (-1) (add_at n 1 l) = l.
Proof.
  induction n as [|n IH]; intros [|c l]; cbn [add_at]; try reflexivity.
  - f_equal. lia.
  - rewrite IH. reflexivity.
Qed.

Lemma observe_ok_inv : forall {V} (data : dict Z V) o rid obs ins u,
  base_observe data o rid obs ins = Ok u -> lookup rid data = None /\ ins = [] /\ exists x, obs = [(o, x)].
Proof.
  intros V data o rid obs ins u E. pose proof (base_observe_spec data o rid obs ins) as B.
  rewrite E in B. destruct B as (A & B & C). apply lookup_None in A. auto.
Qed.

Lemma Qc_add_sub : forall a b : Qc, (a + b - b)%Qc = a.
Proof. intros. ring. Qed.

Lemma unobserve_observe : forall d rid obs ins d', dinv d ->
  dist_observe d rid obs ins = (d', Ok tt) ->
  exists x, obs = [(dist_o d, x)] /\
  dist_unobserve d' rid = (d, Ok ([(dist_o d, stored (kind_of d) x)], [])).
Proof.
  intros d rid obs ins d' D E.
  destruct d as [s|s|s|s|s|s]; cbn [dist_observe] in E.
  - unfold crp_observe in E. destruct (base_observe _ _ _ _ _) as [u|e] eqn:B; [|discriminate E].
    apply observe_ok_inv in B. destruct B as (L & -> & x & ->). rewrite lookup_single in E.
    destruct x as [|q]; [discriminate E|].
    destruct (memb (trunc q) (crp_support s)) eqn:M; [|discriminate E].
    injection E as <-. exists (VQ q). split; [reflexivity|].
    cbn [dist_unobserve]. unfold crp_unobserve. cbn [crp_data crp_counts crp_N crp_o crp_alpha].
    rewrite !lookup_dset_eq, ddel_dset_fresh by assumption.
    cbn [dist_o kind_of stored]. f_equal. f_equal.
    destruct D as (_ & T & S & _). cbn [kind_of dist_suffstats] in S. destruct S as (_ & CND & HC).
    destruct (lookup (trunc q) (crp_counts s)) as [c|] eqn:C.
    + replace (c + 1 - 1) with c by lia. destruct (Z.eqb_spec c 0) as [->|n].
      * apply HC in C. lia.
      * rewrite dset_dset, dset_same by assumption.
        replace (crp_N s + 1 - 1) with (crp_N s) by lia. destruct s; reflexivity.
    + cbn. rewrite ddel_dset_fresh by assumption.
      replace (crp_N s + 1 - 1) with (crp_N s) by lia. destruct s; reflexivity.
  - unfold cat_observe in E. destruct (base_observe _ _ _ _ _) as [u|e] eqn:B; [|discriminate E].
    apply observe_ok_inv in B. destruct B as (L & -> & x & ->). rewrite lookup_single in E.
    destruct x as [|q].
    + injection E as <-. exists VNan. split; [reflexivity|].
      cbn [dist_unobserve]. unfold cat_unobserve. cbn [cat_data cat_counts cat_N cat_o cat_alpha cat_k].
      rewrite lookup_dset_eq, ddel_dset_fresh by assumption. destruct s; reflexivity.
    + destruct (cat_valid (cat_k s) q) eqn:M; [|discriminate E].
      injection E as <-. exists (VQ q). split; [reflexivity|].
      cbn [dist_unobserve]. unfold cat_unobserve. cbn [cat_data cat_counts cat_N cat_o cat_alpha cat_k].
      rewrite lookup_dset_eq, ddel_dset_fresh by assumption. unfold vz. cbn iota beta.
      rewrite trunc_qz, add_at_inv. cbn [kind_of stored].
      apply cat_valid_spec in M. destruct M as [z [-> R]]. rewrite trunc_qz.
      replace (cat_N s + 1 - 1) with (cat_N s) by lia. destruct s; reflexivity.
  - unfold ber_observe in E. destruct (base_observe _ _ _ _ _) as [u|e] eqn:B; [|discriminate E].
    apply observe_ok_inv in B. destruct B as (L & -> & x & ->). rewrite lookup_single in E.
    destruct x as [|q].
    + injection E as <-. exists VNan. split; [reflexivity|].
      cbn [dist_unobserve]. unfold ber_unobserve. cbn [ber_data ber_sum ber_N ber_o ber_alpha ber_beta].
      rewrite lookup_dset_eq, ddel_dset_fresh by assumption. destruct s; reflexivity.
    + destruct (ber_valid q) eqn:M; [|discriminate E].
      injection E as <-. exists (VQ q). split; [reflexivity|].
      cbn [dist_unobserve]. unfold ber_unobserve. cbn [ber_data ber_sum ber_N ber_o ber_alpha ber_beta].
      rewrite lookup_dset_eq, ddel_dset_fresh by assumption. unfold vz. cbn iota beta.
      rewrite trunc_qz. cbn [kind_of stored].
      replace (ber_N s + 1 - 1) with (ber_N s) by lia.
      replace (ber_sum s + trunc q - trunc q) with (ber_sum s) by lia.
      apply ber_valid_spec in M. destruct M as [-> | ->]; rewrite trunc_qz; destruct s; reflexivity.
  - unfold poi_observe in E. destruct (base_observe _ _ _ _ _) as [u|e] eqn:B; [|discriminate E].
    apply observe_ok_inv in B. destruct B as (L & -> & x & ->). rewrite lookup_single in E.
    destruct x as [|q].
    + injection E as <-. exists VNan. split; [reflexivity|].
      cbn [dist_unobserve]. unfold poi_unobserve. cbn [poi_data poi_sum poi_N poi_o poi_slf poi_a poi_b].
      rewrite lookup_dset_eq, ddel_dset_fresh by assumption. destruct s; reflexivity.
    + destruct (poi_valid q) eqn:M; [|discriminate E].
      injection E as <-. exists (VQ q). split; [reflexivity|].
      cbn [dist_unobserve]. unfold poi_unobserve. cbn [poi_data poi_sum poi_N poi_o poi_slf poi_a poi_b].
      rewrite lookup_dset_eq, ddel_dset_fresh by assumption.
      replace (poi_N s + 1 - 1) with (poi_N s) by lia.
      replace (poi_slf s + lgamma (qr q + 1) - lgamma (qr q + 1))%R with (poi_slf s) by ring.
      rewrite Qc_add_sub. destruct s; reflexivity.
  - unfold nrm_observe in E. destruct (base_observe _ _ _ _ _) as [u|e] eqn:B; [|discriminate E].
    apply observe_ok_inv in B. destruct B as (L & -> & x & ->). rewrite lookup_single in E.
    destruct x as [|q]; injection E as <-; [exists VNan|exists (VQ q)]; (split; [reflexivity|]);
      cbn [dist_unobserve]; unfold nrm_unobserve;
      cbn [nrm_data nrm_sum nrm_sumsq nrm_N nrm_o nrm_m nrm_r nrm_s nrm_nu];
      rewrite lookup_dset_eq, ddel_dset_fresh by assumption.
    + destruct s; reflexivity.
    + replace (nrm_N s + 1 - 1) with (nrm_N s) by lia. rewrite !Qc_add_sub. destruct s; reflexivity.
  - unfold nuc_observe in E. destruct (base_observe _ _ _ _ _) as [u|e] eqn:B; [|discriminate E].
    apply observe_ok_inv in B. destruct B as (L & -> & x & ->). rewrite lookup_single in E.
    destruct x as [|q]; injection E as <-; [exists VNan|exists (VQ q)]; (split; [reflexivity|]);
      cbn [dist_unobserve]; unfold nuc_unobserve;
      cbn [nuc_data nuc_sum nuc_sumsq nuc_N nuc_o nuc_mu nuc_var nuc_hypers];
      rewrite lookup_dset_eq, ddel_dset_fresh by assumption.
    + destruct s; reflexivity.
    + replace (nuc_N s + 1 - 1) with (nuc_N s) by lia. rewrite !Qc_add_sub. destruct s; reflexivity.
Qed.

(** ** C04: exchangeability *)

Lemma cells_len_perm : forall a b, Permutation a b -> List.length (cells a) = List.length (cells b).
Proof. intros. apply Permutation_length. apply cells_perm. assumption. Qed.

Lemma stats_perm : forall K data data' s s', Permutation data data' ->
  stats_of_data K data s -> stats_of_data K data' s' -> same_stats s s'.
Proof.
  intros K data data' s s' P S S'.
  destruct K, s, s'; cbn [stats_of_data] in S, S'; try contradiction; cbn [same_stats].
  - destruct S as (-> & ND & H), S' as (-> & ND' & H'). split.
    + f_equal. apply Permutation_length. assumption.
    + apply dict_ext_perm; [assumption|assumption|]. intros t.
      destruct (lookup t counts) as [n|] eqn:E.
      * apply H in E. symmetry. apply H'. rewrite <- (occ_perm t _ _ P). exact E.
      * destruct (lookup t counts0) as [n|] eqn:E'; [|reflexivity].
        apply H' in E'. rewrite <- (occ_perm t _ _ P) in E'. apply H in E'. congruence.
  - destruct S as [-> ->], S' as [-> ->]. rewrite (cells_len_perm _ _ P). f_equal.
    apply map_ext. intros z. apply occ_perm. assumption.
  - destruct S as [-> ->], S' as [-> ->]. rewrite (cells_len_perm _ _ P), (occ_perm _ _ _ P). reflexivity.
  - destruct S as (-> & -> & ->), S' as (-> & -> & ->).
    pose proof (cells_perm _ _ P) as PC.
    rewrite (cells_len_perm _ _ P), (qsum_perm _ _ PC), (rsum_perm _ _ (Permutation_map log_factorial PC)).
    reflexivity.
  - destruct S as (-> & -> & ->), S' as (-> & -> & ->).
    pose proof (cells_perm _ _ P) as PC.
    rewrite (cells_len_perm _ _ P), (qsum_perm _ _ PC),
      (qsum_perm _ _ (Permutation_map (fun q => q * q)%Qc PC)).
    reflexivity.
Qed.

Lemma keys_counts_perm : forall c c' : dict Z Z, Permutation c c' -> Permutation (keys c) (keys c').
Proof. intros. apply Permutation_map. assumption. Qed.

Lemma lookup_perm' : forall {K V} `{EqDec K} (a b : dict K V) k, NoDup (keys a) -> Permutation a b ->
  lookup k a = lookup k b.
Proof. intros K V E a b k N P. apply lookup_perm; assumption. Qed.

Lemma perm_crp_data : forall s1 s2, Permutation (dist_data (DCrp s1)) (dist_data (DCrp s2)) ->
  Permutation (crp_data s1) (crp_data s2).
Proof.
  intros s1 s2 P. cbn [dist_data] in P.
  apply (Permutation_map (fun p : Z * val => (fst p, match snd p with VQ q => trunc q | VNan => 0 end))) in P.
  rewrite !map_map in P. cbn [fst snd] in P.
  assert (G : forall l : dict Z Z, map (fun x => (fst x, match vz (snd x) with VQ q => trunc q | VNan => 0 end)) l = l).
  { intros l. rewrite <- (map_id l) at 2. apply map_ext. intros [a b]. cbn [fst snd vz].
    unfold vz. rewrite trunc_qz. reflexivity. }
  rewrite !G in P. exact P.
Qed.

Lemma base_logpdf_perm : forall {V} (a b : dict Z V) o rid T C ins, NoDup (keys a) -> Permutation a b ->
  base_logpdf a o rid T C ins = base_logpdf b o rid T C ins.
Proof.
  intros V a b o rid T C ins N P. unfold base_logpdf.
  assert (E : omem rid a = omem rid b).
  { destruct rid as [r|]; [|reflexivity]. cbn [omem]. unfold dmem.
    rewrite (lookup_perm' a b r N P). reflexivity. }
  rewrite E. reflexivity.
Qed.

Lemma recorded_perm : forall rid a b, NoDup (keys a) -> Permutation a b -> recorded rid a = recorded rid b.
Proof.
  intros [r|] a b N P; [|reflexivity]. cbn [recorded]. rewrite (lookup_perm' a b r N P). reflexivity.
Qed.

Lemma exchangeable : forall d1 d2, dinv d1 -> dinv d2 -> settings d1 = settings d2 ->
  Permutation (dist_data d1) (dist_data d2) ->
  same_stats (dist_suffstats d1) (dist_suffstats d2) /\ same_answers d1 d2.
Proof.
  intros d1 d2 (N1 & T1 & S1 & _) (N2 & T2 & S2 & _) SE P.
  assert (K : kind_of d2 = kind_of d1).
  { destruct d1, d2; cbn [settings] in SE; try discriminate SE; try reflexivity.
    cbn [kind_of]. f_equal. injection SE. auto. }
  rewrite K in *. pose proof (stats_perm _ _ _ _ _ P S1 S2) as SS. split; [assumption|].
  destruct d1 as [s|s|s|s|s|s], d2 as [t|t|t|t|t|t]; try discriminate SE;
    cbn [settings dist_suffstats same_stats] in *.
  - destruct SS as [EN PC]. injection SE as EO EA. apply perm_crp_data in P.
    rewrite keys_cdata in N1.
    assert (CND : NoDup (keys (crp_counts s))) by apply S1.
    assert (SU : crp_support s = crp_support t).
    { unfold crp_support. rewrite (zsort_unique _ _ (keys_counts_perm _ _ PC)). reflexivity. }
    assert (LP : forall rid T C ins, crp_logpdf s rid T C ins = crp_logpdf t rid T C ins).
    { intros rid T C ins. unfold crp_logpdf. rewrite EO, SU.
      assert (L : match rid with Some r => lookup r (crp_data s) | None => None end
                = match rid with Some r => lookup r (crp_data t) | None => None end).
      { destruct rid as [r|]; [|reflexivity]. apply lookup_perm'; assumption. }
      rewrite L. unfold crp_predictive. rewrite EN, EA.
      do 3 (destruct (oassert _); cbn [obind]; [|reflexivity]).
      destruct (lookup (crp_o t) T) as [[|q]|]; try reflexivity.
      destruct (negb _); [reflexivity|]. rewrite (lookup_perm' _ _ (trunc q) CND PC). reflexivity. }
    split; [exact LP|split; [|split; [|split]]].
    + intros rid ts C ins N. cbn [dist_simulate]. f_equal. unfold crp_simulate1. rewrite EO, SU.
      destruct (base_simulate _ _ _ _); [|reflexivity].
      assert (L : match rid with Some r => lookup r (crp_data s) | None => None end
                = match rid with Some r => lookup r (crp_data t) | None => None end).
      { destruct rid as [r|]; [|reflexivity]. apply lookup_perm'; assumption. }
      rewrite L. destruct (match rid with Some r => lookup r (crp_data t) | None => None end); [reflexivity|].
      rewrite (oseq_ext _ (fun x => crp_logpdf t rid [(hd 0 ts, vz x)] [] [])) by (intros; apply LP).
      reflexivity.
    + cbn [dist_score]. unfold crp_score, crp_marginal. rewrite EA, EN.
      assert (PV : Permutation (values (crp_counts s)) (values (crp_counts t))) by (apply Permutation_map; exact PC).
      rewrite (Permutation_length PV). rewrite (rsum_perm _ _ (Permutation_map (fun c => lgamma (IZR c)) PV)).
      reflexivity.
    + cbn [dist_support]. rewrite SU. reflexivity.
    + cbn [dist_get_hypers]. rewrite EA. reflexivity.
  - injection SS as EN EC. injection SE as EO EK EA' EA. cbn [dist_data] in *.
    split; [|split; [|split; [|split]]]; cbn [dist_logpdf dist_simulate dist_score dist_support dist_get_hypers].
    + intros. unfold cat_logpdf. rewrite EO, EK, EC, EA, (base_logpdf_perm _ _ _ _ _ _ _ N1 P). reflexivity.
    + intros. unfold cat_simulate1. rewrite EO, EC, EA, (recorded_perm _ _ _ N1 P). reflexivity.
    + unfold cat_score. rewrite EN, EC, EA. reflexivity.
    + unfold cat_support. rewrite EK. reflexivity.
    + rewrite EA. reflexivity.
  - injection SS as EN EC. injection SE as EO EA EB. cbn [dist_data] in *.
    split; [|split; [|split; [|split]]]; cbn [dist_logpdf dist_simulate dist_score dist_support dist_get_hypers].
    + intros. unfold ber_logpdf. rewrite EO, EN, EC, EA, EB, (base_logpdf_perm _ _ _ _ _ _ _ N1 P). reflexivity.
    + intros. unfold ber_simulate1. rewrite EO, EN, EC, EA, EB, (recorded_perm _ _ _ N1 P). reflexivity.
    + unfold ber_score. rewrite EN, EC, EA, EB. reflexivity.
    + reflexivity.
    + rewrite EA, EB. reflexivity.
  - injection SS as EN EC EL. injection SE as EO EA EB. cbn [dist_data] in *.
    split; [|split; [|split; [|split]]]; cbn [dist_logpdf dist_simulate dist_score dist_support dist_get_hypers].
    + intros. unfold poi_logpdf. rewrite EO, EN, EC, EA, EB, (base_logpdf_perm _ _ _ _ _ _ _ N1 P). reflexivity.
    + intros. unfold poi_simulate1. rewrite EO, EN, EC, EA, EB, (recorded_perm _ _ _ N1 P). reflexivity.
    + unfold poi_score. rewrite EN, EC, EL, EA, EB. reflexivity.
    + reflexivity.
    + rewrite EA, EB. reflexivity.
  - injection SS as EN EC EL. injection SE as EO EM ER ES EU. cbn [dist_data] in *.
    split; [|split; [|split; [|split]]]; cbn [dist_logpdf dist_simulate dist_score dist_support dist_get_hypers].
    + intros. unfold nrm_logpdf.
      rewrite EO, EN, EC, EL, EM, ER, ES, EU, (base_logpdf_perm _ _ _ _ _ _ _ N1 P). reflexivity.
    + intros. unfold nrm_simulate1. rewrite EO, EN, EC, EL, EM, ER, ES, EU, (recorded_perm _ _ _ N1 P). reflexivity.
    + unfold nrm_score. rewrite EN, EC, EL, EM, ER, ES, EU. reflexivity.
    + reflexivity.
    + rewrite EM, ER, ES, EU. reflexivity.
  - injection SS as EN EC EL. injection SE as EO EM EV EH. cbn [dist_data] in *.
    split; [|split; [|split; [|split]]]; cbn [dist_logpdf dist_simulate dist_score dist_support dist_get_hypers].
    + intros. unfold nuc_logpdf.
      rewrite EO, EM, EV, (base_logpdf_perm _ _ _ _ _ _ _ N1 P). reflexivity.
    + intros. unfold nuc_simulate. rewrite EO, EM, EV, (recorded_perm _ _ _ N1 P). reflexivity.
    + unfold nuc_score. rewrite EN, EC, EL, EM, EV. reflexivity.
    + reflexivity.
    + rewrite EH. reflexivity.
Qed.

(** ** C05: the score is the chain rule *)

Lemma rsum_values_dset : forall (f : Z -> R) (d : dict Z Z) k v,
  rsum (map f (values (dset k v d)))
  = (rsum (map f (values d)) + f v - match lookup k d with Some v0 => f v0 | None => 0 end)%R.
Proof.
  intros f d k v. induction d as [|[k' v'] d IH]; cbn [dset lookup].
  - cbn. ring.
  - destruct (eq_dec k k') as [->|n]; cbn [values map snd rsum fold_right] in *;
      change (fold_right Rplus 0%R) with rsum in *; [ring|].
    change (map snd ?x) with (values x) in *. rewrite IH. ring.
Qed.

Lemma length_values_dset : forall (d : dict Z Z) k v,
  List.length (values (dset k v d)) = (List.length (values d)
    + match lookup k d with Some _ => 0 | None => 1 end)%nat.
Proof.
  intros d k v. unfold values. rewrite !map_length. induction d as [|[k' v'] d IH]; cbn [dset lookup]; [reflexivity|].
  destruct (eq_dec k k'); cbn [List.length]; lia.
Qed.

Lemma rsum_add_at : forall (f : Z -> R) n d l, (n < List.length l)%nat ->
  rsum (map f (add_at n d l)) = (rsum (map f l) + f (nth n l 0 + d)%Z - f (nth n l 0%Z))%R.
Proof.
  intros f n d l. revert n. induction l as [|c l IH]; intros n H; cbn [List.length] in H; [lia|].
  destruct n as [|n]; cbn [add_at map rsum fold_right nth]; change (fold_right Rplus 0%R) with rsum; [ring|].
  rewrite IH by lia. ring.
Qed.

Lemma length_add_at : forall n d l, List.length (add_at n d l) = List.length l.
Proof.
  induction n as [|n IH]; intros d [|c l]; cbn [add_at List.length]; try reflexivity.
  rewrite IH. reflexivity.
Qed.

Lemma score_fin : forall d, dinv d -> exists r, dist_score d = Ok (Fin r).
Proof.
  intros d D. pose proof D as (ND & T & S & HP). destruct d as [s|s|s|s|s|s]; cbn [dist_score hypers_pos] in *.
  - unfold crp_score, crp_marginal. rewrite pylog_ok by assumption. cbn [obind]. eauto.
  - unfold cat_score, cat_marginal. eauto.
  - unfold ber_score, ber_marginal. eauto.
  - destruct HP as [HA HB]. unfold poi_score, poi_marginal, poi_posterior, poi_logZ.
    cbn [kind_of dist_data dist_suffstats] in *. destruct S as (SN & _).
    rewrite pylog_ok by assumption. cbn [obind].
    rewrite pylog_ok; [cbn [obind]; eauto|]. rewrite qr_add, qr_qz, SN, <- INR_IZR_INZ.
    pose proof (pos_INR (List.length (cells (poi_data s)))). lra.
  - destruct HP as (HR & HS & HU). unfold nrm_score, nrm_marginal.
    cbn [kind_of dist_data dist_suffstats] in *. destruct S as (SN & SS & SQ).
    pose proof (nrm_posterior_spec _ _ _ (nrm_m s) (nrm_r s) (nrm_s s) (nrm_nu s) _ HR HS SN SS SQ)
      as (_ & R1 & S1 & N1). cbn zeta in *.
    pose proof (post_scale_ge (qr (nrm_m s)) (qr (nrm_r s)) (qr (nrm_s s)) (map qr (cells (nrm_data s))) HR).
    pose proof (pos_INR (List.length (map qr (cells (nrm_data s))))).
    unfold nrm_logZ. rewrite !pylog_ok by (rewrite ?R1, ?S1; lra). cbn [obind]. eauto.
  - unfold nuc_score. rewrite pylog_ok by assumption. cbn [obind]. eauto.
Qed.

Lemma score_step : forall d rid x d', dinv d ->
  dist_observe d rid [(dist_o d, x)] [] = (d', Ok tt) ->
  exists r l, dist_score d = Ok (Fin r) /\ dist_score d' = Ok (Fin (r + l)%R) /\
    match x with
    | VNan => l = 0%R
    | VQ q => dist_logpdf d (Some rid) [(dist_o d, x)] [] [] = Ok (Fin l)
    end.
Proof.
  intros d rid x d' D E.
  pose proof (observe_dinv d rid [(dist_o d, x)] [] D) as D'. rewrite E in D'. cbn [fst] in D'.
  pose proof (observe_refines d rid [(dist_o d, x)] [] D) as [RF _]. cbn zeta in RF. rewrite E in RF.
  cbn [fst snd] in RF.
  assert (U : unrecorded (Some rid) (dist_data d)).
  { inversion RF; subst; assumption. }
  assert (DM : in_domain (kind_of d) (dist_data d) x).
  { inversion RF as [| | | |x' A B C DD]; subst. injection C as <-. assumption. }
  clear RF.
  pose proof D as (ND & T & S & HP).
  destruct x as [|q].
  - (* missing *)
    destruct (score_fin d D) as [r SR]. exists r, 0%R. split; [exact SR|split; [|reflexivity]].
    rewrite Rplus_0_r. rewrite <- SR.
    destruct d as [s|s|s|s|s|s]; cbn [dist_observe dist_o] in E.
    + destruct DM.
    + unfold cat_observe in E. destruct (base_observe _ _ _ _ _); [|discriminate E].
      rewrite lookup_single in E. injection E as <-. reflexivity.
    + unfold ber_observe in E. destruct (base_observe _ _ _ _ _); [|discriminate E].
      rewrite lookup_single in E. injection E as <-. reflexivity.
    + unfold poi_observe in E. destruct (base_observe _ _ _ _ _); [|discriminate E].
      rewrite lookup_single in E. injection E as <-. reflexivity.
    + unfold nrm_observe in E. destruct (base_observe _ _ _ _ _); [|discriminate E].
      rewrite lookup_single in E. injection E as <-. reflexivity.
    + unfold nuc_observe in E. destruct (base_observe _ _ _ _ _); [|discriminate E].
      rewrite lookup_single in E. injection E as <-. reflexivity.
  - pose proof (logpdf_density d (Some rid) q D U) as LD.
    rewrite xlog_pos in LD by (apply density_pos; assumption).
    destruct (score_fin d D) as [r SR].
    destruct d as [s|s|s|s|s|s]; cbn [dist_observe dist_o] in *.
    + (* CRP *)
      unfold crp_observe in E. destruct (base_observe _ _ _ _ _); [|discriminate E].
      rewrite lookup_single in E.
      destruct (memb (trunc q) (crp_support s)) eqn:M; [|discriminate E]. injection E as <-.
      cbn [dist_logpdf] in *. rewrite LD.
      exists r, (ln (prim_density (DCrp s) q)). split; [exact SR|split; [|reflexivity]].
      cbn [kind_of dist_suffstats hypers_pos] in *. destruct S as (SN & CND & HC).
      cbn [dist_score] in *. unfold crp_score, crp_marginal in *.
      cbn [crp_alpha crp_N crp_counts]. rewrite pylog_ok in * by assumption. cbn [obind] in *.
      injection SR as <-. do 2 f_equal. rewrite rsum_values_dset, length_values_dset.
      assert (NN : (0 <= IZR (crp_N s))%R) by (apply IZR_le; lia).
      rewrite !plus_IZR.
      replace (IZR (crp_N s) + 1 + qr (crp_alpha s))%R with (IZR (crp_N s) + qr (crp_alpha s) + 1)%R by ring.
      rewrite (lgamma_rec (IZR (crp_N s) + qr (crp_alpha s))) by lra.
      cbn [prim_density]. rewrite count_of_IZR, len_cells_typed_table by assumption. rewrite <- SN.
      destruct (lookup (trunc q) (crp_counts s)) as [c|] eqn:C.
      * pose proof C as C'. apply HC in C'. destruct C' as [EC PC]. rewrite EC in PC.
        rewrite <- EC. destruct (Z.ltb_spec 0 c) as [_|X]; [|lia].
        rewrite lgamma_rec by (apply IZR_lt; lia).
        rewrite ln_div by (try apply IZR_lt; try lra; lia).
        rewrite Nat.add_0_r. ring.
      * assert (OC : occurrences (trunc q) (dist_data (DCrp s)) <= 0).
        { destruct (Z.le_gt_cases (occurrences (trunc q) (dist_data (DCrp s))) 0) as [L|L]; [assumption|].
          assert (X : lookup (trunc q) (crp_counts s) = Some (occurrences (trunc q) (dist_data (DCrp s))))
            by (apply HC; auto with zarith). congruence. }
        destruct (Z.ltb_spec 0 (occurrences (trunc q) (dist_data (DCrp s)))) as [X|_]; [lia|].
        cbn [in_domain] in DM. rewrite <- occ_pos, first_free_next in DM by assumption.
        destruct (Z.eqb_spec (trunc q) (first_free (dist_data (DCrp s)))) as [_|X]; [|lia].
        rewrite Rplus_0_l, lgamma_1, plus_INR, ln_div by lra. cbn [INR]. ring.
    + (* Categorical *)
      unfold cat_observe in E. destruct (base_observe _ _ _ _ _); [|discriminate E].
      rewrite lookup_single in E.
      destruct (cat_valid (cat_k s) q) eqn:M; [|discriminate E]. injection E as <-.
      cbn [dist_logpdf] in *. rewrite LD.
      exists r, (ln (prim_density (DCat s) q)). split; [exact SR|split; [|reflexivity]].
      destruct (cat_sum s D) as [CS CL].
      cbn [kind_of dist_suffstats hypers_pos dist_data] in *. destruct S as (SN & SC). destruct HP as [HK HA].
      cbn [dist_score] in *. unfold cat_score, cat_marginal in *.
      cbn [cat_alpha cat_N cat_counts]. injection SR as <-. do 2 f_equal.
      rewrite length_add_at. cbn [prim_density dist_data]. rewrite <- cat_valid_bool, M.
      apply cat_valid_spec in M. destruct M as [z [-> R]]. rewrite trunc_qz.
      rewrite rsum_add_at by (rewrite CL; lia).
      assert (NT : nth (Z.to_nat z) (cat_counts s) 0 = occurrences z (cat_data s)).
      { rewrite SC, nth_map_zrange by lia. reflexivity. }
      rewrite NT, CL, !plus_IZR, count_of_IZR, <- SN.
      assert (KR : INR (Z.to_nat (cat_k s)) = IZR (cat_k s)).
      { rewrite INR_IZR_INZ, Z2Nat.id by lia. reflexivity. }
      rewrite KR. apply IZR_lt in HK. pose proof (Rmult_lt_0_compat _ _ HK HA) as KA.
      assert (NN : (0 <= IZR (cat_N s))%R) by (apply IZR_le; lia).
      pose proof (IZR_le _ _ (occ_nonneg z (cat_data s))) as OP.
      replace (IZR (occurrences z (cat_data s)) + 1 + qr (cat_alpha s))%R
        with (IZR (occurrences z (cat_data s)) + qr (cat_alpha s) + 1)%R by ring.
      replace (IZR (cat_k s) * qr (cat_alpha s) + (IZR (cat_N s) + 1))%R
        with (IZR (cat_k s) * qr (cat_alpha s) + IZR (cat_N s) + 1)%R by ring.
      rewrite (lgamma_rec (IZR (occurrences z (cat_data s)) + qr (cat_alpha s))) by lra.
      rewrite (lgamma_rec (IZR (cat_k s) * qr (cat_alpha s) + IZR (cat_N s))) by lra.
      rewrite ln_div by lra.
      replace (IZR (cat_N s) + IZR (cat_k s) * qr (cat_alpha s))%R
        with (IZR (cat_k s) * qr (cat_alpha s) + IZR (cat_N s))%R by ring. ring.
    + (* Bernoulli *)
      unfold ber_observe in E. destruct (base_observe _ _ _ _ _); [|discriminate E].
      rewrite lookup_single in E.
      destruct (ber_valid q) eqn:M; [|discriminate E]. injection E as <-.
      cbn [dist_logpdf] in *. rewrite LD.
      exists r, (ln (prim_density (DBer s) q)). split; [exact SR|split; [|reflexivity]].
      pose proof (ber_occ s D) as BO.
      cbn [kind_of dist_suffstats hypers_pos dist_data] in *. destruct S as (SN & SC). destruct HP as [HA HB].
      cbn [dist_score] in *. unfold ber_score, ber_marginal, betaln in *.
      cbn [ber_alpha ber_beta ber_N ber_sum]. injection SR as <-. do 2 f_equal.
      pose proof (IZR_le _ _ (occ_nonneg 0 (ber_data s))) as O0.
      pose proof (IZR_le _ _ (occ_nonneg 1 (ber_data s))) as O1.
      assert (NE : IZR (ber_N s) = (IZR (occurrences 0 (ber_data s)) + IZR (occurrences 1 (ber_data s)))%R).
      { rewrite <- plus_IZR, BO. reflexivity. }
      cbn [prim_density dist_data]. rewrite !is_int_trunc, count_of_IZR, <- SN.
      rewrite !plus_IZR, SC, NE.
      set (n0 := IZR (occurrences 0 (ber_data s))) in *. set (n1 := IZR (occurrences 1 (ber_data s))) in *.
      set (al := qr (ber_alpha s)) in *. set (be := qr (ber_beta s)) in *.
      apply ber_valid_spec in M. destruct M as [-> | ->]; rewrite trunc_qz, !eqb_qz; cbn [Z.eqb Pos.eqb].
      * replace (n1 + 0 + al)%R with (n1 + al)%R by ring.
        replace (n0 + n1 + 1 - (n1 + 0) + be)%R with (n0 + be + 1)%R by ring.
        replace (n1 + al + (n0 + be + 1))%R with (n0 + n1 + al + be + 1)%R by ring.
        replace (n0 + n1 - n1 + be)%R with (n0 + be)%R by ring.
        replace (n1 + al + (n0 + be))%R with (n0 + n1 + al + be)%R by ring.
        rewrite (lgamma_rec (n0 + be)) by lra. rewrite (lgamma_rec (n0 + n1 + al + be)) by lra.
        rewrite ln_div by lra. ring.
      * replace (n1 + 1 + al)%R with (n1 + al + 1)%R by ring.
        replace (n0 + n1 + 1 - (n1 + 1) + be)%R with (n0 + be)%R by ring.
        replace (n1 + al + 1 + (n0 + be))%R with (n0 + n1 + al + be + 1)%R by ring.
        replace (n0 + n1 - n1 + be)%R with (n0 + be)%R by ring.
        replace (n1 + al + (n0 + be))%R with (n0 + n1 + al + be)%R by ring.
        rewrite (lgamma_rec (n1 + al)) by lra. rewrite (lgamma_rec (n0 + n1 + al + be)) by lra.
        rewrite ln_div by lra. ring.
    + (* Poisson *)
      unfold poi_observe in E. destruct (base_observe _ _ _ _ _) eqn:BO; [|discriminate E].
      rewrite lookup_single in E.
      destruct (poi_valid q) eqn:M; [|discriminate E]. injection E as <-.
      destruct (score_fin _ D') as [r' SR'].
      remember (ln (prim_density (DPoi s) q)) as L eqn:HL. clear HL.
      cbn [dist_logpdf dist_score] in *. unfold poi_logpdf in LD.
      rewrite base_logpdf_ok in LD by assumption. cbn [obind] in LD. rewrite lookup_single, M in LD.
      unfold poi_logpdf. rewrite base_logpdf_ok by assumption. cbn [obind]. rewrite lookup_single, M, LD.
      unfold poi_score, poi_marginal, poi_predictive, poi_posterior in *.
      cbn [poi_N poi_sum poi_slf poi_a poi_b] in *.
      destruct (poi_logZ (poi_a s) (poi_b s)) as [Z0|]; cbn [obind] in *; [|discriminate].
      destruct (poi_logZ (poi_a s + poi_sum s)%Qc (poi_b s + qz (poi_N s))%Qc) as [ZN|]; cbn [obind] in *; [|discriminate].
      destruct (poi_logZ (poi_a s + (poi_sum s + q))%Qc (poi_b s + qz (poi_N s + 1))%Qc) as [ZM|]; cbn [obind] in *; [|discriminate].
      injection LD as <-; injection SR as <-.
      eexists _, _. split; [reflexivity|split; [|reflexivity]]. do 2 f_equal. ring.
    + (* Normal *)
      unfold nrm_observe in E. destruct (base_observe _ _ _ _ _) eqn:BO; [|discriminate E].
      rewrite lookup_single in E. injection E as <-.
      destruct (score_fin _ D') as [r' SR'].
      remember (ln (prim_density (DNrm s) q)) as L eqn:HL. clear HL.
      cbn [dist_logpdf dist_score] in *. unfold nrm_logpdf in LD.
      rewrite base_logpdf_ok in LD by assumption. cbn [obind] in LD. rewrite lookup_single in LD.
      unfold nrm_logpdf. rewrite base_logpdf_ok by assumption. cbn [obind]. rewrite lookup_single, LD.
      unfold nrm_score, nrm_marginal, nrm_predictive in *.
      cbn [nrm_N nrm_sum nrm_sumsq nrm_m nrm_r nrm_s nrm_nu] in *.
      destruct (nrm_logZ (nrm_r s) (nrm_s s) (nrm_nu s)) as [Z0|]; cbn [obind] in *; [|discriminate].
      destruct (nrm_logZ (post_r (nrm_posterior (nrm_N s) _ _ _ _ _ _)) _ _) as [ZN|]; cbn [obind] in *; [|discriminate].
      destruct (nrm_logZ (post_r (nrm_posterior (nrm_N s + 1) _ _ _ _ _ _)) _ _) as [ZM|]; cbn [obind] in *; [|discriminate].
      injection LD as <-; injection SR as <-.
      eexists _, _. split; [reflexivity|split; [|reflexivity]]. do 2 f_equal. rewrite plus_IZR. field.
    + (* NormalUC *)
      unfold nuc_observe in E. destruct (base_observe _ _ _ _ _) eqn:BO; [|discriminate E].
      rewrite lookup_single in E. injection E as <-.
      cbn [dist_logpdf hypers_pos] in *. rewrite LD.
      exists r, (ln (prim_density (DNuc s) q)). split; [exact SR|split; [|reflexivity]].
      cbn [dist_score prim_density] in *. rewrite <- norm_logpdf_gaussian by assumption.
      unfold nuc_score, norm_logpdf in *. cbn [nuc_var nuc_N nuc_sum nuc_sumsq nuc_mu].
      rewrite pylog_ok in * by assumption. cbn [obind] in *. injection SR as <-. do 2 f_equal.
      pose proof PI_RGT_0. rewrite plus_IZR, !qr_add, qr_mul. unfold LOG2PI, LOG2, LOGPI.
      rewrite (ln_mult 2 PI) by lra. field. lra.
Qed.

Lemma score_fresh : forall d, fresh d -> dist_score d = Ok (Fin 0%R).
Proof.
  intros d F. destruct F; cbn [dist_score].
  - unfold crp_score, crp_marginal. cbn [crp_new crp_alpha crp_N crp_counts values map List.length rsum fold_right].
    rewrite pylog_ok by assumption. cbn [obind INR]. do 2 f_equal.
    replace (0 + qr alpha)%R with (qr alpha) by ring. ring.
  - unfold cat_score, cat_marginal. cbn [cat_new cat_alpha cat_N cat_counts]. do 2 f_equal.
    rewrite repeat_length. rewrite Rplus_0_r.
    assert (G : rsum (map (fun c => lgamma (IZR c + qr alpha)) (repeat 0 (Z.to_nat k)))
              = (INR (Z.to_nat k) * lgamma (qr alpha))%R).
    { induction (Z.to_nat k) as [|n IH]; [cbn; ring|].
      cbn [repeat map rsum fold_right]. change (fold_right Rplus 0%R) with rsum. rewrite IH, S_INR.
      rewrite Rplus_0_l. ring. }
    rewrite G. ring.
  - unfold ber_score, ber_marginal, betaln. cbn [ber_new ber_alpha ber_beta ber_N ber_sum]. do 2 f_equal.
    replace (0 + qr alpha)%R with (qr alpha) by ring. replace (0 - 0 + qr beta)%R with (qr beta) by ring. ring.
  - assert (D : dinv (DPoi p)) by (apply fresh_dinv; econstructor; eassumption).
    destruct (score_fin _ D) as [r SR]. cbn [dist_score] in SR. rewrite SR.
    unfold poi_new in H. apply obind_ok in H. destruct H as [u [A H]].
    apply obind_ok in H. destruct H as [u' [B H]]. injection H as <-.
    unfold poi_score, poi_marginal, poi_posterior in SR. cbn [poi_N poi_sum poi_slf poi_a poi_b] in SR.
    replace (a + 0)%Qc with a in SR by ring. replace (b + qz 0)%Qc with b in SR by (rewrite qz_0; ring).
    destruct (poi_logZ a b); cbn [obind] in SR; [|discriminate]. injection SR as <-. do 2 f_equal. ring.
  - assert (D : dinv (DNrm p)) by (apply fresh_dinv; econstructor; eassumption).
    destruct (score_fin _ D) as [x SR]. destruct D as (_ & _ & _ & HP). cbn [dist_score hypers_pos] in *. rewrite SR.
    unfold nrm_new in H. apply obind_ok in H. destruct H as [u [A H]].
    apply obind_ok in H. destruct H as [u' [B H]]. apply obind_ok in H. destruct H as [u'' [C H]].
    injection H as <-. cbn [nrm_r nrm_s nrm_nu] in HP. destruct HP as (HR & HS & HU).
    unfold nrm_score, nrm_marginal in SR. cbn [nrm_N nrm_sum nrm_sumsq nrm_m nrm_r nrm_s nrm_nu] in SR.
    assert (RZ : r <> 0%Qc) by (intros ->; rewrite qr_0 in HR; lra).
    assert (PO : nrm_posterior 0 0 0 m r s nu = mkPost m r s nu).
    { unfold nrm_posterior. rewrite qz_0.
      replace (r + 0)%Qc with r by ring. replace (nu + 0)%Qc with nu by ring.
      replace ((r * m + 0) / r)%Qc with m by (field; assumption).
      replace (s + 0 + r * m * m - r * m * m)%Qc with s by ring. destruct (eqb s 0%Qc); reflexivity. }
    rewrite PO in SR. cbn [post_r post_s post_nu] in SR.
    destruct (nrm_logZ r s nu); cbn [obind] in SR; [|discriminate]. injection SR as <-. do 2 f_equal. field.
  - unfold nuc_new in H. apply obind_ok in H. destruct H as [u [A H]]. injection H as <-.
    apply oassert_ok in A. apply qltb_true in A. rewrite qr_0 in A.
    unfold nuc_score. cbn [nuc_var nuc_N nuc_sum nuc_sumsq nuc_mu]. rewrite pylog_ok by assumption.
    cbn [obind]. do 2 f_equal. rewrite !qr_0. field. lra.
Qed.
