(** Proofs of the primitive-level properties (C05-C07, C10-C14). *)
From Coq Require Import List ZArith QArith Qcanon Reals Bool String Permutation Sorted Lia Lra.
From Verif Require Import Base Xr Samp Lgamma Prims Lib SpecPrims PrimsInv PrimsDens PrimsThm NegBin.
Import ListNotations.
Local Open Scope Z_scope.

(** ** C05 over a whole history *)

Lemma predicted_score : forall d0 rows d r, predicted d0 rows d r -> dinv d0 ->
  forall r0, dist_score d0 = Ok (Fin r0) -> dist_score d = Ok (Fin (r0 + r)%R).
Proof.
  intros d0 rows d r P. induction P as [d|d rid d' rows d'' r E P IH|d rid q d' rows d'' l r E L P IH];
    intros D r0 S0.
  - rewrite Rplus_0_r. assumption.
  - destruct (score_step _ _ _ _ D E) as (r1 & l1 & A & B & C). rewrite A in S0. injection S0 as ->.
    subst l1. rewrite Rplus_0_r in B. apply IH; [|assumption].
    pose proof (observe_dinv d rid [(dist_o d, VNan)] [] D) as D'. rewrite E in D'. exact D'.
  - destruct (score_step _ _ _ _ D E) as (r1 & l1 & A & B & C). rewrite A in S0. injection S0 as ->.
    rewrite L in C. injection C as ->. rewrite <- Rplus_assoc. apply IH; [|assumption].
    pose proof (observe_dinv d rid [(dist_o d, VQ q)] [] D) as D'. rewrite E in D'. exact D'.
Qed.

Lemma predicted_dinv : forall d0 rows d r, predicted d0 rows d r -> dinv d0 -> dinv d.
Proof.
  intros d0 rows d r P. induction P as [d|d rid d' rows d'' r E P IH|d rid q d' rows d'' l r E L P IH];
    intros D; [assumption| |]; apply IH.
  - pose proof (observe_dinv d rid [(dist_o d, VNan)] [] D) as D'. rewrite E in D'. exact D'.
  - pose proof (observe_dinv d rid [(dist_o d, VQ q)] [] D) as D'. rewrite E in D'. exact D'.
Qed.

(** ** C06 *)

Lemma rsum_split : forall (b : Z -> bool) (f : Z -> R) c ts,
  rsum (map (fun t => if b t then f t else c) ts)
  = (rsum (map (fun t => if b t then f t else 0%R) ts)
    + INR (List.length (filter (fun t => negb (b t)) ts)) * c)%R.
Proof.
  intros b f c ts. induction ts as [|t ts IH]; [cbn; ring|].
  cbn [map rsum fold_right filter]. change (fold_right Rplus 0%R) with rsum. rewrite IH.
  destruct (b t); cbn [negb]; [ring|]. cbn [List.length]. rewrite S_INR. ring.
Qed.

Lemma occ_if : forall data t,
  (if 0 <? occurrences t data then IZR (occurrences t data) else 0)%R = IZR (occurrences t data).
Proof.
  intros data t. destruct (Z.ltb_spec 0 (occurrences t data)) as [_|L]; [reflexivity|].
  pose proof (occ_nonneg t data). replace (occurrences t data) with 0 by lia. reflexivity.
Qed.

Lemma rsum_occ : forall ts data, NoDup ts ->
  (forall q, In q (cells data) -> exists t, In t ts /\ q = qz t) ->
  rsum (map (fun t => IZR (occurrences t data)) ts) = count_of data.
Proof.
  intros ts data ND H.
  rewrite <- (map_map (fun t => occurrences t data) IZR), rsum_IZR, sum_occ by assumption.
  rewrite count_of_IZR. reflexivity.
Qed.

Lemma sorted_lt_NoDup : forall l, StronglySorted Z.lt l -> NoDup l.
Proof.
  intros l S. induction S as [|a l S IH F]; constructor; [|assumption].
  intros I. rewrite Forall_forall in F. specialize (F _ I). lia.
Qed.

Lemma sorted_le_lt : forall l, StronglySorted Z.le l -> NoDup l -> StronglySorted Z.lt l.
Proof.
  intros l S. induction S as [|a l S IH F]; intros ND; constructor.
  - apply IH. inversion ND; assumption.
  - inversion ND as [|? ? N _]; subst. rewrite Forall_forall in *. intros x I. specialize (F x I).
    destruct (Z.eq_dec a x) as [->|n]; [contradiction|lia].
Qed.

Lemma sorted_snoc : forall l x, StronglySorted Z.lt l -> (forall y, In y l -> y < x) ->
  StronglySorted Z.lt (l ++ [x]).
Proof.
  intros l x S. induction S as [|a l S IH F]; intros H; cbn [app].
  - repeat constructor.
  - constructor.
    + apply IH. intros y I. apply H. right. assumption.
    + rewrite Forall_forall in *. intros y I. apply in_app_iff in I. destruct I as [I|[<-|[]]]; auto.
      apply H. left. reflexivity.
Qed.

Lemma zsort_lt : forall l, NoDup l -> StronglySorted Z.lt (zsort l).
Proof.
  intros l ND. apply sorted_le_lt; [apply zsort_sorted|].
  apply (Permutation_NoDup (Permutation_sym (zsort_perm l))). assumption.
Qed.

Lemma crp_support_sorted : forall s, dinv (DCrp s) -> StronglySorted Z.lt (crp_support s).
Proof.
  intros s (_ & _ & S & _). cbn [kind_of dist_suffstats] in S. destruct S as (_ & CND & _).
  apply zsort_lt in CND. unfold crp_support.
  destruct (zsort (keys (crp_counts s))) as [|k ks]; [repeat constructor|].
  apply sorted_snoc; [assumption|]. intros y I. destruct (zmax_ge ks k) as [A B].
  destruct I as [<-|I]; [lia|]. specialize (B _ I). lia.
Qed.

Lemma crp_support_In : forall s t, dinv (DCrp s) ->
  (In t (crp_support s) <->
   occupied (dist_data (DCrp s)) t \/ t = first_free (dist_data (DCrp s))).
Proof.
  intros s t (_ & T & S & _). rewrite (crp_support_spec s S T t), first_free_next by assumption. reflexivity.
Qed.

Lemma filter_single : forall (l : list Z) (b : Z -> bool) x, NoDup l -> In x l ->
  (forall y, In y l -> (b y = true <-> y = x)) -> filter b l = [x].
Proof.
  intros l b x ND. induction ND as [|a l N ND IH]; intros I H; [destruct I|].
  cbn [filter]. destruct (b a) eqn:B.
  - apply (H a) in B; [|left; reflexivity]. subst a. f_equal.
    clear - N H. induction l as [|y l IH]; [reflexivity|]. cbn [filter].
    destruct (b y) eqn:B.
    + apply (H y) in B; [|right; left; reflexivity]. subst y. exfalso. apply N. left. reflexivity.
    + apply IH; [intros I; apply N; right; assumption|].
      intros z [<-|I]; apply H; [left; reflexivity|right; right; assumption].
  - destruct I as [->|I].
    + assert (X : b x = true) by (apply H; [left; reflexivity|reflexivity]). congruence.
    + apply IH; [assumption|]. intros y I'. apply H. right. assumption.
Qed.

Lemma crp_free_unique : forall s, dinv (DCrp s) ->
  filter (fun t => negb (0 <? occurrences t (dist_data (DCrp s)))) (crp_support s)
  = [first_free (dist_data (DCrp s))].
Proof.
  intros s D. pose proof D as (_ & T & _ & _). apply filter_single.
  - apply sorted_lt_NoDup. apply crp_support_sorted. assumption.
  - apply crp_support_In; [assumption|]. right. reflexivity.
  - intros y I. rewrite negb_true_iff, Z.ltb_ge. apply crp_support_In in I; [|assumption]. split.
    + intros L. destruct I as [O|E]; [|assumption]. apply occ_pos in O. lia.
    + intros ->. pose proof (first_free_unoccupied _ T) as NO. rewrite <- occ_pos in NO. lia.
Qed.

Lemma support_normalised : forall d K rid, dinv d -> unrecorded rid (dist_data d) ->
  dist_support d = Ok K ->
  exists ls, oseq (map (fun z => dist_logpdf d rid [(dist_o d, vz z)] [] []) K) = Ok ls /\
    Forall (fun l => exists r, l = Fin r) ls /\ rsum (map xexp ls) = 1%R.
Proof.
  intros d K rid D U SK.
  exists (map (fun z => xlog (prim_density d (qz z))) K). split.
  { apply oseq_map_ok. intros z _. apply logpdf_density; assumption. }
  assert (E : rsum (map xexp (map (fun z => xlog (prim_density d (qz z))) K))
            = rsum (map (fun z => prim_density d (qz z)) K)).
  { rewrite map_map. apply rsum_ext. intros z _. apply xexp_xlog. apply density_nonneg. assumption. }
  rewrite E. clear E.
  assert (F : forall z, In z K -> in_domain (kind_of d) (dist_data d) (vz z)).
  { intros z I. destruct d as [s|s|s|s|s|s]; try discriminate SK; injection SK as <-; cbn [kind_of in_domain vz].
    - cbn. rewrite trunc_qz. destruct D as (_ & T & S & _). apply (crp_support_spec s S T z). assumption.
    - unfold cat_support in I. apply zrange_In in I. exists z. split; [reflexivity|]. lia.
    - unfold ber_support in I. destruct I as [<-|[<-|[]]]; auto. }
  split.
  { apply Forall_forall. intros l I. apply in_map_iff in I. destruct I as [z [<- I]].
    rewrite xlog_pos; [eauto|]. apply density_pos; [assumption|]. apply F. assumption. }
  clear F. pose proof D as (ND & T & S & HP).
  destruct d as [s|s|s|s|s|s]; try discriminate SK; injection SK as <-; cbn [prim_density hypers_pos] in *.
  - set (data := dist_data (DCrp s)) in *. set (a := qr (crp_alpha s)) in *.
    assert (NP : (0 < count_of data + a)%R) by (pose proof (count_of_nonneg data); lra).
    rewrite (rsum_ext _ (fun t => (if 0 <? occurrences t data then IZR (occurrences t data) else a)
                                  / (count_of data + a))%R).
    2:{ intros t I. rewrite trunc_qz. destruct (Z.ltb_spec 0 (occurrences t data)); [reflexivity|].
        apply (crp_support_In s t D) in I. destruct I as [O| ->].
        - apply occ_pos in O. fold data in O. lia.
        - fold data. rewrite Z.eqb_refl. reflexivity. }
    pose proof (crp_free_unique s D) as FU. fold data in FU.
    rewrite rsum_div, rsum_split, FU.
    rewrite (rsum_ext _ (fun t => IZR (occurrences t data))) by (intros; apply occ_if).
    rewrite rsum_occ.
    + cbn [List.length INR]. field. lra.
    + apply sorted_lt_NoDup. apply crp_support_sorted. assumption.
    + intros q I. apply In_cells in I. destruct I as [r I].
      destruct (T r _ I) as [t [-> _]]. exists t. split; [|reflexivity].
      apply crp_support_In; [assumption|]. left. exists r. exact I.
  - unfold cat_support. destruct HP as [HK HA]. cbn [dist_data].
    set (a := qr (cat_alpha s)) in *. set (data := cat_data s).
    apply IZR_lt in HK as HK'. pose proof (Rmult_lt_0_compat _ _ HK' HA) as KA.
    pose proof (count_of_nonneg data).
    rewrite (rsum_ext _ (fun t => (IZR (occurrences t data) + a) / (count_of data + IZR (cat_k s) * a))%R).
    2:{ intros t I. apply zrange_In in I. rewrite is_int_qz, trunc_qz.
        destruct (Z.leb_spec 0 t); [|lia]. destruct (Z.ltb_spec t (cat_k s)); [reflexivity|lia]. }
    rewrite rsum_div, rsum_add, rsum_const, rsum_occ.
    + rewrite zrange_length, INR_IZR_INZ, Z2Nat.id by lia. field. lra.
    + apply zrange_NoDup.
    + intros q I. apply In_cells in I. destruct I as [r I].
      destruct (T r _ I) as [t [-> R]]. exists t. split; [|reflexivity]. apply zrange_In. lia.
  - unfold ber_support. destruct HP as [HA HB]. cbn [map rsum fold_right dist_data].
    rewrite !is_int_trunc, !eqb_qz. cbn [Z.eqb Pos.eqb]. rewrite count_of_IZR.
    pose proof (ber_occ s D) as BO. cbn [kind_of dist_data dist_suffstats] in *. destruct S as [SN _].
    rewrite <- SN, <- BO, plus_IZR.
    pose proof (IZR_le _ _ (occ_nonneg 0 (ber_data s))). pose proof (IZR_le _ _ (occ_nonneg 1 (ber_data s))).
    field. lra.
Qed.

(** ** C07 *)

Lemma poisson_normalised : forall s rid, dinv (DPoi s) -> unrecorded rid (poi_data s) ->
  exists f : nat -> R,
    (forall n, poi_logpdf s rid [(poi_o s, vz (Z.of_nat n))] [] [] = Ok (Fin (f n))) /\
    infinite_sum (fun n => exp (f n)) 1.
Proof.
  intros s rid D U. pose proof D as (_ & T & S & HP). destruct HP as [HA HB].
  cbn [kind_of dist_data dist_suffstats] in *.
  set (a := (qr (poi_a s) + sum_of (poi_data s))%R).
  set (b := (qr (poi_b s) + count_of (poi_data s))%R).
  assert (PA : (0 < a)%R) by (pose proof (rsum_cells_nonneg _ T); unfold a; lra).
  assert (PB : (0 < b)%R) by (pose proof (count_of_nonneg (poi_data s)); unfold b; lra).
  exists (fun n => ln (neg_binomial a b n)). split.
  - intros n. pose proof (logpdf_density (DPoi s) rid (qz (Z.of_nat n)) D U) as L.
    cbn [dist_logpdf dist_o prim_density dist_data] in L. unfold vz. rewrite L, is_int_qz, trunc_qz.
    destruct (Z.leb_spec 0 (Z.of_nat n)); [|lia]. cbn [andb]. rewrite Nat2Z.id. fold a b.
    rewrite xlog_pos; [reflexivity|]. apply neg_binomial_pos; assumption.
  - intros eps E. destruct (neg_binomial_sum a b PA PB eps E) as [N H]. exists N. intros n L.
    specialize (H n L).
    rewrite (sum_eq (fun i => exp (ln (neg_binomial a b i))) (neg_binomial a b)); [assumption|].
    intros i _. apply exp_ln. apply neg_binomial_pos; assumption.
Qed.

(** ** C09, C03: acceptance *)

Lemma accepted_iff : forall d rid x, dinv d -> ~ In rid (keys (dist_data d)) ->
  (snd (dist_observe d rid [(dist_o d, x)] []) = Ok tt <-> in_domain (kind_of d) (dist_data d) x).
Proof.
  intros d rid x D NI. destruct (observe_refines d rid [(dist_o d, x)] [] D) as [RF _].
  destruct (dist_observe d rid [(dist_o d, x)] []) as [d' r]. cbn [fst snd] in *.
  inversion RF as [A E0 E|A B E0 E|A B C E0 E|x' A B C DM E0 E|x' A B C DM E0 E]; subst.
  - contradiction.
  - congruence.
  - exfalso. apply C. reflexivity.
  - injection C as <-. split; [discriminate|contradiction].
  - injection C as <-. tauto.
Qed.

Lemma neginf_iff_rejected : forall d rid q, dinv d -> ~ In rid (keys (dist_data d)) ->
  match snd (dist_observe d rid [(dist_o d, VQ q)] []) with
  | Ok _ => exists l, dist_logpdf d (Some rid) [(dist_o d, VQ q)] [] [] = Ok (Fin l)
  | Err _ => dist_logpdf d (Some rid) [(dist_o d, VQ q)] [] [] = Ok NInf
  end.
Proof.
  intros d rid q D NI.
  assert (U : unrecorded (Some rid) (dist_data d)) by exact NI.
  pose proof (accepted_iff d rid (VQ q) D NI) as A.
  rewrite (logpdf_density d (Some rid) q D U).
  destruct (snd (dist_observe d rid [(dist_o d, VQ q)] [])) as [[]|e].
  - rewrite xlog_pos; [eauto|]. apply density_pos; [assumption|]. apply A. reflexivity.
  - rewrite density_zero; [rewrite xlog_0; reflexivity|assumption|].
    intros X. apply A in X. discriminate.
Qed.

(** ** C10 *)

Lemma missing_neutral : forall d rid d', dinv d ->
  dist_observe d rid [(dist_o d, VNan)] [] = (d', Ok tt) ->
  dist_suffstats d' = dist_suffstats d /\ dist_score d' = dist_score d /\
  dist_support d' = dist_support d /\ settings d' = settings d /\ dist_o d' = dist_o d /\
  forall rid' T C ins, rid' <> Some rid -> dist_logpdf d' rid' T C ins = dist_logpdf d rid' T C ins.
Proof.
  intros d rid d' D E.
  assert (G : forall (data : dict Z val) o rid' T C ins, rid' <> Some rid ->
     base_logpdf (dset rid VNan data) o rid' T C ins = base_logpdf data o rid' T C ins).
  { intros data o rid' T C ins NE. unfold base_logpdf.
    assert (M : omem rid' (dset rid VNan data) = omem rid' data).
    { destruct rid' as [r|]; [|reflexivity]. cbn [omem]. unfold dmem.
      rewrite lookup_dset_neq by congruence. reflexivity. }
    rewrite M. reflexivity. }
  destruct d as [s|s|s|s|s|s]; cbn [dist_observe dist_o] in E.
  - unfold crp_observe in E. destruct (base_observe _ _ _ _ _); [|discriminate E].
    rewrite lookup_single in E. discriminate E.
  - unfold cat_observe in E. destruct (base_observe _ _ _ _ _); [|discriminate E].
    rewrite lookup_single in E. injection E as <-. repeat (split; [reflexivity|]).
    intros. cbn [dist_logpdf]. unfold cat_logpdf. cbn [cat_data cat_o cat_k cat_counts cat_alpha].
    rewrite G by assumption. reflexivity.
  - unfold ber_observe in E. destruct (base_observe _ _ _ _ _); [|discriminate E].
    rewrite lookup_single in E. injection E as <-. repeat (split; [reflexivity|]).
    intros. cbn [dist_logpdf]. unfold ber_logpdf. cbn [ber_data ber_o ber_N ber_sum ber_alpha ber_beta].
    rewrite G by assumption. reflexivity.
  - unfold poi_observe in E. destruct (base_observe _ _ _ _ _); [|discriminate E].
    rewrite lookup_single in E. injection E as <-. repeat (split; [reflexivity|]).
    intros. cbn [dist_logpdf]. unfold poi_logpdf. cbn [poi_data poi_o poi_N poi_sum poi_a poi_b].
    rewrite G by assumption. reflexivity.
  - unfold nrm_observe in E. destruct (base_observe _ _ _ _ _); [|discriminate E].
    rewrite lookup_single in E. injection E as <-. repeat (split; [reflexivity|]).
    intros. cbn [dist_logpdf]. unfold nrm_logpdf.
    cbn [nrm_data nrm_o nrm_N nrm_sum nrm_sumsq nrm_m nrm_r nrm_s nrm_nu].
    rewrite G by assumption. reflexivity.
  - unfold nuc_observe in E. destruct (base_observe _ _ _ _ _); [|discriminate E].
    rewrite lookup_single in E. injection E as <-. repeat (split; [reflexivity|]).
    intros. cbn [dist_logpdf]. unfold nuc_logpdf.
    cbn [nuc_data nuc_o nuc_mu nuc_var].
    rewrite G by assumption. reflexivity.
Qed.

Lemma missing_logpdf : forall d rid, dinv d -> unrecorded rid (dist_data d) ->
  dist_logpdf d rid [(dist_o d, VNan)] [] [] =
  match d with
  | DCat _ | DNrm _ | DNuc _ => Ok (Fin 0%R)
  | DBer _ | DPoi _ => Ok NInf
  | DCrp _ => Err ValueError
  end.
Proof.
  intros d rid D U. destruct d as [s|s|s|s|s|s]; cbn [dist_logpdf dist_o dist_data] in *.
  - unfold crp_logpdf. cbn [oassert obind keys map fst]. rewrite eqb_refl. cbn [oassert obind].
    rewrite lookup_single. reflexivity.
  - unfold cat_logpdf. rewrite base_logpdf_ok by assumption. cbn [obind]. rewrite lookup_single. reflexivity.
  - unfold ber_logpdf. rewrite base_logpdf_ok by assumption. cbn [obind]. rewrite lookup_single. reflexivity.
  - unfold poi_logpdf. rewrite base_logpdf_ok by assumption. cbn [obind]. rewrite lookup_single. reflexivity.
  - unfold nrm_logpdf. rewrite base_logpdf_ok by assumption. cbn [obind]. rewrite lookup_single. reflexivity.
  - unfold nuc_logpdf. rewrite base_logpdf_ok by assumption. cbn [obind]. rewrite lookup_single. reflexivity.
Qed.

(** ** C12 *)

Lemma exp_rsum_ln : forall {A} (f : A -> R) l, (forall x, In x l -> (0 < f x)%R) ->
  exp (rsum (map (fun x => ln (f x)) l)) = rprod (map f l).
Proof.
  intros A f l. induction l as [|x l IH]; intros H; [cbn; apply exp_0|].
  cbn [map rsum rprod fold_right]. change (fold_right Rplus 0%R) with rsum. change (fold_right Rmult 1%R) with rprod.
  rewrite exp_plus, IH by (intros; apply H; right; assumption). rewrite exp_ln by (apply H; left; reflexivity).
  reflexivity.
Qed.

Lemma counts_block_sizes : forall s, dinv (DCrp s) ->
  Permutation (values (crp_counts s)) (block_sizes (dist_data (DCrp s))).
Proof.
  intros s (_ & T & S & _). cbn [kind_of dist_suffstats] in *.
  rewrite (counts_perm _ _ _ S). unfold block_sizes. apply Permutation_map.
  apply NoDup_Permutation.
  - apply S.
  - apply dedup_NoDup.
  - intros t. rewrite dedup_In, In_tables by assumption. apply (counts_keys _ _ _ S).
Qed.

Lemma crp_eppf : forall s, dinv (DCrp s) ->
  exists r, crp_score s = Ok (Fin r) /\
  exp r = (qr (crp_alpha s) ^ List.length (block_sizes (dist_data (DCrp s)))
           * rprod (map (fun n => INR (fact (Z.to_nat (n - 1)))) (block_sizes (dist_data (DCrp s))))
           / rising (qr (crp_alpha s)) (List.length (dist_data (DCrp s))))%R.
Proof.
  intros s D. pose proof (counts_block_sizes s D) as P. pose proof D as (_ & T & S & HP).
  cbn [kind_of dist_suffstats hypers_pos] in *.
  unfold crp_score, crp_marginal. rewrite pylog_ok by assumption. cbn [obind].
  eexists. split; [reflexivity|]. rewrite (Permutation_length P).
  rewrite (rsum_perm _ _ (Permutation_map (fun c => lgamma (IZR c)) P)).
  set (bs := block_sizes (dist_data (DCrp s))) in *. set (a := qr (crp_alpha s)) in *.
  assert (BP : forall n, In n bs -> 0 < n).
  { intros n I. apply (Permutation_in _ (Permutation_sym P)) in I. unfold values in I.
    apply in_map_iff in I. destruct I as [[t n'] [E I]]. cbn in E. subst n'.
    destruct S as (_ & CND & H). apply (In_lookup _ _ _ CND) in I. apply H in I. tauto. }
  rewrite (rsum_ext _ (fun n => ln (INR (fact (Z.to_nat (n - 1)))))).
  2:{ intros n I. specialize (BP n I). rewrite <- lgamma_fact. f_equal.
      rewrite INR_IZR_INZ, Z2Nat.id by lia. rewrite minus_IZR. ring. }
  destruct S as (SN & _). rewrite SN, <- INR_IZR_INZ.
  replace (INR (List.length (dist_data (DCrp s))) + a)%R with (a + INR (List.length (dist_data (DCrp s))))%R by ring.
  rewrite lgamma_rising by assumption.
  match goal with |- exp (?x + ?y + ?g - (?g + ?z)) = _ => replace (x + y + g - (g + z))%R with (x + y + - z)%R by ring end.
  rewrite !exp_plus, exp_Ropp. rewrite (exp_ln (rising _ _)) by (apply rising_pos; assumption).
  rewrite exp_rsum_ln by (intros; apply lt_0_INR; apply lt_O_fact).
  unfold Rdiv. do 2 f_equal. rewrite <- ln_pow' by assumption. rewrite exp_ln; [reflexivity|].
  apply pow_lt. assumption.
Qed.

(** ** C13 *)

Lemma filter_all : forall {A} (f : A -> bool) l, (forall x, In x l -> f x = true) -> filter f l = l.
Proof.
  intros A f l. induction l as [|x l IH]; intros H; [reflexivity|]. cbn [filter].
  rewrite (H x (or_introl eq_refl)), IH; [reflexivity|]. intros y I. apply H. right. assumption.
Qed.

Lemma app_sorted_shift : forall l x n, (forall y, In y l -> y <= x) -> NoDup l ->
  NoDup (l ++ map (fun j => x + 1 + j) (zrange n)).
Proof.
  intros l x n H ND. induction ND as [|a l N ND IH]; cbn [app].
  - apply FinFun.Injective_map_NoDup; [|apply zrange_NoDup]. intros p q E. lia.
  - constructor.
    + rewrite in_app_iff. intros [I|I]; [contradiction|].
      apply in_map_iff in I. destruct I as [j [E I]]. apply zrange_In in I.
      specialize (H a (or_introl eq_refl)). lia.
    + apply IH. intros y I. apply H. right. assumption.
Qed.

Lemma crp_unobserve_data : forall s rid, dinv (DCrp s) -> In rid (keys (dist_data (DCrp s))) ->
  exists t0, lookup rid (crp_data s) = Some t0 /\
    forall t, occurrences t (dist_data (fst (dist_unobserve (DCrp s) rid)))
      = occurrences t (dist_data (DCrp s)) - (if t =? t0 then 1 else 0).
Proof.
  intros s rid D I. rewrite keys_cdata in I. apply lookup_keys in I. destruct I as [t0 L].
  exists t0. split; [assumption|]. intros t.
  destruct D as (_ & T & S & _). cbn [kind_of dist_suffstats] in *. destruct S as (_ & CND & H).
  assert (LC : exists c, lookup t0 (crp_counts s) = Some c).
  { assert (O : occupied (dist_data (DCrp s)) t0).
    { exists rid. cbn [dist_data]. apply in_map_iff. exists (rid, t0). split; [reflexivity|].
      apply lookup_In. assumption. }
    apply occ_pos in O. eexists. apply H. split; [reflexivity|assumption]. }
  destruct LC as [c LC].
  cbn [dist_unobserve]. unfold crp_unobserve. rewrite L, LC. cbn [fst dist_data crp_data].
  pose proof (ddel_perm _ _ _ L) as P.
  apply (Permutation_map (fun p => (fst p, vz (snd p)))) in P.
  rewrite (occ_perm t _ _ P). cbn [map fst snd]. rewrite occ_cons. change (match vz t0 with VNan => 0 | VQ q => if eqb q (qz t) then 1 else 0 end) with (if eqb (qz t0) (qz t) then 1 else 0). rewrite eqb_qz.
  rewrite (Z.eqb_sym t t0). destruct (t0 =? t); lia.
Qed.

Lemma crp_gibbs : forall s rid m, dinv (DCrp s) -> In rid (keys (dist_data (DCrp s))) -> 0 < m ->
  let data' := dist_data (fst (dist_unobserve (DCrp s) rid)) in
  exists ts,
    crp_gibbs_tables s rid m = Ok ts /\
    crp_gibbs_logps s rid m
      = Ok (map (fun t => Fin (ln (seat_weight data' (qr (crp_alpha s)) m t))) ts) /\
    NoDup ts /\ (forall t, occupied data' t -> In t ts) /\
    List.length (filter (fun t => negb (0 <? occurrences t data')) ts) = Z.to_nat m /\
    rsum (map (seat_weight data' (qr (crp_alpha s)) m) ts) = (count_of data' + qr (crp_alpha s))%R.
Proof.
  intros s rid m D I MP data'. pose proof D as (_ & T & S & HP).
  destruct (crp_unobserve_data s rid D I) as (t0 & L & OC). fold data' in OC.
  pose proof (unobserve_dinv (DCrp s) rid D) as D'.
  assert (T' : typed KTable data').
  { unfold data'. cbn [dist_unobserve] in *. destruct (crp_unobserve s rid) as [s' r]. cbn [fst] in *. apply D'. }
  cbn [kind_of dist_suffstats hypers_pos] in *. pose proof S as (SN & CND & H).
  set (data := dist_data (DCrp s)) in *.
  assert (O : occupied data t0).
  { exists rid. unfold data. cbn [dist_data]. apply in_map_iff. exists (rid, t0). split; [reflexivity|].
    apply lookup_In. assumption. }
  apply occ_pos in O.
  assert (LC : lookup t0 (crp_counts s) = Some (occurrences t0 data)) by (apply H; auto).
  set (m_aux := if occurrences t0 data =? 1 then m - 1 else m).
  assert (SG : crp_is_singleton s rid = Ok (occurrences t0 data =? 1)).
  { unfold crp_is_singleton. rewrite L. unfold dget. rewrite LC. reflexivity. }
  destruct (zsort (keys (crp_counts s))) as [|k ks] eqn:ZK.
  { exfalso. assert (X : In t0 (keys (crp_counts s))) by (eapply lookup_Some_keys; eassumption).
    apply zsort_In in X. rewrite ZK in X. destruct X. }
  set (K := k :: ks) in *.
  assert (KIn : forall t, In t K <-> 0 < occurrences t data).
  { intros t. rewrite <- ZK, zsort_In, (counts_keys _ _ _ S), occ_pos. reflexivity. }
  assert (KND : NoDup K).
  { rewrite <- ZK. apply (Permutation_NoDup (Permutation_sym (zsort_perm _))). assumption. }
  set (aux := map (fun j => zmax k ks + 1 + j) (zrange (Z.to_nat m_aux))).
  assert (MX : forall t, In t K -> t <= zmax k ks).
  { intros t X. destruct (zmax_ge ks k) as [A B]. destruct X as [<-|X]; [assumption|auto]. }
  assert (TS : crp_gibbs_tables s rid m = Ok (K ++ aux)).
  { unfold crp_gibbs_tables. rewrite (proj2 (Z.ltb_lt 0 m) MP). cbn [oassert obind]. rewrite SG. cbn [obind].
    rewrite ZK. fold m_aux. destruct (Z.leb_spec m_aux 0) as [ML|ML].
    - unfold aux. replace (Z.to_nat m_aux) with 0%nat by lia. cbn. rewrite app_nil_r. reflexivity.
    - reflexivity. }
  exists (K ++ aux). split; [assumption|].
  assert (AUX : forall t, In t aux -> occurrences t data = 0 /\ t <> t0).
  { intros t X. apply in_map_iff in X. destruct X as [j [<- X]]. apply zrange_In in X.
    split.
    - destruct (Z.le_gt_cases (occurrences (zmax k ks + 1 + j) data) 0) as [A|A].
      + pose proof (occ_nonneg (zmax k ks + 1 + j) data). lia.
      + apply KIn in A. apply MX in A. lia.
    - apply KIn in O. apply MX in O. lia. }
  assert (TND : NoDup (K ++ aux)) by (apply app_sorted_shift; assumption).
  assert (IN' : forall t, occupied data' t -> In t (K ++ aux)).
  { intros t X. apply occ_pos in X. rewrite OC in X. apply in_app_iff. left. apply KIn.
    destruct (t =? t0); lia. }
  assert (FL : List.length (filter (fun t => negb (0 <? occurrences t data')) (K ++ aux)) = Z.to_nat m).
  { rewrite filter_app, app_length.
    assert (FA : filter (fun t => negb (0 <? occurrences t data')) aux = aux).
    { apply filter_all. intros t X. apply AUX in X. destruct X as [A B].
      rewrite OC, A. destruct (Z.eqb_spec t t0); [contradiction|]. reflexivity. }
    rewrite FA. unfold aux. rewrite map_length, zrange_length. unfold m_aux.
    destruct (Z.eqb_spec (occurrences t0 data) 1) as [O1|O1].
    - rewrite (filter_single K _ t0); [cbn [List.length]; lia|assumption|apply KIn; assumption|].
      intros y Y. apply KIn in Y. rewrite OC, negb_true_iff, Z.ltb_ge.
      destruct (Z.eqb_spec y t0) as [->|n]; [split; [reflexivity|lia]|split; [lia|congruence]].
    - assert (FK : filter (fun t => negb (0 <? occurrences t data')) K = []).
      { assert (G : forall l, (forall t, In t l -> 0 < occurrences t data') ->
          filter (fun t => negb (0 <? occurrences t data')) l = []).
        { induction l as [|y l IH]; intros Y; [reflexivity|]. cbn [filter].
          rewrite (proj2 (Z.ltb_lt _ _) (Y y (or_introl eq_refl))). cbn [negb]. apply IH.
          intros t X. apply Y. right. assumption. }
        apply G. intros t X. apply KIn in X. rewrite OC. destruct (Z.eqb_spec t t0) as [->|n]; lia. }
      rewrite FK. reflexivity. }
  split; [|split; [assumption|split; [assumption|split; [assumption|]]]].
  - unfold crp_gibbs_logps.
    assert (DM : dmem rid (crp_data s) = true) by (unfold dmem; rewrite L; reflexivity).
    rewrite DM, (proj2 (Z.ltb_lt 0 m) MP). cbn [oassert obind]. rewrite SG. cbn [obind].
    unfold dget at 1. rewrite L. cbn [obind]. unfold dget at 1. rewrite LC. cbn [obind]. rewrite TS. cbn [obind].
    apply oseq_map_ok. intros t X.
    assert (MZ : qz m <> 0%Qc) by (rewrite <- qz_0; intros E; apply qz_inj in E; lia).
    assert (QA : qr (crp_alpha s / qz m)%Qc = (qr (crp_alpha s) / IZR m)%R).
    { rewrite qr_div, qr_qz by assumption. reflexivity. }
    assert (AP : (0 < qr (crp_alpha s) / IZR m)%R).
    { apply Rdiv_lt_0_compat; [assumption|]. apply IZR_lt. assumption. }
    unfold seat_weight. rewrite OC. destruct (Z.eqb_spec t t0) as [->|n].
    + destruct (Z.eqb_spec (occurrences t0 data) 1) as [E|E].
      * rewrite E. cbn. rewrite pylog_ok by (rewrite QA; assumption). cbn. rewrite QA. reflexivity.
      * destruct (Z.ltb_spec 0 (occurrences t0 data - 1)) as [Y|Y]; [|lia].
        rewrite pylog_ok by (rewrite qr_qz; apply IZR_lt; lia). cbn [omap]. rewrite qr_qz. reflexivity.
    + rewrite Z.sub_0_r. destruct (lookup t (crp_counts s)) as [c|] eqn:C.
      * apply H in C. destruct C as [-> C]. rewrite (proj2 (Z.ltb_lt _ _) C).
        rewrite pylog_ok by (rewrite qr_qz; apply IZR_lt; lia). cbn [omap]. rewrite qr_qz. reflexivity.
      * destruct (Z.ltb_spec 0 (occurrences t data)) as [Y|Y].
        -- assert (lookup t (crp_counts s) = Some (occurrences t data)) by (apply H; auto). congruence.
        -- rewrite pylog_ok by (rewrite QA; assumption). cbn [omap]. rewrite QA. reflexivity.
  - unfold seat_weight. rewrite (rsum_split (fun t => 0 <? occurrences t data')).
    rewrite FL. rewrite (rsum_ext _ (fun t => IZR (occurrences t data'))) by (intros; apply occ_if).
    rewrite rsum_occ.
    + rewrite INR_IZR_INZ, Z2Nat.id by lia. field. apply not_0_IZR. lia.
    + assumption.
    + intros q X. apply In_cells in X. destruct X as [r X]. destruct (T' r _ X) as [t [-> _]].
      exists t. split; [|reflexivity]. apply IN'. exists r. exact X.
Qed.

(** ** C14 *)

Lemma dget_ok : forall {V} k (h : dict string V) v, dget k h = Ok v -> lookup k h = Some v.
Proof. intros V k h v. unfold dget. destruct (lookup k h); congruence. Qed.

Lemma dget_err : forall {V} k (h : dict string V) e, dget k h = Err e -> e = KeyError.
Proof. intros V k h e. unfold dget. destruct (lookup k h); congruence. Qed.

Lemma set_hypers_contract : forall d h,
  let d' := fst (dist_set_hypers d h) in
  (good_hypers d h <-> snd (dist_set_hypers d h) = Ok tt) /\
  dist_data d' = dist_data d /\ dist_suffstats d' = dist_suffstats d /\
  match snd (dist_set_hypers d h) with
  | Ok _ => forall k, In k (hyper_names d) -> lookup k (dist_get_hypers d') = lookup k h
  | Err e => d' = d /\ (e = AssertionError \/ e = KeyError)
  end.
Proof.
  intros d h d'. subst d'.
  pose proof (set_hypers_frame d h) as (_ & _ & FD & FS & _). cbn zeta in *.
  split; [|split; [exact FD|split; [exact FS|]]]; clear FD FS.
  - split.
    + intros [A B].
      destruct d as [s|s|s|s|s|s]; cbn [hyper_names positive_names dist_set_hypers] in *;
      repeat match goal with
      | |- context [hpos ?k h] =>
          let v := fresh "v" in let E := fresh "E" in
          destruct (A k) as [v E]; [cbn [In]; tauto|];
          rewrite (hpos_intro k h v E (B k v ltac:(cbn [In]; tauto) E)); cbn [obind]
      | |- context [dget ?k h] =>
          let v := fresh "v" in let E := fresh "E" in
          destruct (A k) as [v E]; [cbn [In]; tauto|]; rewrite (dget_some k h v E); cbn [obind]
      end; reflexivity.
    + intros O. unfold good_hypers.
      destruct d as [s|s|s|s|s|s]; cbn [hyper_names positive_names dist_set_hypers] in *;
      revert O; hyp_cases; cbn [snd]; intros O; try discriminate O;
      repeat match goal with H : dget _ _ = Ok _ |- _ => apply dget_ok in H end;
      (split; [intros k I; cbn [In] in I; intuition (subst; eauto)
              |intros k v' I LK; cbn [In] in I; intuition (subst; congruence)]).
  - destruct d as [s|s|s|s|s|s]; cbn [hyper_names dist_set_hypers];
      hyp_cases; cbn [fst snd];
      repeat match goal with H : dget _ _ = Ok _ |- _ => apply dget_ok in H end;
      try (split; [reflexivity|];
           repeat match goal with
           | H : hpos _ _ = Err _ |- _ => apply hpos_err in H; intuition
           | H : dget _ _ = Err _ |- _ => apply dget_err in H; subst; auto
           end; fail);
      intros k I; cbn [In] in I; repeat (destruct I as [<-|I]; [cbn [dist_get_hypers nuc_hypers];
        rewrite ?lookup_dset; cbn; congruence|]); destruct I.
Qed.

(** ** C03 over histories *)

Lemma history_refines : forall calls d, dinv d ->
  spec_run (kind_of d) (dist_o d) (dist_data d) calls (dist_data (fold_left after calls d)).
Proof.
  induction calls as [|c calls IH]; intros d D; cbn [fold_left]; [constructor|].
  assert (FR : kind_of (after d c) = kind_of d /\ dist_o (after d c) = dist_o d).
  { destruct c; cbn [after].
    - pose proof (observe_frame d rid obs I) as F. cbn zeta in F. tauto.
    - pose proof (unobserve_frame d rid) as F. cbn zeta in F. tauto.
    - pose proof (set_hypers_frame d h) as F. cbn zeta in F. tauto.
    - pose proof (set_params_frame d p) as F. cbn zeta in F. tauto. }
  destruct FR as [FK FO].
  econstructor.
  - instantiate (1 := dist_data (after d c)). destruct c; cbn [spec_step after].
    + eexists. apply (observe_refines d rid obs I D).
    + eexists. apply (unobserve_refines d rid D).
    + apply (set_hypers_frame d h).
    + apply (set_params_frame d p).
  - rewrite <- FK, <- FO. apply IH. apply after_dinv. assumption.
Qed.

(** ** Statements over reachable states *)

Lemma suffstats_recomputed : forall d, reachable d ->
  NoDup (keys (dist_data d)) /\ stats_of_data (kind_of d) (dist_data d) (dist_suffstats d).
Proof. intros d H. apply reachable_dinv in H. destruct H as (A & _ & B & _). auto. Qed.

Lemma observe_then_unobserve : forall d rid obs ins d', reachable d ->
  dist_observe d rid obs ins = (d', Ok tt) ->
  exists x, obs = [(dist_o d, x)] /\
    dist_unobserve d' rid = (d, Ok ([(dist_o d, stored (kind_of d) x)], [])).
Proof. intros d rid obs ins d' H. apply unobserve_observe. apply reachable_dinv. assumption. Qed.

Lemma observe_table : forall d rid obs ins d' res, reachable d ->
  dist_observe d rid obs ins = (d', res) ->
  spec_observe (kind_of d) (dist_o d) (dist_data d) rid obs ins (dist_data d') res /\
  (forall e, res = Err e -> d' = d).
Proof.
  intros d rid obs ins d' res H E. apply reachable_dinv in H.
  pose proof (observe_refines d rid obs ins H) as [A B]. rewrite E in *. split; assumption.
Qed.

Lemma unobserve_table : forall d rid d' res, reachable d ->
  dist_unobserve d rid = (d', res) ->
  spec_unobserve (dist_o d) (dist_data d) rid (dist_data d') res /\
  (forall e, res = Err e -> d' = d).
Proof.
  intros d rid d' res H E. apply reachable_dinv in H.
  pose proof (unobserve_refines d rid H) as A. unfold unobs_refines in A. rewrite E in A. cbn zeta in A. tauto.
Qed.

Lemma fresh_data : forall d, fresh d -> dist_data d = [].
Proof.
  intros d F. destruct F; try reflexivity.
  - unfold poi_new in H. apply obind_ok in H. destruct H as [u [A H]].
    apply obind_ok in H. destruct H as [u' [B H]]. injection H as <-. reflexivity.
  - unfold nrm_new in H. apply obind_ok in H. destruct H as [u [A H]].
    apply obind_ok in H. destruct H as [u' [B H]]. apply obind_ok in H. destruct H as [u'' [C H]].
    injection H as <-. reflexivity.
  - unfold nuc_new in H. apply obind_ok in H. destruct H as [u [A H]]. injection H as <-. reflexivity.
Qed.

Lemma history_table : forall d0 calls, fresh d0 ->
  spec_run (kind_of d0) (dist_o d0) [] calls (dist_data (fold_left after calls d0)).
Proof.
  intros d0 calls F. rewrite <- (fresh_data d0 F) at 1. apply history_refines. apply fresh_dinv. assumption.
Qed.

Lemma exchangeable_states : forall d1 d2, reachable d1 -> reachable d2 ->
  settings d1 = settings d2 -> Permutation (dist_data d1) (dist_data d2) ->
  same_stats (dist_suffstats d1) (dist_suffstats d2) /\ same_answers d1 d2.
Proof. intros d1 d2 A B. apply exchangeable; apply reachable_dinv; assumption. Qed.

Lemma score_one_step : forall d rid x d', reachable d ->
  dist_observe d rid [(dist_o d, x)] [] = (d', Ok tt) ->
  exists r l, dist_score d = Ok (Fin r) /\ dist_score d' = Ok (Fin (r + l)%R) /\
    match x with
    | VNan => l = 0%R
    | VQ _ => dist_logpdf d (Some rid) [(dist_o d, x)] [] [] = Ok (Fin l)
    end.
Proof.
  intros d rid x d' H E. exact (score_step d rid x d' (reachable_dinv _ H) E).
Qed.

Lemma score_chain_rule : forall d d0 rows d1 r, reachable d -> fresh d0 ->
  predicted d0 rows d1 r -> settings d1 = settings d -> Permutation (dist_data d1) (dist_data d) ->
  dist_score d = Ok (Fin r).
Proof.
  intros d d0 rows d1 r A F P SE PM.
  pose proof (predicted_dinv _ _ _ _ P (fresh_dinv _ F)) as D1.
  pose proof (predicted_score _ _ _ _ P (fresh_dinv _ F) 0%R (score_fresh _ F)) as S1.
  rewrite Rplus_0_l in S1. rewrite <- S1.
  destruct (exchangeable d1 d D1 (reachable_dinv _ A) SE PM) as [_ (_ & _ & E & _)]. symmetry. exact E.
Qed.

Lemma predicted_example : exists r d1,
  predicted (DCrp (crp_new 7 (Q2Qc (1 # 2)))) [(2, vz 0); (3, vz 1); (0, vz 2)] d1 r.
Proof.
  assert (HP : (0 < qr (Q2Qc (1 # 2)))%R) by (unfold qr; cbn; unfold Q2R; cbn; lra).
  set (d0 := DCrp (crp_new 7 (Q2Qc (1 # 2)))).
  assert (G : forall rows d, dinv d ->
    snd (fold_left (fun (acc : dist * bool) (p : Z * val) =>
       let r := dist_observe (fst acc) (fst p) [(dist_o (fst acc), snd p)] [] in
       (fst r, snd acc && is_ok (snd r))) rows (d, true)) = true -> exists r d1, predicted d rows d1 r).
  { induction rows as [|[rid x] rows IH]; intros d D E.
    - exists 0%R, d. constructor.
    - cbn [fold_left fst snd] in E.
      pose proof (observe_dinv d rid [(dist_o d, x)] [] D) as D'.
      destruct (dist_observe d rid [(dist_o d, x)] []) as [d' [[]|e]] eqn:O; cbn [fst is_ok andb] in *.
      + destruct (IH d' D') as [r [d1 P]]; [exact E|].
        destruct (score_step d rid x d' D O) as (r0 & l & _ & _ & L). destruct x as [|q].
        * exists r, d1. eapply predicted_missing; eassumption.
        * exists (l + r)%R, d1. eapply predicted_value; eassumption.
      + exfalso. clear - E. revert E. generalize d'. clear d'.
        induction rows as [|p rows IH]; intros d' E; cbn [fold_left snd] in E; [discriminate|].
        cbn [andb] in E. eauto. }
  apply G; [apply fresh_dinv; apply fresh_crp; assumption|]. vm_compute. reflexivity.
Qed.

Lemma discrete_normalised : forall d K rid, reachable d -> unrecorded rid (dist_data d) ->
  dist_support d = Ok K ->
  exists ls, oseq (map (fun z => dist_logpdf d rid [(dist_o d, vz z)] [] []) K) = Ok ls /\
    Forall (fun l => exists r, l = Fin r) ls /\ rsum (map xexp ls) = 1%R.
Proof. intros d K rid H. apply support_normalised. apply reachable_dinv. assumption. Qed.

Lemma poisson_predictive_normalised : forall s rid, reachable (DPoi s) -> unrecorded rid (dist_data (DPoi s)) ->
  exists f : nat -> R,
    (forall n, dist_logpdf (DPoi s) rid [(dist_o (DPoi s), vz (Z.of_nat n))] [] [] = Ok (Fin (f n))) /\
    infinite_sum (fun n => exp (f n)) 1.
Proof. intros s rid H. apply poisson_normalised. apply reachable_dinv. assumption. Qed.

Lemma normal_student_t : forall s rid q, reachable (DNrm s) -> unrecorded rid (dist_data (DNrm s)) ->
  let xs := map qr (cells (dist_data (DNrm s))) in
  let n := INR (List.length xs) in
  let m := qr (nrm_m s) in let r := qr (nrm_r s) in
  let scale := post_scale m r (qr (nrm_s s)) xs in
  let nu := (qr (nrm_nu s) + n)%R in
  (0 < qr (nrm_s s) <= scale)%R /\
  qr (post_s (nrm_posterior (nrm_N s) (nrm_sum s) (nrm_sumsq s) (nrm_m s) (nrm_r s) (nrm_s s) (nrm_nu s)))
    = scale /\
  (exists l, dist_logpdf (DNrm s) rid [(dist_o (DNrm s), VQ q)] [] [] = Ok (Fin l) /\
     exp l = student_t nu (post_loc m r xs) (scale * (r + n + 1) / ((r + n) * nu)) (qr q)) /\
  (exists l, dist_score (DNrm s) = Ok (Fin l)).
Proof.
  intros s rid q H U xs n m r scale nu. apply reachable_dinv in H. pose proof H as (_ & _ & S & HR & HS & HU).
  cbn [kind_of dist_suffstats] in S. destruct S as (SN & SS & SQ).
  split; [split; [assumption|apply post_scale_ge; assumption]|split; [|split]].
  - apply (nrm_posterior_spec _ _ _ (nrm_m s) (nrm_r s) (nrm_s s) (nrm_nu s) _ HR HS SN SS SQ).
  - pose proof (logpdf_density (DNrm s) rid q H U) as L.
    assert (P : (0 < prim_density (DNrm s) q)%R) by (apply density_pos; [assumption|exact Logic.I]).
    rewrite xlog_pos in L by assumption. eexists. split; [exact L|]. rewrite exp_ln by assumption.
    cbn [prim_density]. unfold count_of. rewrite <- (map_length qr). reflexivity.
  - apply score_fin. assumption.
Qed.

Lemma logpdf_is_log_density : forall d rid q, reachable d -> unrecorded rid (dist_data d) ->
  dist_logpdf d rid [(dist_o d, VQ q)] [] [] = Ok (xlog (prim_density d q)) /\
  (0 <= prim_density d q)%R.
Proof.
  intros d rid q H U. apply reachable_dinv in H. split; [apply logpdf_density; assumption|].
  apply density_nonneg. assumption.
Qed.

Lemma neginf_rejected : forall d rid q, reachable d -> ~ In rid (keys (dist_data d)) ->
  match snd (dist_observe d rid [(dist_o d, VQ q)] []) with
  | Ok _ => exists l, dist_logpdf d (Some rid) [(dist_o d, VQ q)] [] [] = Ok (Fin l)
  | Err _ => dist_logpdf d (Some rid) [(dist_o d, VQ q)] [] [] = Ok NInf
  end.
Proof. intros d rid q H. apply neginf_iff_rejected. apply reachable_dinv. assumption. Qed.

Lemma missing_is_neutral : forall d rid d', reachable d ->
  dist_observe d rid [(dist_o d, VNan)] [] = (d', Ok tt) ->
  dist_suffstats d' = dist_suffstats d /\ dist_score d' = dist_score d /\
  dist_support d' = dist_support d /\ settings d' = settings d /\ dist_o d' = dist_o d /\
  forall rid' T C ins, rid' <> Some rid -> dist_logpdf d' rid' T C ins = dist_logpdf d rid' T C ins.
Proof. intros d rid d' H. apply missing_neutral. apply reachable_dinv. assumption. Qed.

Lemma missing_logpdf_zero : forall d rid, reachable d -> unrecorded rid (dist_data d) ->
  match d with DCat _ | DNrm _ | DNuc _ => True | _ => False end ->
  dist_logpdf d rid [(dist_o d, VNan)] [] [] = Ok (Fin 0%R).
Proof.
  intros d rid H U K. rewrite (missing_logpdf d rid (reachable_dinv _ H) U). destruct d; tauto || reflexivity.
Qed.

Lemma missing_logpdf_neginf : forall d rid, reachable d -> ~ In rid (keys (dist_data d)) ->
  match d with DBer _ | DPoi _ => True | _ => False end ->
  snd (dist_observe d rid [(dist_o d, VNan)] []) = Ok tt /\
  dist_logpdf d (Some rid) [(dist_o d, VNan)] [] [] = Ok NInf.
Proof.
  intros d rid H U K. apply reachable_dinv in H. split.
  - apply accepted_iff; [assumption|assumption|]. destruct d; destruct K; exact Logic.I.
  - rewrite (missing_logpdf d (Some rid) H U). destruct d; tauto || reflexivity.
Qed.

Lemma crp_support_shape : forall s, reachable (DCrp s) ->
  let data := dist_data (DCrp s) in
  exists K free, dist_support (DCrp s) = Ok K /\ StronglySorted Z.lt K /\
    next_table data free /\ ~ occupied data free /\
    (forall t, In t K <-> occupied data t \/ t = free) /\
    (forall t, In t K -> 0 <= t) /\
    (forall t rid, In t K -> ~ In rid (keys data) ->
       snd (dist_observe (DCrp s) rid [(dist_o (DCrp s), vz t)] []) = Ok tt).
Proof.
  intros s H data. apply reachable_dinv in H. pose proof H as (_ & T & S & _). cbn [kind_of] in T.
  exists (crp_support s), (first_free data). split; [reflexivity|].
  split; [apply crp_support_sorted; assumption|].
  split; [apply first_free_next; [assumption|reflexivity]|].
  split; [apply first_free_unoccupied; assumption|].
  split; [intros; apply crp_support_In; assumption|].
  split.
  - intros t I. apply (crp_support_spec s S T t) in I. destruct I as [O|O].
    + eapply occupied_pos; eassumption.
    + eapply next_table_pos; eassumption.
  - intros t rid I NI. apply accepted_iff; [assumption|assumption|].
    cbn [kind_of in_domain]. unfold vz. rewrite trunc_qz. apply (crp_support_spec s S T t). assumption.
Qed.

Lemma crp_ewens : forall s, reachable (DCrp s) ->
  let a := qr (crp_alpha s) in
  let blocks := block_sizes (dist_data (DCrp s)) in
  exists r, dist_score (DCrp s) = Ok (Fin r) /\
  exp r = (a ^ List.length blocks * rprod (map (fun n => INR (fact (Z.to_nat (n - 1)))) blocks)
           / rising a (List.length (dist_data (DCrp s))))%R.
Proof. intros s H. apply crp_eppf. apply reachable_dinv. assumption. Qed.

Lemma crp_relabelling : forall s1 s2, reachable (DCrp s1) -> reachable (DCrp s2) ->
  crp_alpha s1 = crp_alpha s2 ->
  Permutation (block_sizes (dist_data (DCrp s1))) (block_sizes (dist_data (DCrp s2))) ->
  dist_score (DCrp s1) = dist_score (DCrp s2).
Proof.
  intros s1 s2 H1 H2 EA P. apply reachable_dinv in H1, H2.
  pose proof (counts_block_sizes s1 H1) as P1. pose proof (counts_block_sizes s2 H2) as P2.
  assert (PV : Permutation (values (crp_counts s1)) (values (crp_counts s2))).
  { rewrite P1, P2. assumption. }
  destruct H1 as (_ & T1 & S1 & _). destruct H2 as (_ & T2 & S2 & _). cbn [kind_of dist_suffstats] in *.
  pose proof (counts_sum _ _ _ T1 S1) as N1. pose proof (counts_sum _ _ _ T2 S2) as N2.
  cbn [dist_score]. unfold crp_score, crp_marginal.
  rewrite <- N1, <- N2, EA, (Permutation_length PV), (zsum_perm _ _ PV),
    (rsum_perm _ _ (Permutation_map (fun c => lgamma (IZR c)) PV)). reflexivity.
Qed.

Lemma gibbs_weights : forall s rid m, reachable (DCrp s) -> In rid (keys (dist_data (DCrp s))) ->
  0 < m ->
  let data' := dist_data (fst (dist_unobserve (DCrp s) rid)) in
  exists ts,
    crp_gibbs_tables s rid m = Ok ts /\
    crp_gibbs_logps s rid m
      = Ok (map (fun t => Fin (ln (seat_weight data' (qr (crp_alpha s)) m t))) ts) /\
    NoDup ts /\ (forall t, occupied data' t -> In t ts) /\
    List.length (filter (fun t => negb (0 <? occurrences t data')) ts) = Z.to_nat m /\
    rsum (map (seat_weight data' (qr (crp_alpha s)) m) ts) = (count_of data' + qr (crp_alpha s))%R.
Proof. intros s rid m H. apply crp_gibbs. apply reachable_dinv. assumption. Qed.

Lemma spec_unobserve_gone : forall o data rid data' res, spec_unobserve o data rid data' res ->
  NoDup (keys data) -> ~ In rid (keys data').
Proof.
  intros o data rid data' res A ND. destruct A as [X|l1 l2 x E]; [assumption|].
  rewrite E in ND. unfold keys in *. rewrite map_app in *. cbn [map fst] in *.
  apply NoDup_remove_2 in ND. assumption.
Qed.

Lemma gibbs_predictive : forall s rid s' t m, reachable (DCrp s) ->
  fst (dist_unobserve (DCrp s) rid) = DCrp s' -> 0 < m ->
  let data' := dist_data (DCrp s') in
  let total := (count_of data' + qr (crp_alpha s))%R in
  (occupied data' t -> dist_logpdf (DCrp s') (Some rid) [(dist_o (DCrp s'), vz t)] [] []
     = Ok (Fin (ln (seat_weight data' (qr (crp_alpha s)) m t / total)))) /\
  (next_table data' t -> dist_logpdf (DCrp s') (Some rid) [(dist_o (DCrp s'), vz t)] [] []
     = Ok (Fin (ln (IZR m * seat_weight data' (qr (crp_alpha s)) m t / total)))).
Proof.
  intros s rid s' t m H E MP data' total. apply reachable_dinv in H.
  pose proof (unobserve_dinv (DCrp s) rid H) as D'. rewrite E in D'.
  pose proof (unobserve_refines (DCrp s) rid H) as A. unfold unobs_refines in A. cbn zeta in A.
  rewrite E in A. destruct A as [A _].
  pose proof (unobserve_frame (DCrp s) rid) as (_ & _ & FH & _). rewrite E in FH.
  cbn [dist_get_hypers] in FH. injection FH as EA.
  assert (U : unrecorded (Some rid) data').
  { destruct H as (ND & _). exact (spec_unobserve_gone _ _ _ _ _ A ND). }
  pose proof D' as (_ & T' & _ & HP). cbn [kind_of hypers_pos] in *.
  pose proof (logpdf_density (DCrp s') (Some rid) (qz t) D' U) as L. unfold vz. rewrite L.
  pose proof (count_of_nonneg data') as CN.
  assert (P : forall q, (0 < prim_density (DCrp s') q)%R <-> in_domain KTable data' (VQ q)).
  { intros q. apply (density_pos (DCrp s') q D'). }
  specialize (P (qz t)). cbn [in_domain] in P. rewrite trunc_qz in P.
  split; intros O.
  - rewrite xlog_pos by (apply P; auto). do 3 f_equal. cbn [prim_density]. rewrite trunc_qz.
    apply occ_pos in O. fold data'. unfold seat_weight. rewrite (proj2 (Z.ltb_lt _ _) O).
    unfold total. rewrite EA. reflexivity.
  - rewrite xlog_pos by (apply P; auto). do 3 f_equal. cbn [prim_density]. rewrite trunc_qz. fold data'.
    apply first_free_next in O; [|assumption]. subst t.
    pose proof (first_free_unoccupied _ T') as NO. rewrite <- occ_pos in NO. fold data' in NO.
    unfold seat_weight. destruct (Z.ltb_spec 0 (occurrences (first_free data') data')) as [X|_]; [contradiction|].
    rewrite Z.eqb_refl. unfold total. rewrite EA. rewrite EA in HP. field. split; [|lra]. apply not_0_IZR. lia.
Qed.

Lemma set_hypers_spec : forall d h d' res, dist_set_hypers d h = (d', res) ->
  (good_hypers d h <-> res = Ok tt) /\
  dist_data d' = dist_data d /\ dist_suffstats d' = dist_suffstats d /\
  match res with
  | Ok _ => forall k, In k (hyper_names d) -> lookup k (dist_get_hypers d') = lookup k h
  | Err e => d' = d /\ (e = AssertionError \/ e = KeyError)
  end.
Proof.
  intros d h d' res E. pose proof (set_hypers_contract d h) as C. rewrite E in C. exact C.
Qed.
