(** Proof of C74, continued: the estimates of entropy and mutual information. *)
From Coq Require Import List ZArith QArith Qcanon Reals Bool String Permutation Lia Lra FunctionalExtensionality.
From Verif Require Import Base Xr Samp Lgamma Prims Cgpm Entropy Lib SpecPrims PrimsInv PrimsDens PrimsThm PrimsThm2
  SpecComp CompInv CompDens CompThm SpecSim SimShape SimLaw SimTotal ChainLaw.
From Verif Require Import SpecEntropy EntropyThm SpecMany ManyLaw ManyLaw2 ManyLaw3 ManyLaw4 ManyLaw5 ManyLaw6.
From Verif Require AliasThm Gibbs.
Import ListNotations.
Local Open Scope Z_scope.

Lemma askable_ready : forall m ts C, askable m ts C -> discrete m ts ->
  ready m None ts C /\ ts <> [] /\ (forall k, In k ts -> In k (outputs m)) /\ (forall k, In k (keys C) -> In k (outputs m)).
Proof.
  intros m ts C (NE & NT & ST & NC & SC & LB & SD & P) DI. split; [|repeat split; auto; intros k Hk; apply ST; exact Hk].
  split; [apply Gibbs.unknown_none|]. split; [exact LB|]. split; [exact NC|]. split; [exact NT|]. split; [intros k Hk; apply ST; exact Hk|].
  split; [exact SD|]. split; [exact P|exact DI].
Qed.

(** The density of the cells of some of the columns is no smaller. *)
Lemma cells_pos : forall m t0 t1 C T, wf m -> askable m (t0 ++ t1) C -> discrete m (t0 ++ t1) -> Permutation (keys T) (t0 ++ t1) ->
  labelled m (T ++ C) -> (0 < dens m (T ++ C))%R ->
  (0 < dens m (at_columns t0 T ++ C))%R /\ (0 < dens m (at_columns t1 T ++ C))%R.
Proof.
  intros m t0 t1 C T W (NE & NT & ST & NC & SC & LB & SD & P) DI PM LT PT.
  assert (NT0 : NoDup t0) by (eapply AliasThm.NoDup_app_l; eauto).
  assert (NT1 : NoDup t1) by (eapply AliasThm.NoDup_app_r; eauto).
  assert (KS : forall k, In k (keys T) <-> In k (t0 ++ t1)) by (intros k; split; apply Permutation_in; [|apply Permutation_sym]; exact PM).
  assert (S0 : forall k, In k t0 -> In k (keys T)) by (intros; apply KS, in_or_app; auto).
  assert (S1 : forall k, In k t1 -> In k (keys T)) by (intros; apply KS, in_or_app; auto).
  assert (DJ : forall k, In k t0 -> ~ In k t1) by (intros k H1 H2; eapply NoDup_app_disj; eauto).
  assert (L0 : forall k, lookup k (at_columns t0 T) = if memb k t0 then lookup k T else None) by (intros; apply lookup_cells; auto).
  assert (L1 : forall k, lookup k (at_columns t1 T) = if memb k t1 then lookup k T else None) by (intros; apply lookup_cells; auto).
  assert (OFF : forall k, memb k t0 = false -> memb k t1 = false -> lookup k T = None).
  { intros k M0 M1. apply lookup_None. intros Hk. apply KS in Hk. apply in_app_or in Hk.
    destruct Hk as [Hk|Hk]; apply memb_In in Hk; congruence. }
  assert (HALF : forall a b, (forall k, In k a -> ~ In k b) -> (forall k, In k (a ++ b) <-> In k (t0 ++ t1)) ->
    (forall k, lookup k (at_columns a T) = if memb k a then lookup k T else None) ->
    (forall k, lookup k (at_columns b T) = if memb k b then lookup k T else None) ->
    (forall k, memb k a = false -> memb k b = false -> lookup k T = None) -> (0 < dens m (at_columns a T ++ C))%R).
  { intros a b D AB La Lb OF.
    assert (E : forall k, lookup k (T ++ C) = lookup k (at_columns b T ++ (at_columns a T ++ C))).
    { intros k. rewrite !lookup_app, La, Lb. destruct (memb k b) eqn:Mb; destruct (memb k a) eqn:Ma.
      - destruct (lookup k T); reflexivity.
      - reflexivity.
      - reflexivity.
      - rewrite (OF k Ma Mb). reflexivity. }
    apply Rlt_le_trans with (1 := PT).
    rewrite (dens_ext m W (T ++ C) (at_columns b T ++ (at_columns a T ++ C))) by (intros; apply E).
    apply (dens_le m W (t0 ++ t1)); auto.
    - intros k _ Hk. rewrite Lb in Hk. destruct (memb k b) eqn:Mb; [|congruence]. apply AB, in_or_app. right. apply memb_In. exact Mb.
    - intros k _ Hk. rewrite Lb in Hk. destruct (memb k b) eqn:Mb; [|congruence]. apply memb_In in Mb. rewrite lookup_app, La.
      destruct (memb k a) eqn:Ma; [apply memb_In in Ma; exfalso; eapply D; eauto|].
      apply lookup_None. apply ST, AB, in_or_app. right. exact Mb.
    - revert LT. apply labelled_out; auto. }
  split; [apply (HALF t0 t1)|apply (HALF t1 t0)]; auto.
  - intros; reflexivity.
  - intros k H1 H2. eapply DJ; eauto.
  - intros k. rewrite !in_app_iff. tauto.
Qed.

(** The estimate is the mean of a sum over the samples. *)
Lemma estimator_mean : forall m ts C V n (est : list row -> out (list xr)) g, wf m -> view m \/ state m -> askable m ts C -> discrete m ts ->
  exhausts m ts C V -> n <> 0%nat -> additive m g ->
  (forall l, (forall s, In s l -> Permutation (keys s) ts /\ sample_ok m None C s) -> est l = Ok (map (fun s => Fin (g s)) l)) ->
  expect (sobind (sobind (simulate m None ts C [] (Some n)) (fun r => Ret (obind (samples_of r) est))) (fun l => Ret (Ok (get_estimate l)))) mean_of =
  rsum (map (fun T => prob m T C * g T)%R V).
Proof.
  intros m ts C V n est g W VS Q DI EX Hn AD E.
  destruct (askable_ready m ts C Q DI) as (RD & NE & S1 & S2).
  transitivity (expect (simulate m None ts C [] (Some n)) (fun r => / INR n * total g r)%R).
  - rewrite expect_sobind, expect_sobind. apply (expect_always _ _ _ _ (proj1 (ready_calm m None ts C n W RD NE S1 S2 Hn)) (query_samples m ts C n W Q Hn)).
    intros r (l & -> & LL & Hl). cbn [samples_of obind expect total]. rewrite (E l Hl). cbn [mean_of].
    assert (NR : map g l <> []) by (destruct l; [cbn in LL; congruence|discriminate]).
    destruct (estimate_fin (map g l) NR) as (v & EE & _). rewrite map_map in EE. cbn [expect mean_of]. rewrite EE. cbn [est_mean].
    unfold rmean. rewrite map_length. replace (List.length l) with n by (rewrite <- LL; reflexivity). reflexivity.
  - rewrite (expect_scale _ (total g)), (additive_mean m ts C V g W AD RD NE S1 S2 EX n Hn).
    rewrite <- Rmult_assoc, Rinv_l, Rmult_1_l; [reflexivity|]. apply not_0_INR. exact Hn.
Qed.

Lemma prob_dens : forall m ts C V T, wf m -> askable m ts C -> exhausts m ts C V -> In T V ->
  prob m T C = (dens m (T ++ C) / dens m C)%R /\ labelled m (T ++ C) /\ keys T = ts.
Proof.
  intros m ts C V T W (NE & NT & ST & NC & SC & LB & SD & P) (NV & HV & _) HT. destruct (HV T HT) as (ET & LT & NU).
  split; [|auto]. unfold prob. rewrite (model_density m None T C); auto.
  - rewrite xexp_xlog; [reflexivity|apply ratio_nonneg; auto].
  - apply Gibbs.unknown_none.
  - unfold disjoint_rows, keys. rewrite map_app. change (NoDup (keys T ++ keys C)). rewrite ET. apply AliasThm.NoDup_app_intro; auto.
    intros k Hk. apply ST. exact Hk.
  - intros ->. apply NE. symmetry. exact ET.
  - intros k Hk. unfold keys in Hk. rewrite map_app in Hk. apply in_app_or in Hk. destruct Hk as [Hk|Hk]; [|auto].
    apply ST. rewrite <- ET. exact Hk.
Qed.

Lemma entropy_unbiased : forall m t0 t1 C M T N V, wf m -> view m \/ state m -> askable m t0 (given_cells C) -> discrete m t0 ->
  (forall k, In k t0 <-> In k t1) -> M = None \/ M = Some [] -> exhausts m t0 (given_cells C) V ->
  expect (mutual_information m t0 t1 C M T N) mean_of = entropy m (given_cells C) V.
Proof.
  intros m t0 t1 C M T N V W VS Q DI ST01 HM EX. pose proof Q as (NE & NT & ST & NC & SC & LB & SD & P).
  unfold mutual_information. change (match C with Some C => C | None => [] end) with (given_cells C).
  replace (match M with Some M => M | None => [] end) with (@nil Z) by (destruct HM as [->| ->]; reflexivity).
  rewrite validate_ok.
  - unfold estimator, sample_entropy. rewrite (proj2 (same_set_spec t0 t1)) by exact ST01. set (C' := given_cells C) in *.
    rewrite (estimator_mean m t0 C' V (or_default N) (entropy_of m C') (fun s => -1 * logd m C' s)%R); auto using default_pos.
    + unfold entropy. transitivity (rsum (map (fun T => -1 * (prob m T C' * ln (prob m T C')))%R V)).
      * apply rsum_ext. intros S HS. destruct (prob_dens m t0 C' V S W Q EX HS) as (EP & LT & _). rewrite EP.
        destruct (dens_nonneg m W (S ++ C')) as [PP|PP].
        -- rewrite logd_ok by assumption. ring.
        -- rewrite <- PP. unfold Rdiv. rewrite !Rmult_0_l. ring.
      * rewrite rsum_scal. ring.
    + apply (additive_scale m (logd m C')). apply (additive_logd m C' (fun s => s) W VS). intros s s' cols L. exact L.
    + intros l Hl. unfold entropy_of, logps.
      rewrite (oseq_map_ok _ (fun s => Fin (logd m C' s))).
      * cbn [omap obind]. rewrite map_map. f_equal. apply map_ext. intros s. cbn [xneg]. f_equal. ring.
      * intros s Hs. destruct (Hl s Hs) as [PM SO]. destruct (sample_query m t0 C' s W Q PM SO) as (_ & Ps & _ & ->).
        rewrite logd_ok by assumption. f_equal. unfold xlog. destruct (Rlt_dec _ _) as [_|F]; [reflexivity|].
        exfalso. apply F. apply Rdiv_lt_0_compat; assumption.
  - intros k Hk. rewrite !in_app_iff in Hk. destruct Hk as [Hk|[Hk|[Hk|[]]]]; [apply ST; auto|apply ST, ST01; auto|]. apply SC. exact Hk.
  - intros k Hk. apply in_app_or in Hk. destruct Hk as [Hk|Hk]; [apply ST; exact Hk|apply ST, ST01, Hk].
  - intros k _ [].
  - intros k _ [].
  - left. exact ST01.
Qed.

Lemma information_unbiased : forall m t0 t1 C M T N V, wf m -> view m \/ state m -> askable m (t0 ++ t1) (given_cells C) ->
  discrete m (t0 ++ t1) -> t0 <> [] -> t1 <> [] -> M = None \/ M = Some [] -> exhausts m (t0 ++ t1) (given_cells C) V ->
  expect (mutual_information m t0 t1 C M T N) mean_of = information m t0 t1 (given_cells C) V.
Proof.
  intros m t0 t1 C M T N V W VS Q DI N0 N1 HM EX. pose proof Q as (NE & NT & ST & NC & SC & LB & SD & P).
  unfold mutual_information. change (match C with Some C => C | None => [] end) with (given_cells C).
  replace (match M with Some M => M | None => [] end) with (@nil Z) by (destruct HM as [->| ->]; reflexivity).
  assert (DJ : forall k, In k t0 -> ~ In k t1) by (intros k H1 H2; eapply NoDup_app_disj; eauto).
  assert (NT0 : NoDup t0) by (eapply AliasThm.NoDup_app_l; eauto).
  assert (NT1 : NoDup t1) by (eapply AliasThm.NoDup_app_r; eauto).
  rewrite validate_ok.
  - unfold estimator. destruct (same_set t0 t1) eqn:SS.
    { exfalso. rewrite same_set_spec in SS. destruct t0 as [|k t0]; [congruence|]. apply (DJ k); [now left|]. apply SS. now left. }
    unfold sample_mi. set (C' := given_cells C) in *.
    set (g := fun s => ((logd m C' s + -1 * logd m C' (at_columns t0 s)) + -1 * logd m C' (at_columns t1 s))%R).
    (* what is asked of the parts of a value *)
    assert (PARTS : forall S, Permutation (keys S) (t0 ++ t1) -> labelled m (S ++ C') -> (0 < dens m (S ++ C'))%R ->
      logd m C' S = ln (dens m (S ++ C') / dens m C') /\
      logd m C' (at_columns t0 S) = ln (dens m (at_columns t0 S ++ C') / dens m C') /\
      logd m C' (at_columns t1 S) = ln (dens m (at_columns t1 S ++ C') / dens m C') /\
      (0 < dens m (at_columns t0 S ++ C') / dens m C')%R /\ (0 < dens m (at_columns t1 S ++ C') / dens m C')%R /\
      logpdf m None (at_columns t0 S) C' [] = Ok (Fin (logd m C' (at_columns t0 S))) /\
      logpdf m None (at_columns t1 S) C' [] = Ok (Fin (logd m C' (at_columns t1 S)))).
    { intros S PM LS PS. destruct (cells_pos m t0 t1 C' S W Q DI PM LS PS) as [P0 P1].
      assert (KS : forall k, In k (keys S) <-> In k (t0 ++ t1)) by (intros k; split; apply Permutation_in; [|apply Permutation_sym]; exact PM).
      assert (NDS : NoDup (keys S ++ keys C')).
      { apply AliasThm.NoDup_app_intro; auto; [eapply Permutation_NoDup; [apply Permutation_sym; exact PM|exact NT]|].
        intros k Hk. apply ST, KS. exact Hk. }
      assert (OUT : forall k, In k (keys S ++ keys C') -> In k (outputs m)).
      { intros k Hk. apply in_app_or in Hk. destruct Hk as [Hk|Hk]; [apply ST, KS, Hk|apply SC, Hk]. }
      rewrite !logd_ok by assumption.
      assert (R0 := Rdiv_lt_0_compat _ _ P0 P). assert (R1 := Rdiv_lt_0_compat _ _ P1 P).
      split; [reflexivity|]. split; [reflexivity|]. split; [reflexivity|]. split; [exact R0|]. split; [exact R1|].
      assert (XF : forall p, (0 < p)%R -> xlog p = Fin (ln p)).
      { intros p Hp. unfold xlog. destruct (Rlt_dec 0 p); [reflexivity|contradiction]. }
      rewrite <- (XF _ R0), <- (XF _ R1).
      split; (apply logpdf_cells; auto; intros k Hk; apply KS, in_or_app; auto). }
    rewrite (estimator_mean m (t0 ++ t1) C' V (or_default N) (mi_of m t0 t1 C') g); auto using default_pos.
    + unfold information. apply rsum_ext. intros S HS. destruct (prob_dens m (t0 ++ t1) C' V S W Q EX HS) as (EP & LT & KT).
      destruct (dens_nonneg m W (S ++ C')) as [PP|PP].
      * destruct (PARTS S) as (E1 & E2 & E3 & R0 & R1 & G0 & G1); auto; [rewrite KT; reflexivity|].
        unfold prob at 4 5. rewrite G0, G1. cbn [xexp]. unfold g. rewrite EP, E1, E2, E3.
        assert (RR := Rdiv_lt_0_compat _ _ PP P). rewrite !exp_ln by assumption.
        set (a := (dens m (S ++ C') / dens m C')%R) in *. set (b := (dens m (at_columns t0 S ++ C') / dens m C')%R) in *.
        set (d := (dens m (at_columns t1 S ++ C') / dens m C')%R) in *. unfold Rdiv at 1.
        rewrite ln_mult, ln_Rinv, ln_mult by (auto using Rmult_lt_0_compat, Rinv_0_lt_compat). ring.
      * rewrite EP, <- PP. unfold Rdiv. rewrite !Rmult_0_l. reflexivity.
    + unfold g. apply additive_plus; [apply additive_plus|].
      * apply (additive_logd m C' (fun s => s) W VS). intros s s' cols L. exact L.
      * apply (additive_scale m (fun s => logd m C' (at_columns t0 s))). apply (additive_logd m C' (at_columns t0) W VS). apply at_columns_reads.
      * apply (additive_scale m (fun s => logd m C' (at_columns t1 s))). apply (additive_logd m C' (at_columns t1) W VS). apply at_columns_reads.
    + intros l Hl.
      assert (HS : forall s, In s l -> (forall k, In k t0 -> In k (keys s)) /\ (forall k, In k t1 -> In k (keys s))).
      { intros s Hs. destruct (Hl s Hs) as [PM _]. split; intros k Hk; apply (Permutation_in _ (Permutation_sym PM)), in_or_app; auto. }
      unfold mi_of.
      rewrite (oseq_map_ok _ (at_columns t0)) by (intros s Hs; apply pick_ok; [exact NT0|apply HS; exact Hs]).
      cbn [obind]. rewrite (oseq_map_ok _ (at_columns t1)) by (intros s Hs; apply pick_ok; [exact NT1|apply HS; exact Hs]).
      cbn [obind]. unfold logps. rewrite !map_map.
      assert (EL : forall s, In s l -> logpdf m None s C' [] = Ok (Fin (logd m C' s)) /\
        logpdf m None (at_columns t0 s) C' [] = Ok (Fin (logd m C' (at_columns t0 s))) /\
        logpdf m None (at_columns t1 s) C' [] = Ok (Fin (logd m C' (at_columns t1 s)))).
      { intros s Hs. destruct (Hl s Hs) as [PM SO]. destruct (sample_query m (t0 ++ t1) C' s W Q PM SO) as (Ls & Ps & _ & ->).
        destruct (PARTS s PM Ls Ps) as (E1 & _ & _ & _ & _ & G0 & G1). split; [|auto]. rewrite E1.
        unfold xlog. destruct (Rlt_dec _ _) as [_|F]; [reflexivity|]. exfalso. apply F. apply Rdiv_lt_0_compat; assumption. }
      rewrite (oseq_map_ok _ (fun s => Fin (logd m C' s))) by (intros s Hs; apply EL; exact Hs).
      cbn [obind]. rewrite (oseq_map_ok _ (fun s => Fin (logd m C' (at_columns t0 s)))) by (intros s Hs; apply EL; exact Hs).
      cbn [obind]. rewrite (oseq_map_ok _ (fun s => Fin (logd m C' (at_columns t1 s)))) by (intros s Hs; apply EL; exact Hs).
      cbn [obind]. f_equal. clear. induction l as [|s l IH]; [reflexivity|]. cbn [map differences]. rewrite IH. f_equal.
      unfold g. cbn [xsub xadd xneg]. f_equal. ring.
  - intros k Hk. rewrite !in_app_iff in Hk. destruct Hk as [Hk|[Hk|[Hk|[]]]]; [apply ST, in_or_app; auto..|]. apply SC. exact Hk.
  - intros k Hk. apply ST. exact Hk.
  - intros k _ [].
  - intros k _ [].
  - right. exact DJ.
Qed.
