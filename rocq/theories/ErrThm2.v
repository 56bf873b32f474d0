(** Proof of C77, continued: the error of the estimates of entropy and mutual information. *)
From Coq Require Import List ZArith QArith Qcanon Reals Bool String Permutation Lia Lra FunctionalExtensionality.
From Verif Require Import Base Xr Samp Lgamma Prims Cgpm Entropy Lib SpecPrims PrimsInv PrimsDens PrimsThm PrimsThm2
  SpecComp CompInv CompDens CompThm SpecSim SimShape SimLaw SimTotal ChainLaw.
From Verif Require Import SpecEntropy EntropyThm SpecMany SpecError ManyLaw ManyLaw2 ManyLaw3 ManyLaw4 ManyLaw5 ManyLaw6 ManyLaw7 IidLaw ErrThm.
From Verif Require AliasThm Gibbs.
Import ListNotations.
Local Open Scope Z_scope.

(** What a call draws and what it makes of the samples: [g] of each. *)
Definition made_of (m : cgpm) (ts : list Z) (C : row) (n : nat) (q : samp (out estimate)) (g : row -> R) : Prop :=
  reads (outputs m) g /\ exists est : list row -> out (list xr),
    (forall l, (forall s, In s l -> Permutation (keys s) ts /\ sample_ok m None C s) -> est l = Ok (map (fun s => Fin (g s)) l)) /\
    q = sobind (sobind (simulate m None ts C [] (Some n)) (fun r => Ret (obind (samples_of r) est))) (fun l => Ret (Ok (get_estimate l))).

Lemma default_size : forall N, or_default N = sample_size N.
Proof. intros [[|n]|]; reflexivity. Qed.

Lemma size_pos : forall N, sample_size N <> 0%nat.
Proof. intros [[|n]|]; discriminate. Qed.

(** The values the sums are over, where a function only differs on those of probability 0. *)
Lemma mean_same : forall m C V g h, (forall T, In T V -> prob m T C = 0%R \/ g T = h T) -> mean_over m C V g = mean_over m C V h.
Proof. intros m C V g h H. unfold mean_over. apply rsum_ext. intros T HT. destruct (H T HT) as [-> | ->]; ring. Qed.

Lemma spread_same : forall m C V g h, (forall T, In T V -> prob m T C = 0%R \/ g T = h T) -> spread_over m C V g = spread_over m C V h.
Proof.
  intros m C V g h H. unfold spread_over. rewrite (mean_same m C V g h H). apply rsum_ext. intros T HT. destruct (H T HT) as [-> | ->]; ring.
Qed.

Lemma made_error : forall m ts C V n q g, wf m -> view m -> askable m ts C -> discrete m ts -> exhausts m ts C V -> n <> 0%nat ->
  made_of m ts C n q g ->
  expect q (squared_error (mean_over m C V g)) = (spread_over m C V g / INR n)%R /\
  expect q reported = ((INR n - 1) / INR n * (spread_over m C V g / INR n))%R.
Proof.
  intros m ts C V n q g W VW Q DI EX Hn (RD & est & HE & ->). split.
  - apply (error_is m ts C V g n W VW Q DI EX RD Hn est HE).
  - apply (reported_is m ts C V g n W VW Q DI EX RD Hn est HE).
Qed.

Lemma entropy_made : forall m t0 t1 C M T N V, wf m -> view m \/ state m -> askable m t0 (given_cells C) -> discrete m t0 ->
  (forall k, In k t0 <-> In k t1) -> M = None \/ M = Some [] -> exhausts m t0 (given_cells C) V ->
  exists g, made_of m t0 (given_cells C) (sample_size N) (mutual_information m t0 t1 C M T N) g /\
    forall S, In S V -> prob m S (given_cells C) = 0%R \/ g S = surprise m (given_cells C) S.
Proof.
  intros m t0 t1 C M T N V W VS Q DI ST01 HM EX. pose proof Q as (NE & NT & ST & NC & SC & LB & SD & P).
  unfold mutual_information. change (match C with Some C => C | None => [] end) with (given_cells C).
  replace (match M with Some M => M | None => [] end) with (@nil Z) by (destruct HM as [->| ->]; reflexivity).
  rewrite validate_ok.
  - unfold estimator, sample_entropy. rewrite (proj2 (same_set_spec t0 t1)) by exact ST01. set (C' := given_cells C) in *.
    exists (fun s => -1 * logd m C' s)%R. split; [split; [|exists (entropy_of m C'); split; [|rewrite <- default_size; reflexivity]]|].
    + apply additive_reads. apply (additive_scale m (logd m C')). apply (additive_logd m C' (fun s => s) W VS). intros s s' cols L. exact L.
    + intros l Hl. unfold entropy_of, logps.
      rewrite (oseq_map_ok _ (fun s => Fin (logd m C' s))).
      * cbn [omap obind]. rewrite map_map. f_equal. apply map_ext. intros s. cbn [xneg]. f_equal. ring.
      * intros s Hs. destruct (Hl s Hs) as [PM SO]. destruct (sample_query m t0 C' s W Q PM SO) as (_ & Ps & _ & ->).
        rewrite logd_ok by assumption. f_equal. unfold xlog. destruct (Rlt_dec _ _) as [_|F]; [reflexivity|].
        exfalso. apply F. apply Rdiv_lt_0_compat; assumption.
    + intros S HS. destruct (prob_dens m t0 C' V S W Q EX HS) as (EP & LT & _). unfold surprise. rewrite EP.
      destruct (dens_nonneg m W (S ++ C')) as [PP|PP].
      * right. rewrite logd_ok by assumption. ring.
      * left. rewrite <- PP. unfold Rdiv. ring.
  - intros k Hk. rewrite !in_app_iff in Hk. destruct Hk as [Hk|[Hk|[Hk|[]]]]; [apply ST; auto|apply ST, ST01; auto|]. apply SC. exact Hk.
  - intros k Hk. apply in_app_or in Hk. destruct Hk as [Hk|Hk]; [apply ST; exact Hk|apply ST, ST01, Hk].
  - intros k _ [].
  - intros k _ [].
  - left. exact ST01.
Qed.

Lemma information_made : forall m t0 t1 C M T N V, wf m -> view m \/ state m -> askable m (t0 ++ t1) (given_cells C) ->
  discrete m (t0 ++ t1) -> t0 <> [] -> t1 <> [] -> M = None \/ M = Some [] -> exhausts m (t0 ++ t1) (given_cells C) V ->
  exists g, made_of m (t0 ++ t1) (given_cells C) (sample_size N) (mutual_information m t0 t1 C M T N) g /\
    forall S, In S V -> prob m S (given_cells C) = 0%R \/ g S = association m t0 t1 (given_cells C) S.
Proof.
  intros m t0 t1 C M T N V W VS Q DI N0 N1 HM EX. pose proof Q as (NE & NT & ST & NC & SC & LB & SD & P).
  unfold mutual_information. change (match C with Some C => C | None => [] end) with (given_cells C).
  replace (match M with Some M => M | None => [] end) with (@nil Z) by (destruct HM as [->| ->]; reflexivity).
  assert (DJ : forall k, In k t0 -> ~ In k t1) by (intros k H1 H2; eapply NoDup_app_disj; eauto).
  assert (NT0 : NoDup t0) by (eapply AliasThm.NoDup_app_l; eauto).
  assert (NT1 : NoDup t1) by (eapply AliasThm.NoDup_app_r; eauto).
  rewrite validate_ok.
  - unfold estimator. destruct (same_set t0 t1) eqn:SS.
    { exfalso. rewrite same_set_spec in SS. destruct t0 as [|k t0]; [congruence|]. apply (DJ k); [now left|]. apply SS. now left. }
    unfold sample_mi. set (C' := given_cells C) in *.
    set (g := fun s => ((logd m C' s + -1 * logd m C' (at_columns t0 s)) + -1 * logd m C' (at_columns t1 s))%R).
    (* what is asked of the parts of a value *)
    assert (PARTS : forall S, Permutation (keys S) (t0 ++ t1) -> labelled m (S ++ C') -> (0 < dens m (S ++ C'))%R ->
      logd m C' S = ln (dens m (S ++ C') / dens m C') /\
      logd m C' (at_columns t0 S) = ln (dens m (at_columns t0 S ++ C') / dens m C') /\
      logd m C' (at_columns t1 S) = ln (dens m (at_columns t1 S ++ C') / dens m C') /\
      (0 < dens m (at_columns t0 S ++ C') / dens m C')%R /\ (0 < dens m (at_columns t1 S ++ C') / dens m C')%R /\
      logpdf m None (at_columns t0 S) C' [] = Ok (Fin (logd m C' (at_columns t0 S))) /\
      logpdf m None (at_columns t1 S) C' [] = Ok (Fin (logd m C' (at_columns t1 S)))).
    { intros S PM LS PS. destruct (cells_pos m t0 t1 C' S W Q DI PM LS PS) as [P0 P1].
      assert (KS : forall k, In k (keys S) <-> In k (t0 ++ t1)) by (intros k; split; apply Permutation_in; [|apply Permutation_sym]; exact PM).
      assert (NDS : NoDup (keys S ++ keys C')).
      { apply AliasThm.NoDup_app_intro; auto; [eapply Permutation_NoDup; [apply Permutation_sym; exact PM|exact NT]|].
        intros k Hk. apply ST, KS. exact Hk. }
      assert (OUT : forall k, In k (keys S ++ keys C') -> In k (outputs m)).
      { intros k Hk. apply in_app_or in Hk. destruct Hk as [Hk|Hk]; [apply ST, KS, Hk|apply SC, Hk]. }
      rewrite !logd_ok by assumption.
      assert (R0 := Rdiv_lt_0_compat _ _ P0 P). assert (R1 := Rdiv_lt_0_compat _ _ P1 P).
      split; [reflexivity|]. split; [reflexivity|]. split; [reflexivity|]. split; [exact R0|]. split; [exact R1|].
      assert (XF : forall p, (0 < p)%R -> xlog p = Fin (ln p)).
      { intros p Hp. unfold xlog. destruct (Rlt_dec 0 p); [reflexivity|contradiction]. }
      rewrite <- (XF _ R0), <- (XF _ R1).
      split; (apply logpdf_cells; auto; intros k Hk; apply KS, in_or_app; auto). }
    exists g. split; [split; [|exists (mi_of m t0 t1 C'); split; [|rewrite <- default_size; reflexivity]]|].
    + apply additive_reads. unfold g. apply additive_plus; [apply additive_plus|].
      * apply (additive_logd m C' (fun s => s) W VS). intros s s' cols L. exact L.
      * apply (additive_scale m (fun s => logd m C' (at_columns t0 s))). apply (additive_logd m C' (at_columns t0) W VS). apply at_columns_reads.
      * apply (additive_scale m (fun s => logd m C' (at_columns t1 s))). apply (additive_logd m C' (at_columns t1) W VS). apply at_columns_reads.
    + intros l Hl.
      assert (HS : forall s, In s l -> (forall k, In k t0 -> In k (keys s)) /\ (forall k, In k t1 -> In k (keys s))).
      { intros s Hs. destruct (Hl s Hs) as [PM _]. split; intros k Hk; apply (Permutation_in _ (Permutation_sym PM)), in_or_app; auto. }
      unfold mi_of.
      rewrite (oseq_map_ok _ (at_columns t0)) by (intros s Hs; apply pick_ok; [exact NT0|apply HS; exact Hs]).
      cbn [obind]. rewrite (oseq_map_ok _ (at_columns t1)) by (intros s Hs; apply pick_ok; [exact NT1|apply HS; exact Hs]).
      cbn [obind]. unfold logps. rewrite !map_map.
      assert (EL : forall s, In s l -> logpdf m None s C' [] = Ok (Fin (logd m C' s)) /\
        logpdf m None (at_columns t0 s) C' [] = Ok (Fin (logd m C' (at_columns t0 s))) /\
        logpdf m None (at_columns t1 s) C' [] = Ok (Fin (logd m C' (at_columns t1 s)))).
      { intros s Hs. destruct (Hl s Hs) as [PM SO]. destruct (sample_query m (t0 ++ t1) C' s W Q PM SO) as (Ls & Ps & _ & ->).
        destruct (PARTS s PM Ls Ps) as (E1 & _ & _ & _ & _ & G0 & G1). split; [|auto]. rewrite E1.
        unfold xlog. destruct (Rlt_dec _ _) as [_|F]; [reflexivity|]. exfalso. apply F. apply Rdiv_lt_0_compat; assumption. }
      rewrite (oseq_map_ok _ (fun s => Fin (logd m C' s))) by (intros s Hs; apply EL; exact Hs).
      cbn [obind]. rewrite (oseq_map_ok _ (fun s => Fin (logd m C' (at_columns t0 s)))) by (intros s Hs; apply EL; exact Hs).
      cbn [obind]. rewrite (oseq_map_ok _ (fun s => Fin (logd m C' (at_columns t1 s)))) by (intros s Hs; apply EL; exact Hs).
      cbn [obind]. f_equal. clear. induction l as [|s l IH]; [reflexivity|]. cbn [map differences]. rewrite IH. f_equal.
      unfold g. cbn [xsub xadd xneg]. f_equal. ring.
    + intros S HS. destruct (prob_dens m (t0 ++ t1) C' V S W Q EX HS) as (EP & LT & KT).
      destruct (dens_nonneg m W (S ++ C')) as [PP|PP].
      * right. destruct (PARTS S) as (E1 & E2 & E3 & R0 & R1 & G0 & G1); auto; [rewrite KT; reflexivity|].
        unfold association. unfold prob at 2 3. rewrite G0, G1. cbn [xexp]. unfold g. rewrite EP, E1, E2, E3.
        assert (RR := Rdiv_lt_0_compat _ _ PP P). rewrite !exp_ln by assumption.
        set (a := (dens m (S ++ C') / dens m C')%R) in *. set (b := (dens m (at_columns t0 S ++ C') / dens m C')%R) in *.
        set (d := (dens m (at_columns t1 S ++ C') / dens m C')%R) in *. unfold Rdiv at 1.
        rewrite ln_mult, ln_Rinv, ln_mult by (auto using Rmult_lt_0_compat, Rinv_0_lt_compat). ring.
      * left. rewrite EP, <- PP. unfold Rdiv. ring.
  - intros k Hk. rewrite !in_app_iff in Hk. destruct Hk as [Hk|[Hk|[Hk|[]]]]; [apply ST, in_or_app; auto..|]. apply SC. exact Hk.
  - intros k Hk. apply ST. exact Hk.
  - intros k _ [].
  - intros k _ [].
  - right. exact DJ.
Qed.

Lemma always_all : forall {A} (m : samp A) (P : A -> Prop), (forall a, P a) -> always m P.
Proof. intros A m P H. induction m as [a|ws k IH|l k IH|n p k IH|lo hi k IH|n k IH]; cbn; auto. Qed.

(** An estimate is seldom far off. *)
Lemma made_far : forall m ts C V n q g eps, wf m -> view m -> askable m ts C -> discrete m ts -> exhausts m ts C V -> n <> 0%nat ->
  made_of m ts C n q g -> (0 < eps)%R ->
  (expect q (off_by eps (mean_over m C V g)) <= spread_over m C V g / (INR n * (eps * eps)))%R.
Proof.
  intros m ts C V n q g eps W VW Q DI EX Hn MD He.
  destruct (made_error m ts C V n q g W VW Q DI EX Hn MD) as [E _]. destruct MD as (RD & est & HE & EQ).
  assert (FC : finite_choices q).
  { rewrite EQ. apply choices_sobind; [apply choices_sobind|].
    - apply (sim_calm m ts C n W Q DI Hn).
    - intros a. exact I.
    - intros a. exact I. }
  set (x := mean_over m C V g) in *.
  assert (X : (0 <= expect q (fun r => / (eps * eps) * squared_error x r + -1 * off_by eps x r))%R).
  { apply expect_nonneg; [exact FC|]. apply always_all. intros r. unfold off_by, squared_error.
    assert (IP : (0 < / (eps * eps))%R) by (apply Rinv_0_lt_compat; nra).
    destruct (Rle_dec eps (Rabs (mean_of r - x))) as [L|L].
    - set (d := (mean_of r - x)%R) in *. assert (D : (eps * eps <= d * d)%R).
      { replace (d * d)%R with (Rabs d * Rabs d)%R by (rewrite <- Rabs_mult; apply Rabs_right; nra). nra. }
      assert (U : (/ (eps * eps) * (eps * eps) <= / (eps * eps) * (d * d))%R) by (apply Rmult_le_compat_l; lra).
      rewrite Rinv_l in U by nra. lra.
    - assert (V1 := Rle_0_sqr (mean_of r - x)). unfold Rsqr in V1. assert (V2 := Rmult_le_pos _ _ (Rlt_le _ _ IP) V1). lra. }
  rewrite expect_plus, !expect_scale, E in X.
  replace (spread_over m C V g / (INR n * (eps * eps)))%R with (/ (eps * eps) * (spread_over m C V g / INR n))%R; [lra|].
  field. split; [lra|]. apply not_0_INR. exact Hn.
Qed.

Lemma entropy_is_mean : forall m C V, entropy m C V = mean_over m C V (surprise m C).
Proof.
  intros m C V. unfold entropy, mean_over, surprise.
  transitivity (-1 * rsum (map (fun T => prob m T C * ln (prob m T C)) V))%R; [ring|]. rewrite <- rsum_scal. apply rsum_ext. intros T _. ring.
Qed.

Lemma information_is_mean : forall m t0 t1 C V, information m t0 t1 C V = mean_over m C V (association m t0 t1 C).
Proof. reflexivity. Qed.
