(** The negative binomial series: its terms sum to 1. *)
From Coq Require Import List ZArith Reals Lia Lra.
From Coquelicot Require Import Coquelicot.
From Verif Require Import Base Xr Lgamma Prims SpecPrims Lib PrimsInv PrimsDens.
Local Open Scope R_scope.

Definition nbc (a : R) (n : nat) : R := rising a n / INR (fact n).

Lemma nbc_pos : forall a n, 0 < a -> 0 < nbc a n.
Proof. intros a n A. apply Rdiv_lt_0_compat; [apply rising_pos; assumption|apply INR_fact_lt_0]. Qed.

Lemma nbc_S : forall a n, INR (S n) * nbc a (S n) = (a + INR n) * nbc a n.
Proof.
  intros a n. unfold nbc. cbn [rising]. rewrite fact_simpl, mult_INR.
  field. split; [apply INR_fact_neq_0|apply not_0_INR; lia].
Qed.

Lemma nbc_ratio : forall a n, 0 < a -> nbc a (S n) / nbc a n = (a + INR n) / INR (S n).
Proof.
  intros a n A. pose proof (nbc_S a n) as E. pose proof (nbc_pos a n A) as P.
  assert (N : INR (S n) <> 0) by (apply not_0_INR; lia).
  apply (Rmult_eq_reg_l (INR (S n))); [|assumption]. unfold Rdiv. rewrite <- Rmult_assoc, E. field. lra.
Qed.

Lemma nbc_radius : forall a, 0 < a -> CV_radius (nbc a) = 1.
Proof.
  intros a A. replace (Finite 1) with (Finite (/ 1)) by (rewrite Rinv_1; reflexivity).
  apply CV_radius_finite_DAlembert.
  - intros n. apply Rgt_not_eq. apply nbc_pos. assumption.
  - lra.
  - apply is_lim_seq_ext with (fun n => 1 + (a - 1) / INR (S n)).
    + intros n. rewrite nbc_ratio by assumption. pose proof (pos_INR n).
      rewrite S_INR. rewrite Rabs_pos_eq; [field; lra|]. apply Rlt_le. apply Rdiv_lt_0_compat; lra.
    + replace (Finite 1) with (Finite (1 + 0)) by (rewrite Rplus_0_r; reflexivity).
      apply is_lim_seq_plus'; [apply is_lim_seq_const|]. apply lim_inv_S.
Qed.

Lemma nbc_ode : forall a x, 0 < a -> Rabs x < 1 ->
  (1 - x) * PSeries (PS_derive (nbc a)) x = a * PSeries (nbc a) x.
Proof.
  intros a x A X.
  assert (E1 : ex_pseries (nbc a) x) by (apply CV_radius_inside; rewrite nbc_radius by assumption; exact X).
  assert (E2 : ex_pseries (PS_derive (nbc a)) x).
  { apply CV_radius_inside. rewrite CV_radius_derive, nbc_radius by assumption. exact X. }
  rewrite Rmult_minus_distr_r, Rmult_1_l, <- PSeries_incr_1, <- PSeries_scal.
  assert (E3 : ex_pseries (PS_incr_1 (PS_derive (nbc a))) x) by (apply ex_pseries_incr_1; assumption).
  rewrite <- PSeries_minus by assumption. apply PSeries_ext. intros n.
  unfold PS_minus, PS_plus, PS_opp, PS_scal, PS_incr_1, PS_derive.
  rewrite nbc_S. change plus with Rplus. change opp with Ropp. change (scal a (nbc a n)) with (a * nbc a n).
  destruct n as [|n].
  - change zero with 0. cbn [INR]. ring.
  - rewrite nbc_S. pose proof (nbc_S a n) as N. rewrite <- N. ring.
Qed.

Lemma nbc_sum : forall a x, 0 < a -> 0 < x < 1 -> PSeries (nbc a) x = Rpower (1 - x) (- a).
Proof.
  intros a x A X.
  assert (G : (fun t => PSeries (nbc a) t * Rpower (1 - t) a) 0
            = (fun t => PSeries (nbc a) t * Rpower (1 - t) a) x).
  { apply (eq_is_derive (fun t => PSeries (nbc a) t * Rpower (1 - t) a)); [|lra].
    intros t T.
    assert (AB : Rabs t < 1) by (rewrite Rabs_pos_eq; lra).
    assert (D1 : is_derive (PSeries (nbc a)) t (PSeries (PS_derive (nbc a)) t)).
    { apply is_derive_PSeries. rewrite nbc_radius by assumption. exact AB. }
    assert (D2 : is_derive (fun t => Rpower (1 - t) a) t (- a / (1 - t) * Rpower (1 - t) a)).
    { unfold Rpower. auto_derive; [lra|]. unfold Rminus. field. lra. }
    pose proof (is_derive_mult _ _ _ _ _ D1 D2) as D.
    match goal with |- is_derive _ _ ?z => replace z with (PSeries (PS_derive (nbc a)) t * Rpower (1 - t) a
       + PSeries (nbc a) t * (- a / (1 - t) * Rpower (1 - t) a)) end.
    - apply D. intros n m. apply Rmult_comm.
    - pose proof (nbc_ode a t A AB) as O. change (@zero _) with 0.
      replace (PSeries (PS_derive (nbc a)) t) with (a * PSeries (nbc a) t / (1 - t)).
      + field. lra.
      + apply (Rmult_eq_reg_l (1 - t)); [|lra]. rewrite O. field. lra. }
  cbn beta in G. rewrite PSeries_0 in G. unfold nbc at 1 in G. cbn [rising fact INR] in G.
  rewrite Rminus_0_r in G. unfold Rpower at 1 in G. rewrite ln_1, Rmult_0_r, exp_0 in G.
  rewrite Rpower_Ropp. assert (0 < Rpower (1 - x) a) by apply exp_pos.
  apply (Rmult_eq_reg_r (Rpower (1 - x) a)); [|lra]. rewrite <- G. field. lra.
Qed.

Lemma neg_binomial_sum : forall a b, 0 < a -> 0 < b -> infinite_sum (neg_binomial a b) 1.
Proof.
  intros a b A B. apply is_series_Reals.
  set (q := 1 / (b + 1)).
  assert (Q : 0 < q < 1).
  { unfold q. split; [apply Rdiv_lt_0_compat; lra|]. apply (Rmult_lt_reg_r (b + 1)); [lra|].
    unfold Rdiv. rewrite Rmult_assoc, Rinv_l; lra. }
  assert (E : ex_pseries (nbc a) q).
  { apply CV_radius_inside. rewrite nbc_radius by assumption. rewrite Rabs_pos_eq by lra. cbn. lra. }
  pose proof (PSeries_correct _ _ E) as S. rewrite nbc_sum in S by assumption.
  apply is_pseries_R in S. apply (is_series_scal (Rpower (b / (b + 1)) a)) in S.
  assert (V : Rpower (b / (b + 1)) a * Rpower (1 - q) (- a) = 1).
  { unfold q. replace (1 - 1 / (b + 1)) with (b / (b + 1)) by (field; lra).
    rewrite Rpower_Ropp. field. apply Rgt_not_eq. apply exp_pos. }
  change (scal (Rpower (b / (b + 1)) a) (Rpower (1 - q) (- a)))
    with (Rpower (b / (b + 1)) a * Rpower (1 - q) (- a)) in S.
  rewrite V in S. revert S. apply is_series_ext. intros n. unfold neg_binomial, nbc. fold q.
  change (scal (Rpower (b / (b + 1)) a) (rising a n / INR (fact n) * q ^ n))
    with (Rpower (b / (b + 1)) a * (rising a n / INR (fact n) * q ^ n)).
  match goal with |- ?u = ?v => change (@eq R u v) end. ring.
Qed.
