(** The log-gamma function (scipy.special.gammaln, math.lgamma) on positive reals,
    defined by Euler's limit formula
      ln Gamma(x) = lim_n [ x ln n + ln n! - sum_{k=0}^{n} ln (x+k) ],
    with its convergence and functional equation. *)
From Coq Require Import Reals Lra Lia List.
From Coquelicot Require Import Coquelicot.
Local Open Scope R_scope.

(** sum_{k=0}^{n} ln (x+k) (part of the definition of gammaln, src/crp.py:9) *)
Fixpoint lnrise (x : R) (n : nat) : R :=
  match n with
  | O => ln x
  | S n' => lnrise x n' + ln (x + INR (S n'))
  end.

(** n-th term of Euler's sequence (index shifted so that n >= 1)
    (part of the definition of gammaln, src/crp.py:9). *)
Definition lg_term (x : R) (n : nat) : R :=
  x * ln (INR (S n)) + lnrise 1 n - lnrise x (S n).

(** scipy.special.gammaln (src/crp.py:9, src/categorical.py, src/poisson.py) and
    math.lgamma (src/normal.py:8) on positive arguments. Outside the positive
    reals the model says nothing about it. *)
Definition lgamma (x : R) : R := real (Lim_seq (lg_term x)).

(** scipy.special.betaln (src/bernoulli.py:12). *)
Definition betaln (a b : R) : R := lgamma a + lgamma b - lgamma (a + b).

Lemma ln_le_sub1 : forall x, 0 < x -> ln x <= x - 1.
Proof.
  intros x Hx.
  pose proof (exp_ineq1_le (ln x)) as H. rewrite exp_ln in H by assumption. lra.
Qed.

Lemma ln1p_le : forall u, 0 <= u -> ln (1 + u) <= u.
Proof. intros u Hu. pose proof (ln_le_sub1 (1 + u)). lra. Qed.

Lemma ln1p_ge : forall u, 0 <= u -> u / (1 + u) <= ln (1 + u).
Proof.
  intros u Hu.
  pose proof (ln_le_sub1 (/ (1 + u)) ltac:(apply Rinv_0_lt_compat; lra)) as H.
  rewrite ln_Rinv in H by lra.
  assert (/ (1 + u) - 1 = - (u / (1 + u))) by (field; lra). lra.
Qed.

Lemma lg_step : forall x n, 0 < x ->
  lg_term x (S n) - lg_term x n
  = x * ln (1 + / INR (S n)) - ln (1 + x / INR (S (S n))).
Proof.
  intros x n Hx. unfold lg_term.
  replace (lnrise 1 (S n)) with (lnrise 1 n + ln (INR (S (S n)))).
  2:{ change (lnrise 1 (S n)) with (lnrise 1 n + ln (1 + INR (S n))).
      rewrite (S_INR (S n)). f_equal. f_equal. ring. }
  change (lnrise x (S (S n))) with (lnrise x (S n) + ln (x + INR (S (S n)))).
  assert (0 < INR (S n)) by (apply lt_0_INR; lia).
  assert (0 < INR (S (S n))) by (apply lt_0_INR; lia).
  replace (1 + / INR (S n)) with (INR (S (S n)) / INR (S n))
    by (rewrite (S_INR (S n)); field; lra).
  replace (1 + x / INR (S (S n))) with ((x + INR (S (S n))) / INR (S (S n)))
    by (field; lra).
  unfold Rdiv.
  rewrite ln_mult by (try apply Rinv_0_lt_compat; assumption).
  rewrite ln_mult by (try apply Rinv_0_lt_compat; lra).
  rewrite !ln_Rinv by assumption. ring.
Qed.

Lemma lg_step_bounds : forall x n, 0 < x ->
  0 <= lg_term x (S n) - lg_term x n
    <= x * (1 + x) * (/ INR (S n) - / INR (S (S n))).
Proof.
  intros x n Hx. rewrite lg_step by assumption.
  assert (Hn : 0 < INR (S n)) by (apply lt_0_INR; lia).
  assert (Hs : INR (S (S n)) = INR (S n) + 1) by apply S_INR.
  set (N := INR (S n)) in *. rewrite Hs.
  assert (HiN : 0 < / N) by (apply Rinv_0_lt_compat; lra).
  assert (Hx1 : 0 <= x / (N + 1)) by (apply Rlt_le, Rdiv_lt_0_compat; lra).
  pose proof (ln1p_ge (/ N) ltac:(lra)) as A1.
  pose proof (ln1p_le (/ N) ltac:(lra)) as A2.
  pose proof (ln1p_ge (x / (N + 1)) Hx1) as B1.
  pose proof (ln1p_le (x / (N + 1)) Hx1) as B2.
  assert (E1 : / N / (1 + / N) = / (N + 1)) by (field; lra).
  rewrite E1 in A1.
  assert (E2 : x / (N + 1) / (1 + x / (N + 1)) = x / (N + 1 + x)) by (field; lra).
  rewrite E2 in B1.
  split.
  - assert (x * / (N + 1) <= x * ln (1 + / N)) by (apply Rmult_le_compat_l; lra).
    unfold Rdiv in B2. unfold Rdiv. lra.
  - assert (x * ln (1 + / N) <= x * / N) by (apply Rmult_le_compat_l; lra).
    assert (x * / N - x / (N + 1 + x) <= x * (1 + x) * (/ N - / (N + 1))).
    { assert (x * / N - x / (N + 1 + x) = x * (1 + x) * (/ N * / (N + 1 + x)))
        by (field; lra).
      assert (/ N - / (N + 1) = / N * / (N + 1)) by (field; lra).
      rewrite H0, H1.
      apply Rmult_le_compat_l; [nra|].
      apply Rmult_le_compat_l; [lra|].
      apply Rinv_le_contravar; lra. }
    lra.
Qed.

Lemma lg_bounded : forall x n, 0 < x ->
  lg_term x n <= lg_term x 0 + x * (1 + x) * (1 - / INR (S n)).
Proof.
  intros x n Hx. induction n as [|n IH].
  - simpl. rewrite Rinv_1. lra.
  - pose proof (lg_step_bounds x n Hx) as [_ H].
    assert (x * (1 + x) * (/ INR (S n) - / INR (S (S n)))
            = x * (1 + x) * (1 - / INR (S (S n))) - x * (1 + x) * (1 - / INR (S n))) by ring.
    lra.
Qed.

Lemma lg_ex : forall x, 0 < x -> ex_finite_lim_seq (lg_term x).
Proof.
  intros x Hx.
  apply ex_finite_lim_seq_incr with (M := lg_term x 0 + x * (1 + x)).
  - intros n. pose proof (lg_step_bounds x n Hx). lra.
  - intros n. pose proof (lg_bounded x n Hx).
    assert (0 < / INR (S n)) by (apply Rinv_0_lt_compat, lt_0_INR; lia).
    assert (0 <= x * (1 + x)) by nra. nra.
Qed.

Lemma lgamma_is_lim : forall x, 0 < x -> is_lim_seq (lg_term x) (lgamma x).
Proof.
  intros x Hx. apply Lim_seq_correct'. apply lg_ex; assumption.
Qed.

Lemma lnrise_shift : forall x n, lnrise (x + 1) n + ln x = lnrise x (S n).
Proof.
  intros x n. induction n as [|n IH].
  - simpl. ring.
  - change (lnrise (x + 1) (S n)) with (lnrise (x + 1) n + ln (x + 1 + INR (S n))).
    change (lnrise x (S (S n))) with (lnrise x (S n) + ln (x + INR (S (S n)))).
    rewrite <- IH, (S_INR (S n)).
    replace (x + 1 + INR (S n)) with (x + (INR (S n) + 1)) by ring. ring.
Qed.

Lemma lg_term_shift : forall x n, 0 < x ->
  lg_term (x + 1) n = lg_term x n + ln x + - ln (1 + (x + 1) / INR (S n)).
Proof.
  intros x n Hx. unfold lg_term.
  change (lnrise (x + 1) (S n)) with (lnrise (x + 1) n + ln (x + 1 + INR (S n))).
  pose proof (lnrise_shift x n).
  assert (0 < INR (S n)) by (apply lt_0_INR; lia).
  replace (1 + (x + 1) / INR (S n)) with ((x + 1 + INR (S n)) * / INR (S n)) by (field; lra).
  rewrite ln_mult by (try apply Rinv_0_lt_compat; lra).
  rewrite ln_Rinv by assumption. lra.
Qed.

Lemma lim_inv_S : forall c, is_lim_seq (fun n => c / INR (S n)) 0.
Proof.
  intros c.
  apply (is_lim_seq_incr_1 (fun n => c / INR n)).
  replace (Finite 0) with (Rbar_mult (Finite c) (Finite 0)).
  - apply is_lim_seq_scal_l.
    apply (is_lim_seq_inv INR p_infty); [apply is_lim_seq_INR| discriminate].
  - simpl. f_equal. ring.
Qed.

Lemma lim_ln1p : forall c, is_lim_seq (fun n => ln (1 + c / INR (S n))) 0.
Proof.
  intros c.
  rewrite <- ln_1.
  apply (is_lim_seq_continuous ln (fun n => 1 + c / INR (S n)) 1).
  - apply derivable_continuous_pt. exists (/ 1). apply derivable_pt_lim_ln. lra.
  - replace (Finite 1) with (Finite (1 + 0)) by (f_equal; ring).
    apply is_lim_seq_plus'; [apply is_lim_seq_const| apply lim_inv_S].
Qed.

(** Functional equation Gamma(x+1) = x Gamma(x). *)
Theorem lgamma_rec : forall x, 0 < x -> lgamma (x + 1) = lgamma x + ln x.
Proof.
  intros x Hx.
  assert (H1 : is_lim_seq (lg_term (x + 1)) (lgamma (x + 1))) by (apply lgamma_is_lim; lra).
  assert (H2 : is_lim_seq (lg_term (x + 1)) (lgamma x + ln x + - 0)).
  { apply is_lim_seq_ext with (u := fun n => lg_term x n + ln x + - ln (1 + (x + 1) / INR (S n))).
    - intros n. symmetry. apply lg_term_shift; assumption.
    - apply is_lim_seq_plus'.
      + apply is_lim_seq_plus'; [apply lgamma_is_lim; assumption| apply is_lim_seq_const].
      + apply (is_lim_seq_opp _ (Finite 0)). apply lim_ln1p. }
  apply is_lim_seq_unique in H1. apply is_lim_seq_unique in H2.
  rewrite H1 in H2. inversion H2. lra.
Qed.

Theorem lgamma_1 : lgamma 1 = 0.
Proof.
  assert (H1 : is_lim_seq (lg_term 1) (lgamma 1)) by (apply lgamma_is_lim; lra).
  assert (H2 : is_lim_seq (lg_term 1) (- 0)).
  { apply is_lim_seq_ext with (u := fun n => - ln (1 + 1 / INR (S n))).
    - intros n. unfold lg_term.
      change (lnrise 1 (S n)) with (lnrise 1 n + ln (1 + INR (S n))).
      assert (0 < INR (S n)) by (apply lt_0_INR; lia).
      replace (1 + 1 / INR (S n)) with ((1 + INR (S n)) * / INR (S n)) by (field; lra).
      rewrite ln_mult by (try apply Rinv_0_lt_compat; lra).
      rewrite ln_Rinv by assumption. lra.
    - apply (is_lim_seq_opp _ (Finite 0)). apply lim_ln1p. }
  apply is_lim_seq_unique in H1. apply is_lim_seq_unique in H2.
  rewrite H1 in H2. inversion H2. lra.
Qed.

(** lgamma (n+1) = ln n! *)
Theorem lgamma_fact : forall n, lgamma (INR n + 1) = ln (INR (fact n)).
Proof.
  induction n as [|n IH].
  - simpl. rewrite Rplus_0_l, lgamma_1, ln_1. reflexivity.
  - rewrite lgamma_rec by (pose proof (pos_INR n); rewrite S_INR; lra).
    rewrite S_INR at 1. rewrite IH.
    change (fact (S n)) with (S n * fact n)%nat.
    rewrite mult_INR, ln_mult.
    + ring.
    + apply lt_0_INR; lia.
    + apply lt_0_INR, lt_O_fact.
Qed.
