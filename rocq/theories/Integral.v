(** The integrals of Student's t and of the normal density. *)
From Coq Require Import Reals Lra Lia Psatz.
From Coquelicot Require Import Coquelicot.
From Verif Require Import Lgamma.
Local Open Scope R_scope.

(** ** The kernel of Student's t *)

Definition kern (s t : R) : R := exp (- s * ln (1 + t * t)).

Lemma one_sq : forall t, 1 <= 1 + t * t.
Proof. intros t. assert (0 <= t * t) by (apply Rle_0_sqr). lra. Qed.

Lemma one_sq_pos : forall t, 0 < 1 + t * t.
Proof. intros t. assert (X := one_sq t). lra. Qed.

Lemma ln_sq_nonneg : forall t, 0 <= ln (1 + t * t).
Proof. intros t. rewrite <- ln_1. assert (X := one_sq t). destruct (Rle_lt_or_eq_dec _ _ X) as [L|E]; [left; apply ln_increasing; lra|rewrite <- E; right; reflexivity]. Qed.

Lemma kern_pos : forall s t, 0 < kern s t.
Proof. intros. apply exp_pos. Qed.

Lemma kern_even : forall s t, kern s (- t) = kern s t.
Proof. intros. unfold kern. replace (- t * - t) with (t * t) by ring. reflexivity. Qed.

Lemma kern_S : forall s t, kern (s + 1) t = kern s t / (1 + t * t).
Proof.
  intros s t. unfold kern. replace (- (s + 1) * ln (1 + t * t)) with (- s * ln (1 + t * t) + - ln (1 + t * t)) by ring.
  rewrite exp_plus, exp_Ropp, exp_ln by apply one_sq_pos. reflexivity.
Qed.

Lemma exp_le : forall x y, x <= y -> exp x <= exp y.
Proof. intros x y [L|E]; [left; apply exp_increasing; exact L|subst; right; reflexivity]. Qed.

Lemma kern_decr : forall s s' t, s <= s' -> kern s' t <= kern s t.
Proof. intros s s' t L. unfold kern. apply exp_le. assert (X := ln_sq_nonneg t). nra. Qed.

Lemma kern_derive : forall s t, is_derive (kern s) t (- s * (2 * t / (1 + t * t)) * kern s t).
Proof.
  intros s t. unfold kern. auto_derive; [apply one_sq_pos|]. field. apply Rgt_not_eq. apply one_sq_pos.
Qed.

Lemma kern_continuous : forall s t, continuous (kern s) t.
Proof. intros s t. apply (ex_derive_continuous (kern s) t). eexists. apply kern_derive. Qed.

Lemma kern_int : forall s a b, ex_RInt (kern s) a b.
Proof. intros s a b. apply (ex_RInt_continuous (kern s)). intros z _. apply kern_continuous. Qed.

Definition half (s T : R) : R := RInt (kern s) 0 T.

Lemma half_int : forall s T, is_RInt (kern s) 0 T (half s T).
Proof. intros s T. apply (RInt_correct (kern s) 0 T). apply kern_int. Qed.

Lemma half_decr : forall s s' T, s <= s' -> 0 <= T -> half s' T <= half s T.
Proof.
  intros s s' T L P. unfold half. apply RInt_le; [exact P|apply kern_int|apply kern_int|]. intros x _. apply kern_decr. exact L.
Qed.

Lemma half_incr : forall s T T', 0 <= T <= T' -> half s T <= half s T'.
Proof.
  intros s T T' [L L']. unfold half. rewrite <- (RInt_Chasles (kern s) 0 T T') by apply kern_int. unfold plus; cbn.
  assert (X : 0 <= RInt (kern s) T T'); [|change (RInt (kern s) 0 T <= RInt (kern s) 0 T + RInt (kern s) T T'); lra]. apply RInt_ge_0; [exact L'|apply kern_int|]. intros x _. left. apply kern_pos.
Qed.

Lemma half_pos : forall s T, 0 < T -> 0 < half s T.
Proof. intros s T L. unfold half. apply RInt_gt_0; [exact L|intros; apply kern_pos|]. intros x _. apply kern_continuous. Qed.

(** The antiderivatives at 1 and 3/2. *)
Lemma half_one : forall T, half 1 T = atan T.
Proof.
  intros T. unfold half. replace (atan T) with (atan T - atan 0) by (rewrite atan_0; ring). apply is_RInt_unique.
  apply (is_RInt_derive atan (kern 1) 0 T).
  - intros x _. unfold kern. replace (- (1) * ln (1 + x * x)) with (- ln (1 + x * x)) by ring. rewrite exp_Ropp, exp_ln by apply one_sq_pos.
    replace (/ (1 + x * x)) with (/ (1 + x ^ 2)) by (f_equal; ring). apply is_derive_Reals. apply derivable_pt_lim_atan.
  - intros x _. apply kern_continuous.
Qed.

Lemma half_three : forall T, half (3 / 2) T = T * kern (1 / 2) T.
Proof.
  intros T. unfold half. replace (T * kern (1 / 2) T) with (T * kern (1 / 2) T - 0 * kern (1 / 2) 0) by ring. apply is_RInt_unique.
  apply (is_RInt_derive (fun t => t * kern (1 / 2) t) (kern (3 / 2)) 0 T).
  - intros x _. replace (kern (3 / 2) x) with (1 * kern (1 / 2) x + x * (- (1 / 2) * (2 * x / (1 + x * x)) * kern (1 / 2) x)).
    + apply (is_derive_mult (fun t => t) (kern (1 / 2)) x 1 _); [exact (@is_derive_id R_AbsRing x)|apply kern_derive|]. intros; apply Rmult_comm.
    + replace (3 / 2) with (1 / 2 + 1) by field. rewrite kern_S. field. apply Rgt_not_eq, one_sq_pos.
  - intros x _. apply kern_continuous.
Qed.

(** Integration by parts. *)
Lemma half_parts : forall s T, (2 * s - 1) * half s T = 2 * s * half (s + 1) T - T * kern s T.
Proof.
  intros s T.
  assert (D : is_RInt (fun t => (1 - 2 * s) * kern s t + 2 * s * kern (s + 1) t) 0 T (T * kern s T - 0 * kern s 0)).
  { apply (is_RInt_derive (fun t => t * kern s t)).
    - intros x _. replace ((1 - 2 * s) * kern s x + 2 * s * kern (s + 1) x) with (1 * kern s x + x * (- s * (2 * x / (1 + x * x)) * kern s x)).
      + apply (is_derive_mult (fun t => t) (kern s) x 1 _); [exact (@is_derive_id R_AbsRing x)|apply kern_derive|]. intros; apply Rmult_comm.
      + rewrite kern_S. field. apply Rgt_not_eq, one_sq_pos.
    - intros x _. apply (continuous_plus (fun t => (1 - 2 * s) * kern s t)); [apply (continuous_scal_r (V := R_NormedModule) (1 - 2 * s) (kern s))|apply (continuous_scal_r (V := R_NormedModule) (2 * s) (kern (s + 1)))]; apply kern_continuous. }
  assert (E : is_RInt (fun t => (1 - 2 * s) * kern s t + 2 * s * kern (s + 1) t) 0 T ((1 - 2 * s) * half s T + 2 * s * half (s + 1) T)).
  { apply (is_RInt_plus (fun t => (1 - 2 * s) * kern s t)); apply (is_RInt_scal (V := R_NormedModule)); apply half_int. }
  assert (X : T * kern s T - 0 * kern s 0 = (1 - 2 * s) * half s T + 2 * s * half (s + 1) T) by (rewrite <- (is_RInt_unique _ _ _ _ D); apply is_RInt_unique; exact E).
  lra.
Qed.

(** ** The integral over the half line *)

Definition full (s l : R) : Prop := is_lim (half s) p_infty l.

Lemma full_intro : forall s l, (forall eps, 0 < eps -> exists M, forall T, M < T -> Rabs (half s T - l) < eps) -> full s l.
Proof. intros s l X. apply is_lim_spec. intros [eps P]. destruct (X eps P) as (M & Q). exists M. exact Q. Qed.

Lemma full_unique : forall s l l', full s l -> full s l' -> l = l'.
Proof. intros s l l' A B. apply is_lim_unique in A. apply is_lim_unique in B. rewrite A in B. injection B. auto. Qed.

Lemma full_large : forall s, 1 <= s -> exists l, full s l.
Proof.
  intros s L. destruct (completeness (fun y => exists T, 0 <= T /\ y = half s T)) as (l & UB & LUB).
  - exists (PI / 2). intros y (T & P & ->). apply Rle_trans with (half 1 T); [apply half_decr; assumption|]. rewrite half_one. left. apply atan_bound.
  - exists (half s 0), 0. split; [lra|reflexivity].
  - exists l. apply full_intro. intros eps P.
    destruct (Rlt_le_dec (l - eps) l) as [_|X]; [|lra].
    assert (NX : exists T0, 0 <= T0 /\ l - eps < half s T0).
    { apply Classical_Prop.NNPP. intros N. assert (l <= l - eps); [|lra]. apply LUB. intros y (T & PT & ->). destruct (Rle_lt_dec (half s T) (l - eps)) as [Y|Y]; [exact Y|]. exfalso. apply N. exists T. auto. }
    destruct NX as (T0 & P0 & X0). exists T0. intros T LT.
    assert (A : half s T <= l) by (apply UB; exists T; split; [lra|reflexivity]). assert (B : half s T0 <= half s T) by (apply half_incr; lra).
    apply Rabs_def1; lra.
Qed.

Lemma boundary : forall s, 1 / 2 < s -> is_lim (fun T => T * kern s T) p_infty 0.
Proof.
  intros s L. apply is_lim_spec. intros [eps P]. cbn [pos]. exists (Rmax 1 (exp (ln eps / (1 - 2 * s)))). intros T LT.
  assert (T1 : 1 < T) by (eapply Rle_lt_trans; [apply Rmax_l|exact LT]). assert (T2 : exp (ln eps / (1 - 2 * s)) < T) by (eapply Rle_lt_trans; [apply Rmax_r|exact LT]).
  assert (K := kern_pos s T). rewrite Rminus_0_r, Rabs_pos_eq by (apply Rmult_le_pos; lra).
  apply Rle_lt_trans with (exp ((1 - 2 * s) * ln T)).
  - unfold kern. rewrite <- (exp_ln T) at 1 by lra. rewrite <- exp_plus. apply exp_le.
    assert (ln (T * T) <= ln (1 + T * T)) by (left; apply ln_increasing; nra). rewrite ln_mult in H by lra. nra.
  - rewrite <- (exp_ln eps P) at 1. apply exp_increasing.
    assert (Y : ln eps / (1 - 2 * s) < ln T) by (rewrite <- (ln_exp (ln eps / (1 - 2 * s))); apply ln_increasing; [apply exp_pos|exact T2]).
    apply (Rmult_lt_compat_l (2 * s - 1)) in Y; [|lra]. replace ((2 * s - 1) * (ln eps / (1 - 2 * s))) with (- ln eps) in Y by (field; lra). nra.
Qed.

Lemma full_down : forall s l, 1 / 2 < s -> full (s + 1) l -> full s (2 * s / (2 * s - 1) * l).
Proof.
  intros s l L F. unfold full.
  apply (is_lim_ext (fun T => / (2 * s - 1) * (2 * s * half (s + 1) T - T * kern s T))).
  - intros T. rewrite <- half_parts. field. lra.
  - replace (Finite (2 * s / (2 * s - 1) * l)) with (Rbar_mult (/ (2 * s - 1)) (Finite (2 * s * l - 0))) by (cbn; f_equal; field; lra).
    apply is_lim_scal_l. apply is_lim_minus'; [|apply boundary; exact L].
    replace (Finite (2 * s * l)) with (Rbar_mult (2 * s) l) by reflexivity. apply is_lim_scal_l. exact F.
Qed.

Lemma full_ex : forall s, 1 / 2 < s -> exists l, full s l.
Proof.
  intros s L. destruct (full_large (s + 1)) as (l & F); [lra|]. eexists. apply full_down; [exact L|exact F].
Qed.

Lemma full_up : forall s l, 1 / 2 < s -> full s l -> full (s + 1) ((2 * s - 1) / (2 * s) * l).
Proof.
  intros s l L F. destruct (full_ex (s + 1)) as (l' & F'); [lra|]. assert (E := full_unique _ _ _ F (full_down _ _ L F')).
  rewrite E. replace ((2 * s - 1) / (2 * s) * (2 * s / (2 * s - 1) * l')) with l' by (field; lra). exact F'.
Qed.

Lemma full_decr : forall s s' l l', s <= s' -> full s l -> full s' l' -> l' <= l.
Proof.
  intros s s' l l' L F F'. apply (is_lim_le_loc (half s') (half s) p_infty l' l); [|exact F'|exact F].
  exists 0. intros T P. apply half_decr; lra.
Qed.

Lemma full_pos : forall s l, full s l -> 0 < l.
Proof.
  intros s l F. apply Rlt_le_trans with (half s 1); [apply half_pos; lra|].
  apply (is_lim_le_loc (fun _ => half s 1) (half s) p_infty (half s 1) l); [|apply is_lim_const|exact F].
  exists 1. intros T P. apply half_incr. lra.
Qed.

Lemma full_one : full 1 (PI / 2).
Proof.
  apply is_lim_spec. intros [eps P]. cbn [pos].
  set (e := Rmin eps 1). assert (PE : 0 < e) by (unfold e; apply Rmin_pos; lra). assert (E1 : e <= 1) by apply Rmin_r. assert (E2 : e <= eps) by apply Rmin_l.
  assert (PP := PI_4). assert (PQ : 3 < PI) by (assert (X := PI2_3_2); lra).
  exists (tan (PI / 2 - e)). intros T L. rewrite half_one. assert (B := atan_bound T).
  assert (PI / 2 - e < atan T). { rewrite <- (atan_tan (PI / 2 - e)) by lra. apply atan_increasing. exact L. }
  apply Rabs_def1; lra.
Qed.

Lemma full_three : full (3 / 2) 1.
Proof.
  apply full_intro. intros eps P. exists (Rmax 1 (/ eps)). intros T L.
  assert (T1 : 1 < T) by (eapply Rle_lt_trans; [apply Rmax_l|exact L]). assert (T2 : / eps < T) by (eapply Rle_lt_trans; [apply Rmax_r|exact L]).
  rewrite half_three. assert (EK : kern (1 / 2) T = / sqrt (1 + T * T)).
  { unfold kern. replace (- (1 / 2) * ln (1 + T * T)) with (- (/ 2 * ln (1 + T * T))) by field. rewrite exp_Ropp. f_equal. symmetry. apply Rsqr_inj; [apply sqrt_pos|left; apply exp_pos|].
    rewrite Rsqr_sqrt by (left; apply one_sq_pos). unfold Rsqr. rewrite <- exp_plus. replace (/ 2 * ln (1 + T * T) + / 2 * ln (1 + T * T)) with (ln (1 + T * T)) by field. rewrite exp_ln by apply one_sq_pos. reflexivity. }
  rewrite EK. set (q := sqrt (1 + T * T)). assert (QQ : q * q = 1 + T * T) by (apply sqrt_sqrt; left; apply one_sq_pos).
  assert (Q0 : 0 <= q) by apply sqrt_pos. assert (QT : T < q) by nra. assert (Q1 : q - T < / T).
  { apply (Rmult_lt_reg_r (q + T)); [lra|]. replace ((q - T) * (q + T)) with 1 by (ring_simplify; lra). apply (Rmult_lt_reg_l T); [lra|]. replace (T * (/ T * (q + T))) with (q + T) by (field; lra). lra. }
  assert (IT : / T < eps) by (rewrite <- (Rinv_inv eps); apply Rinv_lt_contravar; [|exact T2]; apply Rmult_lt_0_compat; [apply Rinv_0_lt_compat|]; lra).
  assert (X : T * / q - 1 = - ((q - T) / q)) by (field; lra). rewrite X, Rabs_Ropp, Rabs_pos_eq by (apply Rmult_le_pos; [lra|left; apply Rinv_0_lt_compat; lra]).
  apply Rle_lt_trans with (q - T); [|lra]. apply (Rmult_le_reg_r q); [lra|]. replace ((q - T) / q * q) with (q - T) by (field; lra). nra.
Qed.

(** ** The ratio of gamma functions *)

Definition ratio (s : R) : R := exp (lgamma s - lgamma (s - 1 / 2)).

Lemma ratio_pos : forall s, 0 < ratio s.
Proof. intros. apply exp_pos. Qed.

Lemma ratio_S : forall s, 1 / 2 < s -> ratio (s + 1) = ratio s * (s / (s - 1 / 2)).
Proof.
  intros s L. unfold ratio. replace (s + 1 - 1 / 2) with (s - 1 / 2 + 1) by lra. rewrite !lgamma_rec by lra.
  replace (lgamma s + ln s - (lgamma (s - 1 / 2) + ln (s - 1 / 2))) with (lgamma s - lgamma (s - 1 / 2) + (ln s - ln (s - 1 / 2))) by ring.
  rewrite exp_plus. f_equal. rewrite <- ln_div by lra. apply exp_ln. apply Rdiv_lt_0_compat; lra.
Qed.

Lemma lnrise_gap : forall n s s', 1 / 2 < s -> s <= s' -> lnrise s' n - lnrise (s' - 1 / 2) n <= lnrise s n - lnrise (s - 1 / 2) n.
Proof.
  assert (ST : forall k s s', 0 <= k -> 1 / 2 < s -> s <= s' -> ln (s' + k) - ln (s' - 1 / 2 + k) <= ln (s + k) - ln (s - 1 / 2 + k)).
  { intros k s s' P L LE. rewrite <- !ln_div by lra. destruct (Rle_lt_or_eq_dec _ _ LE) as [LT|E]; [|subst; right; reflexivity]. left. apply ln_increasing; [apply Rdiv_lt_0_compat; lra|].
    apply (Rmult_lt_reg_r (s' - 1 / 2 + k)); [lra|]. replace ((s' + k) / (s' - 1 / 2 + k) * (s' - 1 / 2 + k)) with (s' + k) by (field; lra).
    apply (Rmult_lt_reg_r (s - 1 / 2 + k)); [lra|]. replace ((s + k) / (s - 1 / 2 + k) * (s' - 1 / 2 + k) * (s - 1 / 2 + k)) with ((s + k) * (s' - 1 / 2 + k)) by (field; lra). nra. }
  induction n as [|n IH]; intros s s' L LE.
  - cbn [lnrise]. assert (X := ST 0 s s' (Rle_refl 0) L LE). rewrite !Rplus_0_r in X. exact X.
  - cbn [lnrise]. assert (X := ST (INR (S n)) s s' (pos_INR _) L LE). assert (Y := IH s s' L LE). lra.
Qed.

Lemma ratio_incr : forall s s', 1 / 2 < s -> s <= s' -> ratio s <= ratio s'.
Proof.
  intros s s' L LE. unfold ratio. apply exp_le.
  assert (A : forall x, 1 / 2 < x -> is_lim_seq (fun n => lg_term x n - lg_term (x - 1 / 2) n) (lgamma x - lgamma (x - 1 / 2))).
  { intros x X. apply is_lim_seq_minus'; apply lgamma_is_lim; lra. }
  refine (is_lim_seq_le _ _ (Finite (lgamma s - lgamma (s - 1 / 2))) (Finite (lgamma s' - lgamma (s' - 1 / 2))) _ (A s L) (A s' _)); [|lra].
  intros n. unfold lg_term. assert (X := lnrise_gap (S n) s s' L LE). lra.
Qed.

(** ** The two together *)

Lemma periodic : forall n s l, 1 / 2 < s -> full s l -> exists l', full (s + INR n) l' /\ l' * ratio (s + INR n) = l * ratio s.
Proof.
  induction n as [|n IH]; intros s l L F.
  - exists l. cbn [INR]. rewrite Rplus_0_r. auto.
  - destruct (IH s l L F) as (l' & F' & E). assert (P := pos_INR n). eexists. rewrite S_INR. replace (s + (INR n + 1)) with (s + INR n + 1) by ring.
    split; [apply full_up; [lra|exact F']|]. rewrite ratio_S by lra. rewrite <- E. field. split; lra.
Qed.

Lemma INR_unbounded : forall x, exists n, x < INR n.
Proof. intros x. destruct (nfloor_ex (Rabs x) (Rabs_pos x)) as (n & _ & X). exists (S n). rewrite S_INR. assert (Y := Rle_abs x). lra. Qed.

Lemma squeeze : forall c d, 0 < d -> 1 / 2 < c -> forall x, (forall n, x <= d * ((c + INR n) / (c + INR n - 1 / 2))) -> x <= d.
Proof.
  intros c d D C x X. apply Rnot_lt_le. intros N. destruct (INR_unbounded (d / (x - d))) as (n & Y). specialize (X n). assert (P := pos_INR n).
  apply (Rmult_lt_compat_r (x - d)) in Y; [|lra]. replace (d / (x - d) * (x - d)) with d in Y by (field; lra).
  apply (Rmult_le_compat_r (c + INR n - 1 / 2)) in X; [|lra]. replace (d * ((c + INR n) / (c + INR n - 1 / 2)) * (c + INR n - 1 / 2)) with (d * (c + INR n)) in X by (field; lra). nra.
Qed.

Lemma same : forall s s' l l', 1 / 2 < s -> s <= s' <= s + 1 -> full s l -> full s' l' -> l' * ratio s' = l * ratio s.
Proof.
  intros s s' l l' L [LE GE] F F'. assert (P := full_pos _ _ F). assert (P' := full_pos _ _ F').
  assert (Q := ratio_pos s). assert (Q' := ratio_pos s'). apply Rle_antisym.
  - apply (squeeze s); [apply Rmult_lt_0_compat; assumption|exact L|]. intros n. assert (PN := pos_INR n).
    destruct (periodic n s l L F) as (a & A & EA). destruct (periodic n s' l') as (b & B & EB); [lra|exact F'|]. rewrite <- EA, <- EB.
    assert (b <= a) by (apply (full_decr (s + INR n) (s' + INR n)); [lra|exact A|exact B]).
    assert (X : ratio (s' + INR n) <= ratio (s + INR n + 1)) by (apply ratio_incr; lra). rewrite ratio_S in X by lra.
    assert (PB := full_pos _ _ B). assert (PA := full_pos _ _ A). assert (R1 := ratio_pos (s' + INR n)).
    apply Rle_trans with (a * ratio (s' + INR n)); [apply Rmult_le_compat_r; lra|]. replace (a * ratio (s + INR n) * ((s + INR n) / (s + INR n - 1 / 2))) with (a * (ratio (s + INR n) * ((s + INR n) / (s + INR n - 1 / 2)))) by ring.
    apply Rmult_le_compat_l; lra.
  - apply (squeeze s); [apply Rmult_lt_0_compat; assumption|exact L|]. intros n. assert (PN := pos_INR n).
    destruct (periodic n s l L F) as (a & A & EA). destruct (periodic n s' l') as (b & B & EB); [lra|exact F'|]. rewrite <- EA, <- EB.
    assert (A' := full_up _ _ (ltac:(lra) : 1 / 2 < s + INR n) A).
    assert (X : (2 * (s + INR n) - 1) / (2 * (s + INR n)) * a <= b) by (apply (full_decr (s' + INR n) (s + INR n + 1)); [lra|exact B|exact A']).
    assert (Y : ratio (s + INR n) <= ratio (s' + INR n)) by (apply ratio_incr; lra).
    assert (PB := full_pos _ _ B). assert (PA := full_pos _ _ A). assert (R1 := ratio_pos (s + INR n)).
    set (c := s + INR n) in *. assert (PC : 1 / 2 < c) by (unfold c; lra).
    apply Rle_trans with (b * (c / (c - 1 / 2)) * ratio c).
    + apply Rmult_le_compat_r; [lra|]. apply (Rmult_le_compat_r (c / (c - 1 / 2))) in X; [|left; apply Rdiv_lt_0_compat; lra].
      replace ((2 * c - 1) / (2 * c) * a * (c / (c - 1 / 2))) with a in X by (field; lra). exact X.
    + replace (b * ratio (s' + INR n) * (c / (c - 1 / 2))) with (b * (c / (c - 1 / 2)) * ratio (s' + INR n)) by ring.
      apply Rmult_le_compat_l; [|exact Y]. apply Rmult_le_pos; [lra|]. left. apply Rdiv_lt_0_compat; lra.
Qed.

Lemma lgamma_half : exp (lgamma (1 / 2)) = sqrt PI.
Proof.
  assert (E := same 1 (3 / 2) (PI / 2) 1 ltac:(lra) ltac:(lra) full_one full_three). unfold ratio in E.
  replace (3 / 2 - 1 / 2) with 1 in E by lra. replace (1 - 1 / 2) with (1 / 2) in E by lra. replace (3 / 2) with (1 / 2 + 1) in E by lra. rewrite lgamma_rec in E by lra. rewrite lgamma_1 in E.
  replace (lgamma (1 / 2) + ln (1 / 2) - 0) with (lgamma (1 / 2) + ln (1 / 2)) in E by ring. replace (0 - lgamma (1 / 2)) with (- lgamma (1 / 2)) in E by ring.
  rewrite exp_plus, exp_Ropp, exp_ln in E by lra. assert (P := exp_pos (lgamma (1 / 2))). set (g := exp (lgamma (1 / 2))) in *.
  assert (GG : g * g = PI). { apply (Rmult_eq_compat_r g) in E. replace (PI / 2 * / g * g) with (PI / 2) in E by (field; lra). lra. }
  rewrite <- GG. symmetry. apply sqrt_square. lra.
Qed.

Lemma full_value : forall s l, 1 / 2 < s -> full s l -> l * ratio s = sqrt PI / 2.
Proof.
  assert (B : PI / 2 * ratio 1 = sqrt PI / 2).
  { unfold ratio. replace (1 - 1 / 2) with (1 / 2) by lra. rewrite lgamma_1. replace (0 - lgamma (1 / 2)) with (- lgamma (1 / 2)) by ring. rewrite exp_Ropp, lgamma_half.
    assert (P := PI_RGT_0). assert (Q := sqrt_lt_R0 PI P). assert (S := sqrt_sqrt PI ltac:(lra)). apply (Rmult_eq_reg_r (sqrt PI)); [|lra]. replace (PI / 2 * / sqrt PI * sqrt PI) with (PI / 2) by (field; lra). lra. }
  assert (U : forall n s l, 1 <= s <= 1 + INR n + 1 -> full s l -> l * ratio s = sqrt PI / 2).
  { induction n as [|n IH]; intros s l [L G] F.
    - cbn [INR] in G. rewrite <- B. apply same; [lra|lra|apply full_one|exact F].
    - destruct (Rle_lt_dec s 2) as [X|X].
      + rewrite <- B. apply same; [lra|lra|apply full_one|exact F].
      + rewrite S_INR in G. destruct (full_ex (s - 1)) as (k & K); [lra|]. rewrite <- (IH (s - 1) k); [|lra|exact K].
        apply same; [lra|lra|exact K|exact F]. }
  intros s l L F. destruct (Rle_lt_dec 1 s) as [X|X].
  - destruct (INR_unbounded s) as (n & N). apply (U n); [lra|exact F].
  - assert (F' := full_up _ _ L F). rewrite <- (U O (s + 1) _ ltac:(cbn; lra) F'). rewrite ratio_S by exact L. field. lra.
Qed.

(** The integral of the kernel over the half line. *)
Lemma full_gamma : forall s, 1 / 2 < s -> full s (sqrt PI / 2 / ratio s).
Proof.
  intros s L. destruct (full_ex s L) as (l & F). replace (sqrt PI / 2 / ratio s) with l; [exact F|].
  rewrite <- (full_value s l L F). assert (P := ratio_pos s). field. lra.
Qed.
