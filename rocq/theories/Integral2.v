(** The integrals over the real line. *)
From Coq Require Import Reals Lra Lia Psatz QArith Qcanon.
From Coquelicot Require Import Coquelicot.
From Verif Require Import Base Xr Lgamma Lib SpecPrims Integral SpecDensity.
Local Open Scope R_scope.

(** ** Even functions, scaling *)

Lemma even_integral : forall f (l : R), (forall x, continuous f x) -> (forall x, f (- x) = f x) -> is_lim (fun T => RInt f 0 T) p_infty l -> integral f (2 * l).
Proof.
  intros f l C E L eps P. apply is_lim_spec in L. unfold is_lim' in L. destruct (L (mkposreal (eps / 2) ltac:(lra))) as (M & Q). cbn [pos] in Q. exists M. intros u v U V.
  assert (EX : forall a b, ex_RInt f a b) by (intros a b; apply (ex_RInt_continuous f); intros z _; apply C).
  exists (RInt f u v). split; [apply (RInt_correct f u v), EX|].
  assert (N : RInt f u 0 = RInt f 0 (- u)).
  { symmetry. apply is_RInt_unique. rewrite <- (opp_opp (RInt f u 0)). apply (is_RInt_ext (fun y => opp (opp (f (- y))))); [intros x _; rewrite E; apply opp_opp|].
    apply (is_RInt_opp (fun y => opp (f (- y)))). apply (is_RInt_swap (fun y => opp (f (- y)))). apply (is_RInt_comp_opp f).
    rewrite Ropp_involutive, Ropp_0. apply (RInt_correct f u 0), EX. }
  rewrite <- (RInt_Chasles f u 0 v) by apply EX. rewrite N. change (Rabs (RInt f 0 (- u) + RInt f 0 v - 2 * l) < eps).
  assert (A := Q (- u) ltac:(lra)). assert (B := Q v V). apply Rabs_def2 in A. apply Rabs_def2 in B. apply Rabs_def1; lra.
Qed.

Lemma scaled_integral : forall f l c m k, 0 < k -> integral f l -> integral (fun x => c * f ((x - m) / k)) (c * k * l).
Proof.
  intros f l c m k K X eps P. destruct (X (eps / (Rabs (c * k) + 1))) as (M & Q).
  - apply Rdiv_lt_0_compat; [exact P|]. assert (Y := Rabs_pos (c * k)). lra.
  - exists (k * Rabs M + Rabs m). intros u v U V. assert (AM := Rle_abs m). assert (AM' := Rle_abs (- m)). rewrite Rabs_Ropp in AM'. assert (AN := Rle_abs M).
    destruct (Q ((u - m) / k) ((v - m) / k)) as (i & II & BI).
    + apply (Rmult_lt_reg_r k); [exact K|]. replace ((u - m) / k * k) with (u - m) by (field; lra). nra.
    + apply (Rmult_lt_reg_r k); [exact K|]. replace ((v - m) / k * k) with (v - m) by (field; lra). nra.
    + exists (c * k * i). split.
      * apply (is_RInt_ext (fun x => scal (c * k) (scal (/ k) (f (/ k * x + - m / k))))).
        -- intros x _. unfold scal; cbn; unfold mult; cbn. replace (/ k * x + - m / k) with ((x - m) / k) by (field; lra). field. lra.
        -- apply (is_RInt_scal (V := R_NormedModule)). apply (is_RInt_comp_lin f (/ k) (- m / k) u v i).
           replace (/ k * u + - m / k) with ((u - m) / k) by (field; lra). replace (/ k * v + - m / k) with ((v - m) / k) by (field; lra). exact II.
      * replace (c * k * i - c * k * l) with (c * k * (i - l)) by ring. rewrite Rabs_mult. assert (Y := Rabs_pos (c * k)).
        apply Rle_lt_trans with (Rabs (c * k) * (eps / (Rabs (c * k) + 1))); [apply Rmult_le_compat_l; lra|].
        apply (Rmult_lt_reg_r (Rabs (c * k) + 1)); [lra|]. replace (Rabs (c * k) * (eps / (Rabs (c * k) + 1)) * (Rabs (c * k) + 1)) with (Rabs (c * k) * eps) by (field; lra). nra.
Qed.

Lemma kern_integral : forall s, 1 / 2 < s -> integral (kern s) (sqrt PI / ratio s).
Proof.
  intros s L. replace (sqrt PI / ratio s) with (2 * (sqrt PI / 2 / ratio s)) by (assert (P := ratio_pos s); field; lra).
  apply even_integral; [apply kern_continuous|apply kern_even|]. exact (full_gamma s L).
Qed.

Lemma integral_ext : forall f g l, (forall x, f x = g x) -> integral f l -> integral g l.
Proof.
  intros f g l E X eps P. destruct (X eps P) as (M & Q). exists M. intros u v U V. destruct (Q u v U V) as (i & II & B). exists i. split; [|exact B].
  apply (is_RInt_ext f); [intros; apply E|exact II].
Qed.

Lemma student_kern : forall nu mu s2 x, 0 < nu -> 0 < s2 ->
  student_t nu mu s2 x = ratio ((nu + 1) / 2) / sqrt (nu * PI * s2) * kern ((nu + 1) / 2) ((x - mu) / sqrt (nu * s2)).
Proof.
  intros nu mu s2 x N S. unfold student_t, ratio, kern, Rpower. replace ((nu + 1) / 2 - 1 / 2) with (nu / 2) by field. f_equal. f_equal. f_equal. f_equal. f_equal.
  assert (PP : 0 < nu * s2) by nra. assert (Q := sqrt_sqrt (nu * s2) ltac:(lra)). assert (QP := sqrt_lt_R0 _ PP).
  replace ((x - mu) / sqrt (nu * s2) * ((x - mu) / sqrt (nu * s2))) with ((x - mu) * (x - mu) / (sqrt (nu * s2) * sqrt (nu * s2))) by (field; lra). rewrite Q. reflexivity.
Qed.

Lemma student_integral : forall nu mu s2, 0 < nu -> 0 < s2 -> integral (student_t nu mu s2) 1.
Proof.
  intros nu mu s2 N S. assert (PP : 0 < nu * s2) by nra. assert (QP := sqrt_lt_R0 _ PP). assert (P := PI_RGT_0).
  apply (integral_ext _ _ _ (fun x => eq_sym (student_kern nu mu s2 x N S))).
  assert (X := scaled_integral _ _ (ratio ((nu + 1) / 2) / sqrt (nu * PI * s2)) mu _ QP (kern_integral ((nu + 1) / 2) ltac:(lra))).
  match type of X with integral _ ?v => assert (E : v = 1) end; [|rewrite E in X; exact X].
  replace (nu * PI * s2) with (nu * s2 * PI) by ring. rewrite sqrt_mult by lra. assert (R1 := ratio_pos ((nu + 1) / 2)). assert (R2 := sqrt_lt_R0 _ P). field. lra.
Qed.

Lemma student_good : forall nu mu s2 x, 0 < nu -> 0 < s2 -> 0 < student_t nu mu s2 x /\ continuous (student_t nu mu s2) x.
Proof.
  intros nu mu s2 x N S. assert (PP : 0 < nu * s2) by nra. assert (P := PI_RGT_0). split.
  - rewrite student_kern by assumption. apply Rmult_lt_0_compat; [|apply kern_pos]. apply Rdiv_lt_0_compat; [apply ratio_pos|]. apply sqrt_lt_R0. apply Rmult_lt_0_compat; [|lra]. apply Rmult_lt_0_compat; lra.
  - apply (ex_derive_continuous (student_t nu mu s2) x). apply (ex_derive_ext (fun y => ratio ((nu + 1) / 2) / sqrt (nu * PI * s2) * kern ((nu + 1) / 2) ((y - mu) / sqrt (nu * s2)))).
    + intros t. symmetry. apply student_kern; assumption.
    + unfold kern. auto_derive. repeat split; try apply one_sq_pos; try (apply Rgt_not_eq, sqrt_lt_R0; exact PP).
Qed.

(** ** The normal density *)

Definition bell (t : R) : R := exp (- (t * t)).

Lemma bell_continuous : forall x, continuous bell x.
Proof. intros x. apply (ex_derive_continuous bell x). unfold bell. auto_derive. exact Logic.I. Qed.

Lemma bell_int : forall a b, ex_RInt bell a b.
Proof. intros a b. apply (ex_RInt_continuous bell). intros z _. apply bell_continuous. Qed.

Lemma ratio_upper : forall s, 1 / 2 < s -> ratio s * ratio s <= s - 1 / 2.
Proof.
  intros s L. apply Rle_trans with (ratio s * ratio (s + 1 / 2)); [apply Rmult_le_compat_l; [left; apply ratio_pos|apply ratio_incr; lra]|].
  unfold ratio. rewrite <- exp_plus. replace (s + 1 / 2 - 1 / 2) with s by ring. replace (s + 1 / 2) with (s - 1 / 2 + 1) by lra. rewrite lgamma_rec by lra.
  replace (lgamma s - lgamma (s - 1 / 2) + (lgamma (s - 1 / 2) + ln (s - 1 / 2) - lgamma s)) with (ln (s - 1 / 2)) by ring. rewrite exp_ln; lra.
Qed.

Lemma ratio_lower : forall s, 1 < s -> s - 1 <= ratio s * ratio s.
Proof.
  intros s L. apply Rle_trans with (ratio (s - 1 / 2) * ratio s); [|apply Rmult_le_compat_r; [left; apply ratio_pos|apply ratio_incr; lra]].
  unfold ratio. rewrite <- exp_plus. replace (lgamma s) with (lgamma (s - 1 + 1)) by (f_equal; ring). replace (s - 1 / 2 - 1 / 2) with (s - 1) by lra. rewrite lgamma_rec by lra.
  replace (lgamma (s - 1 / 2) - lgamma (s - 1) + (lgamma (s - 1) + ln (s - 1) - lgamma (s - 1 / 2))) with (ln (s - 1)) by ring. rewrite exp_ln; lra.
Qed.

Lemma half_full : forall s l T, 0 <= T -> full s l -> half s T <= l.
Proof.
  intros s l T P F. apply (is_lim_le_loc (fun _ => half s T) (half s) p_infty (half s T) l); [|apply is_lim_const|exact F].
  exists T. intros T' L. apply half_incr. lra.
Qed.

Lemma half_scaled : forall s k T, 0 < k -> RInt (fun t => kern s (t / k)) 0 T = k * half s (T / k).
Proof.
  intros s k T K. apply is_RInt_unique. apply (is_RInt_ext (fun t => scal k (scal (/ k) (kern s (/ k * t + 0))))).
  - intros x _. unfold scal; cbn; unfold mult; cbn. rewrite Rplus_0_r. replace (/ k * x) with (x / k) by (field; lra). field. lra.
  - apply (is_RInt_scal (V := R_NormedModule)). apply (is_RInt_comp_lin (kern s) (/ k) 0 0 T). replace (/ k * 0 + 0) with 0 by ring. replace (/ k * T + 0) with (T / k) by (field; lra). apply half_int.
Qed.

Lemma bell_upper : forall T, 0 <= T -> RInt bell 0 T <= sqrt PI / 2.
Proof.
  intros T P0. assert (PP := PI_RGT_0). assert (Q := sqrt_lt_R0 _ PP).
  assert (B : forall n, RInt bell 0 T <= sqrt PI / 2 * ((2 + INR n) / (2 + INR n - 1 / 2 - 1 / 2))).
  { intros n. assert (PN := pos_INR n). set (s := 2 + INR n). assert (S2 : 2 <= s) by (unfold s; lra). set (k := sqrt s). assert (KK : k * k = s) by (apply sqrt_sqrt; lra). assert (K0 : 0 < k) by (apply sqrt_lt_R0; lra).
    apply Rle_trans with (RInt (fun t => kern s (t / k)) 0 T).
    - apply RInt_le; [exact P0|apply bell_int| |].
      + apply (ex_RInt_continuous (fun t => kern s (t / k))). intros z _. apply (ex_derive_continuous (fun t => kern s (t / k))).
        unfold kern. auto_derive. repeat split; try apply one_sq_pos; lra.
      + intros x _. unfold bell, kern. apply exp_le. replace (x / k * (x / k)) with (x * x / s) by (rewrite <- KK; field; lra).
        assert (X : ln (1 + x * x / s) <= x * x / s) by (apply ln1p_le; apply Rmult_le_pos; [apply Rle_0_sqr|left; apply Rinv_0_lt_compat; lra]).
        apply (Rmult_le_compat_l s) in X; [|lra]. replace (s * (x * x / s)) with (x * x) in X by (field; lra). lra.
    - rewrite half_scaled by exact K0. assert (F := full_gamma s ltac:(lra)). assert (X := half_full s _ (T / k) ltac:(apply Rmult_le_pos; [exact P0|left; apply Rinv_0_lt_compat; exact K0]) F).
      apply Rle_trans with (k * (sqrt PI / 2 / ratio s)); [apply Rmult_le_compat_l; lra|].
      assert (RL := ratio_lower s ltac:(lra)). assert (RP := ratio_pos s). replace (k * (sqrt PI / 2 / ratio s)) with (sqrt PI / 2 * (k / ratio s)) by (field; lra). apply Rmult_le_compat_l; [lra|].
      (* k / ratio <= sqrt (s / (s - 1)) <= s / (s - 1) *)
      replace (s - 1 / 2 - 1 / 2) with (s - 1) by lra. apply (Rmult_le_reg_r (ratio s)); [exact RP|]. replace (k / ratio s * ratio s) with k by (field; lra).
      apply Rsqr_incr_0_var; [|apply Rmult_le_pos; [left; apply Rdiv_lt_0_compat; lra|lra]]. unfold Rsqr. rewrite KK.
      apply Rle_trans with (s / (s - 1) * (s / (s - 1)) * (s - 1)).
      + replace (s / (s - 1) * (s / (s - 1)) * (s - 1)) with (s * (s / (s - 1))) by (field; lra). assert (1 <= s / (s - 1)); [|nra]. apply (Rmult_le_reg_r (s - 1)); [lra|]. replace (s / (s - 1) * (s - 1)) with s by (field; lra). lra.
      + replace (s / (s - 1) * ratio s * (s / (s - 1) * ratio s)) with (s / (s - 1) * (s / (s - 1)) * (ratio s * ratio s)) by ring. apply Rmult_le_compat_l; [|exact RL]. apply Rle_0_sqr. }
  apply Rnot_lt_le. intros N. set (x := RInt bell 0 T) in *. destruct (INR_unbounded (sqrt PI / 2 / (x - sqrt PI / 2))) as (n & Y). specialize (B n). assert (PN := pos_INR n).
  apply (Rmult_lt_compat_r (x - sqrt PI / 2)) in Y; [|lra]. replace (sqrt PI / 2 / (x - sqrt PI / 2) * (x - sqrt PI / 2)) with (sqrt PI / 2) in Y by (field; lra).
  apply (Rmult_le_compat_r (2 + INR n - 1 / 2 - 1 / 2)) in B; [|lra]. replace (sqrt PI / 2 * ((2 + INR n) / (2 + INR n - 1 / 2 - 1 / 2)) * (2 + INR n - 1 / 2 - 1 / 2)) with (sqrt PI / 2 * (2 + INR n)) in B by (field; lra). nra.
Qed.

Definition cap (n : nat) (u : R) : R := (1 - u * u) ^ n.

Lemma cap_continuous : forall n x, continuous (cap n) x.
Proof. intros n x. apply (ex_derive_continuous (cap n) x). unfold cap. auto_derive. exact Logic.I. Qed.

Lemma cap_int : forall n a b, ex_RInt (cap n) a b.
Proof. intros n a b. apply (ex_RInt_continuous (cap n)). intros z _. apply cap_continuous. Qed.

Lemma cap_step : forall n, (2 * INR n + 3) * RInt (cap (S n)) 0 1 = 2 * (INR n + 1) * RInt (cap n) 0 1.
Proof.
  intros n. set (c := 2 * INR n + 3). set (d := 2 * (INR n + 1)).
  assert (D : is_RInt (fun u => c * cap (S n) u - d * cap n u) 0 1 (1 * cap (S n) 1 - 0 * cap (S n) 0)).
  { apply (is_RInt_derive (fun u => u * cap (S n) u)).
    - intros x _. unfold cap. auto_derive; [exact Logic.I|]. cbn [Nat.pred]. unfold c, d. assert (SI := S_INR n). cbn [INR] in SI. rewrite SI. replace (1 + - (x * x)) with (1 - x * x) by ring. cbn [pow]. ring.
    - intros x _. apply (continuous_minus (fun u => c * cap (S n) u)); [apply (continuous_scal_r (V := R_NormedModule) c (cap (S n)))|apply (continuous_scal_r (V := R_NormedModule) d (cap n))]; apply cap_continuous. }
  assert (E : is_RInt (fun u => c * cap (S n) u - d * cap n u) 0 1 (c * RInt (cap (S n)) 0 1 - d * RInt (cap n) 0 1)).
  { apply (is_RInt_minus (fun u => c * cap (S n) u)); apply (is_RInt_scal (V := R_NormedModule)); [apply (RInt_correct (cap (S n)))|apply (RInt_correct (cap n))]; apply cap_int. }
  assert (X : 1 * cap (S n) 1 - 0 * cap (S n) 0 = c * RInt (cap (S n)) 0 1 - d * RInt (cap n) 0 1) by (rewrite <- (is_RInt_unique _ _ _ _ D); apply is_RInt_unique; exact E).
  unfold cap in X at 1. cbn [pow] in X. lra.
Qed.

Lemma cap_full : forall n, full (INR n + 3 / 2) (RInt (cap n) 0 1).
Proof.
  induction n as [|n IH].
  - cbn [INR]. rewrite Rplus_0_l. replace (RInt (cap 0) 0 1) with 1; [exact full_three|]. symmetry. unfold cap. cbn [pow]. rewrite RInt_const. unfold scal; cbn; unfold mult; cbn. ring.
  - rewrite S_INR. assert (P := pos_INR n). replace (INR n + 1 + 3 / 2) with (INR n + 3 / 2 + 1) by ring. assert (X := full_up _ _ (ltac:(lra) : 1 / 2 < INR n + 3 / 2) IH). assert (C := cap_step n).
    replace (RInt (cap (S n)) 0 1) with ((2 * (INR n + 3 / 2) - 1) / (2 * (INR n + 3 / 2)) * RInt (cap n) 0 1); [exact X|].
    apply (Rmult_eq_reg_l (2 * INR n + 3)); [|lra]. rewrite C. field. lra.
Qed.

Lemma cap_bell : forall n u, 0 <= u <= 1 -> cap n u <= exp (- (INR n * (u * u))).
Proof.
  intros n u [A B]. unfold cap. assert (U : 0 <= u * u <= 1) by nra. induction n as [|n IH].
  - cbn. rewrite Rmult_0_l, Ropp_0, exp_0. lra.
  - rewrite S_INR. cbn [pow]. replace (- ((INR n + 1) * (u * u))) with (- (u * u) + - (INR n * (u * u))) by ring. rewrite exp_plus.
    apply Rmult_le_compat; [lra|apply pow_le; lra| |exact IH]. assert (X := exp_ineq1_le (- (u * u))). lra.
Qed.

Lemma bell_scaled : forall n, RInt (fun u => exp (- (INR n * (u * u)))) 0 1 * sqrt (INR n) = RInt bell 0 (sqrt (INR n)).
Proof.
  intros n. set (k := sqrt (INR n)). assert (KK : k * k = INR n) by (apply sqrt_sqrt, pos_INR).
  assert (X : is_RInt (fun y => scal k (bell (k * y + 0))) 0 1 (RInt bell 0 k)).
  { apply (is_RInt_comp_lin bell k 0 0 1). replace (k * 0 + 0) with 0 by ring. replace (k * 1 + 0) with k by ring. apply (RInt_correct bell), bell_int. }
  rewrite <- (is_RInt_unique _ _ _ _ X). rewrite Rmult_comm. symmetry. transitivity (RInt (fun u => scal k (exp (- (INR n * (u * u))))) 0 1).
  - apply RInt_ext. intros u _. f_equal. unfold bell. f_equal. f_equal. rewrite Rplus_0_r, <- KK. ring.
  - apply (RInt_scal (V := R_CompleteNormedModule)). apply (ex_RInt_continuous (fun u => exp (- (INR n * (u * u))))). intros z _. apply (ex_derive_continuous (fun u => exp (- (INR n * (u * u))))). auto_derive. exact Logic.I.
Qed.

Lemma bell_lower : forall n, sqrt PI / 2 * (INR n / (INR n + 1)) <= RInt bell 0 (sqrt (INR n)).
Proof.
  intros n. rewrite <- bell_scaled. assert (PN := pos_INR n). assert (PP := PI_RGT_0). assert (Q := sqrt_lt_R0 _ PP). set (k := sqrt (INR n)). assert (KK : k * k = INR n) by (apply sqrt_sqrt, pos_INR). assert (K0 : 0 <= k) by apply sqrt_pos.
  apply Rle_trans with (RInt (cap n) 0 1 * k).
  - rewrite (full_unique _ _ _ (cap_full n) (full_gamma (INR n + 3 / 2) ltac:(lra))). set (s := INR n + 3 / 2). assert (RU := ratio_upper s ltac:(unfold s; lra)). assert (RP := ratio_pos s).
    replace (sqrt PI / 2 / ratio s * k) with (sqrt PI / 2 * (k / ratio s)) by (field; lra). apply Rmult_le_compat_l; [lra|].
    apply (Rmult_le_reg_r (ratio s)); [exact RP|]. replace (k / ratio s * ratio s) with k by (field; lra). apply Rsqr_incr_0_var; [|exact K0]. unfold Rsqr. rewrite KK.
    replace (s - 1 / 2) with (INR n + 1) in RU by (unfold s; lra). set (r := INR n / (INR n + 1)). assert (R0 : 0 <= r <= 1).
    { unfold r. split; [apply Rmult_le_pos; [lra|left; apply Rinv_0_lt_compat; lra]|]. apply (Rmult_le_reg_r (INR n + 1)); [lra|]. replace (INR n / (INR n + 1) * (INR n + 1)) with (INR n) by (field; lra). lra. }
    assert (RN : r * (INR n + 1) = INR n) by (unfold r; field; lra). replace (r * ratio s * (r * ratio s)) with (r * r * (ratio s * ratio s)) by ring.
    apply Rle_trans with (r * r * (INR n + 1)); [apply Rmult_le_compat_l; [nra|exact RU]|]. nra.
  - apply Rmult_le_compat_r; [exact K0|]. apply RInt_le; [lra|apply cap_int| |].
    + apply (ex_RInt_continuous (fun u => exp (- (INR n * (u * u))))). intros z _. apply (ex_derive_continuous (fun u => exp (- (INR n * (u * u))))). auto_derive. exact Logic.I.
    + intros x B. apply cap_bell. lra.
Qed.

Lemma bell_full : is_lim (fun T => RInt bell 0 T) p_infty (sqrt PI / 2).
Proof.
  apply is_lim_spec. intros [eps P]. cbn [pos]. assert (PP := PI_RGT_0). assert (Q := sqrt_lt_R0 _ PP). destruct (INR_unbounded (sqrt PI / 2 / eps)) as (n & N). assert (PN := pos_INR n).
  exists (sqrt (INR n)). intros T L. assert (SN := sqrt_pos (INR n)). assert (U := bell_upper T ltac:(lra)). assert (W := bell_lower n).
  assert (M : RInt bell 0 (sqrt (INR n)) <= RInt bell 0 T).
  { rewrite <- (RInt_Chasles bell 0 (sqrt (INR n)) T) by apply bell_int.
    assert (X : 0 <= RInt bell (sqrt (INR n)) T) by (apply RInt_ge_0; [lra|apply bell_int|intros x _; left; apply exp_pos]).
    change (RInt bell 0 (sqrt (INR n)) <= RInt bell 0 (sqrt (INR n)) + RInt bell (sqrt (INR n)) T). lra. }
  assert (X : sqrt PI / 2 - eps < sqrt PI / 2 * (INR n / (INR n + 1))).
  { replace (sqrt PI / 2 * (INR n / (INR n + 1))) with (sqrt PI / 2 - sqrt PI / 2 / (INR n + 1)) by (field; lra).
    apply (Rmult_lt_compat_r eps) in N; [|exact P]. replace (sqrt PI / 2 / eps * eps) with (sqrt PI / 2) in N by (field; lra).
    assert (sqrt PI / 2 / (INR n + 1) < eps); [|lra]. apply (Rmult_lt_reg_r (INR n + 1)); [lra|]. replace (sqrt PI / 2 / (INR n + 1) * (INR n + 1)) with (sqrt PI / 2) by (field; lra). nra. }
  apply Rabs_def1; lra.
Qed.

Lemma gaussian_bell : forall mu var x, 0 < var -> gaussian mu var x = / sqrt (2 * PI * var) * bell ((x - mu) / sqrt (2 * var)).
Proof.
  intros mu var x V. unfold gaussian, bell. assert (Q := sqrt_sqrt (2 * var) ltac:(lra)). assert (QP := sqrt_lt_R0 (2 * var) ltac:(lra)).
  replace ((x - mu) / sqrt (2 * var) * ((x - mu) / sqrt (2 * var))) with ((x - mu) * (x - mu) / (sqrt (2 * var) * sqrt (2 * var))) by (field; lra). rewrite Q.
  replace (- ((x - mu) * (x - mu) / (2 * var))) with (- ((x - mu) * (x - mu)) / (2 * var)) by (field; lra). unfold Rdiv. ring.
Qed.

Lemma gaussian_integral : forall mu var, 0 < var -> integral (gaussian mu var) 1.
Proof.
  intros mu var V. assert (PP := PI_RGT_0). assert (Q := sqrt_lt_R0 _ PP). assert (QP := sqrt_lt_R0 (2 * var) ltac:(lra)).
  apply (integral_ext _ _ _ (fun x => eq_sym (gaussian_bell mu var x V))).
  assert (B : integral bell (2 * (sqrt PI / 2))) by (apply even_integral; [apply bell_continuous|intros x; unfold bell; f_equal; ring|exact bell_full]).
  assert (X := scaled_integral _ _ (/ sqrt (2 * PI * var)) mu _ QP B).
  match type of X with integral _ ?v => assert (E : v = 1) end; [|rewrite E in X; exact X].
  replace (2 * PI * var) with (2 * var * PI) by ring. rewrite sqrt_mult by lra. field. lra.
Qed.

Lemma gaussian_good : forall mu var x, 0 < var -> 0 < gaussian mu var x /\ continuous (gaussian mu var) x.
Proof.
  intros mu var x V. assert (PP := PI_RGT_0). assert (Q := sqrt_lt_R0 (2 * PI * var) ltac:(apply Rmult_lt_0_compat; lra)). split.
  - unfold gaussian. apply Rdiv_lt_0_compat; [apply exp_pos|exact Q].
  - apply (ex_derive_continuous (gaussian mu var) x). unfold gaussian. auto_derive. exact Logic.I.
Qed.
