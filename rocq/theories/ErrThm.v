(** Proof of C77, continued: two moments of a sum over the samples of a view. *)
From Coq Require Import List ZArith QArith Qcanon Reals Bool String Permutation Lia Lra FunctionalExtensionality.
From Verif Require Import Base Xr Samp Lgamma Prims Cgpm Entropy Lib SpecPrims PrimsInv PrimsDens PrimsThm PrimsThm2
  SpecComp CompInv CompDens CompThm SpecSim SimShape SimLaw SimTotal ChainLaw.
From Verif Require Import SpecEntropy EntropyThm SpecMany SpecError ManyLaw ManyLaw2 ManyLaw3 ManyLaw4 ManyLaw5 ManyLaw6 ManyLaw7 IidLaw.
Import ListNotations.
Local Open Scope R_scope.

(** ** Products of numbers near 1 *)

(** The sum of the products of two of the numbers. *)
Fixpoint cross (l : list R) : R := match l with [] => 0 | x :: l' => cross l' + x * rsum l' end.

Lemma square_of_sum : forall l, rsum l * rsum l = rsum (map (fun x => x * x) l) + 2 * cross l.
Proof.
  induction l as [|x l IH]; cbn [map cross]; [change (rsum []) with 0; lra|].
  change (rsum (?x :: ?y)) with (x + rsum y). nra.
Qed.

Definition near (t : R) (l : list R) : R := rprod (map (fun x => 1 + t * x) l).
Definition large (l : list R) : R := rprod (map (fun x => 1 + Rabs x) l).

Lemma large_pos : forall l, 0 <= large l.
Proof.
  unfold large. induction l as [|x l IH]; cbn [map]; [change (rprod []) with 1; lra|].
  change (rprod (?x :: ?y)) with (x * rprod y). apply Rmult_le_pos; [|exact IH]. assert (P := Rabs_pos x). lra.
Qed.

Lemma near_bounds : forall t l, Rabs t <= 1 ->
  Rabs (near t l - 1) <= Rabs t * large l /\
  Rabs (near t l - 1 - t * rsum l) <= Rabs t * Rabs t * large l /\
  Rabs (near t l - 1 - t * rsum l - t * t * cross l) <= Rabs t * Rabs t * Rabs t * large l.
Proof.
  intros t l Ht. assert (P := Rabs_pos t). induction l as [|x l (A & B & D)].
  - unfold near, large. cbn [map cross]. change (rprod []) with 1. change (rsum []) with 0.
    replace (1 - 1) with 0 by lra. replace (0 - t * 0 - t * t * 0) with 0 by lra. replace (0 - t * 0) with 0 by lra. rewrite Rabs_R0. nra.
  - assert (N : near t (x :: l) = (1 + t * x) * near t l) by reflexivity.
    assert (L : large (x :: l) = (1 + Rabs x) * large l) by reflexivity.
    assert (S : rsum (x :: l) = x + rsum l) by reflexivity. cbn [cross].
    rewrite N, L, S. assert (Q := large_pos l). assert (X := Rabs_pos x).
    set (p := near t l) in *. set (q := large l) in *. set (s := rsum l) in *. set (c := cross l) in *.
    assert (PB : Rabs p <= q).
    { clear - Ht. unfold p, q, near, large. induction l as [|y l IH]; cbn [map].
      - change (rprod []) with 1. rewrite Rabs_R1. lra.
      - change (rprod (?x :: ?y)) with (x * rprod y). rewrite Rabs_mult. apply Rmult_le_compat; try apply Rabs_pos; [|exact IH].
        eapply Rle_trans; [apply Rabs_triang|]. rewrite Rabs_R1, Rabs_mult. assert (Y := Rabs_pos y). assert (T := Rabs_pos t). nra. }
    split; [|split].
    + replace ((1 + t * x) * p - 1) with ((p - 1) + t * x * p) by ring. eapply Rle_trans; [apply Rabs_triang|].
      rewrite !Rabs_mult. replace (Rabs t * ((1 + Rabs x) * q)) with (Rabs t * q + Rabs t * Rabs x * q) by ring.
      apply Rplus_le_compat; [exact A|]. apply Rmult_le_compat_l; [apply Rmult_le_pos; assumption|exact PB].
    + replace ((1 + t * x) * p - 1 - t * (x + s)) with ((p - 1 - t * s) + t * x * (p - 1)) by ring. eapply Rle_trans; [apply Rabs_triang|].
      rewrite !Rabs_mult. replace (Rabs t * Rabs t * ((1 + Rabs x) * q)) with (Rabs t * Rabs t * q + Rabs t * Rabs x * (Rabs t * q)) by ring.
      apply Rplus_le_compat; [exact B|]. apply Rmult_le_compat_l; [apply Rmult_le_pos; assumption|exact A].
    + replace ((1 + t * x) * p - 1 - t * (x + s) - t * t * (c + x * s)) with ((p - 1 - t * s - t * t * c) + t * x * (p - 1 - t * s)) by ring.
      eapply Rle_trans; [apply Rabs_triang|].
      rewrite !Rabs_mult. replace (Rabs t * Rabs t * Rabs t * ((1 + Rabs x) * q)) with (Rabs t * Rabs t * Rabs t * q + Rabs t * Rabs x * (Rabs t * Rabs t * q)) by ring.
      apply Rplus_le_compat; [exact D|]. apply Rmult_le_compat_l; [apply Rmult_le_pos; assumption|exact B].
Qed.

Lemma small_zero : forall a M, (forall t, 0 < t -> t <= 1 -> Rabs a <= t * M) -> a = 0.
Proof.
  intros a M H. destruct (Req_dec a 0) as [|N]; [assumption|exfalso]. assert (P := Rabs_pos_lt a N).
  assert (H1 := H 1 ltac:(lra) ltac:(lra)). assert (MP : 0 < M) by lra.
  assert (T : 0 < Rabs a / (2 * M) <= 1 / 2).
  { split; [apply Rdiv_lt_0_compat; lra|]. apply Rmult_le_reg_r with (2 * M); [lra|]. unfold Rdiv. rewrite Rmult_assoc, Rinv_l by lra. lra. }
  assert (H2 := H (Rabs a / (2 * M)) (proj1 T) ltac:(lra)).
  replace (Rabs a / (2 * M) * M) with (Rabs a / 2) in H2 by (field; lra). lra.
Qed.

Lemma expect_abs : forall {A} (m : samp (out A)) (P : A -> Prop) (f b : A -> R), calm m -> always m (if_ok P) ->
  (forall a, P a -> Rabs (f a) <= b a) -> Rabs (expect m (on_ok f)) <= expect m (on_ok b).
Proof.
  intros A m P f b CM AL H.
  assert (X : forall s, s = 1 \/ s = -1 -> 0 <= expect m (on_ok b) + s * expect m (on_ok f)).
  { intros s Hs. rewrite <- expect_scale, <- expect_plus. apply expect_nonneg; [apply CM|].
    revert AL. apply always_imp. intros [a|e]; cbn [if_ok on_ok]; [|lra]. intros Pa.
    specialize (H a Pa). assert (U := Rle_abs (f a)). assert (V := Rle_abs (- f a)). rewrite Rabs_Ropp in V. destruct Hs as [-> | ->]; lra. }
  assert (X1 := X 1 ltac:(now left)). assert (X2 := X (-1) ltac:(now right)). apply Rabs_le. lra.
Qed.

(** ** The moments *)

Section Moments.
Variables (m : cgpm) (ts : list Z) (C : row) (V : list row) (g : row -> R) (n : nat).
Hypotheses (W : wf m) (VW : view m) (Q : askable m ts C) (DI : discrete m ts) (EX : exhausts m ts C V)
  (RD : reads (outputs m) g) (Hn : n <> 0%nat).

Let sim := simulate m None ts C [] (Some n).

Lemma sim_calm : calm sim.
Proof. destruct (askable_ready m ts C Q DI) as (RY & NE & S1 & S2). apply ready_calm; auto. Qed.

Definition many (r : sres) : Prop := exists l, r = SMany l /\ List.length l = n.

Lemma sim_many : always sim (if_ok many).
Proof.
  generalize (query_samples m ts C n W Q Hn). apply always_imp. intros r (l & -> & L & _). exists l. auto.
Qed.

(** Any function: the product over the samples. *)
Lemma view_product : forall h, reads (outputs m) h -> expect sim (product_over h) = (mean_over m C V h) ^ n.
Proof.
  intros h RH. destruct (askable_ready m ts C Q DI) as (RY & NE & S1 & S2).
  destruct (view_free m W VW None ts C h RY NE S1 S2) as (B & HB). unfold sim. rewrite (HB n Hn). f_equal.
  unfold mean_over. rewrite <- (one_mean m ts C V h W RY NE S1 S2 EX RH), <- (pow_1 B), <- (HB 1%nat ltac:(discriminate)).
  apply (expect_calm _ _ _ _ (ready_calm m None ts C 1 W RY NE S1 S2 ltac:(discriminate)) (ready_shape m None ts C 1 W RY S1 ltac:(discriminate))).
  intros r Hr. destruct r as [|l]; [destruct Hr|]. destruct Hr as [L _]. destruct l as [|s [|]]; try discriminate.
  cbn. lra.
Qed.

(** Any function: the sum over the samples. *)
Lemma view_sum : forall h, reads (outputs m) h -> expect sim (total h) = INR n * mean_over m C V h.
Proof.
  intros h RH. destruct (askable_ready m ts C Q DI) as (RY & NE & S1 & S2).
  apply additive_mean; auto. left. split; assumption.
Qed.

Definition across (F : list R -> R) (h : row -> R) (r : sres) : R := match r with SMany l => F (map h l) | SOne _ => 0 end.

(** Where the mean is 0 so is the mean of the cross products. *)
Lemma cross_zero : forall h, reads (outputs m) h -> mean_over m C V h = 0 -> expect sim (on_ok (across cross h)) = 0.
Proof.
  intros h RH M0. apply (small_zero _ (expect sim (on_ok (across large h)))). intros t T0 T1.
  assert (AT : Rabs t = t) by (apply Rabs_right; lra).
  assert (PR : expect sim (on_ok (across (near t) h)) = 1).
  { transitivity (expect sim (product_over (fun s => 1 + t * h s))).
    - apply (expect_calm _ _ _ _ sim_calm sim_many). intros r (l & -> & _). cbn [on_ok across product_over]. unfold near. rewrite map_map. reflexivity.
    - rewrite view_product by (intros s s' L; rewrite (RH s s' L); reflexivity).
      replace (mean_over m C V (fun s => 1 + t * h s)) with (rsum (map (fun T => prob m T C) V) + t * mean_over m C V h).
      + rewrite M0. destruct EX as (_ & _ & ->). rewrite Rmult_0_r, Rplus_0_r. apply pow1.
      + unfold mean_over. rewrite <- rsum_scal, <- rsum_add. apply rsum_ext. intros S _. ring. }
  assert (SM : expect sim (on_ok (across rsum h)) = 0).
  { transitivity (expect sim (total h)).
    - apply (expect_calm _ _ _ _ sim_calm sim_many). intros r (l & -> & _). reflexivity.
    - rewrite view_sum by exact RH. rewrite M0. lra. }
  assert (E : expect sim (on_ok (across (fun l => near t l - 1 - t * rsum l - t * t * cross l) h)) = - (t * t) * expect sim (on_ok (across cross h))).
  { transitivity (expect sim (fun r => (on_ok (across (near t) h) r + (on_ok (fun _ => -1) r + - t * on_ok (across rsum h) r)) + - (t * t) * on_ok (across cross h) r)).
    - apply (expect_calm _ _ _ _ sim_calm sim_many). intros r (l & -> & _). cbn [on_ok across]. ring.
    - rewrite !expect_plus, !expect_scale, PR, SM, calm_const by exact sim_calm. ring. }
  assert (B := expect_abs sim many (across (fun l => near t l - 1 - t * rsum l - t * t * cross l) h)
    (across (fun l => t * t * t * large l) h) sim_calm sim_many).
  assert (B' : Rabs (expect sim (on_ok (across (fun l => near t l - 1 - t * rsum l - t * t * cross l) h))) <=
     t * t * t * expect sim (on_ok (across large h))).
  { rewrite <- expect_scale.
    replace (expect sim (fun a => t * t * t * on_ok (across large h) a)) with (expect sim (on_ok (across (fun l => t * t * t * large l) h))).
    - apply B. intros r (l & -> & _). cbn [across]. destruct (near_bounds t (map h l)) as (_ & _ & D); [lra|]. rewrite AT in D. exact D.
    - apply (expect_calm _ _ _ _ sim_calm sim_many). intros r (l & -> & _). reflexivity. }
  rewrite E, Rabs_mult, Rabs_Ropp, (Rabs_right (t * t)) in B' by nra.
  apply Rmult_le_reg_l with (t * t); [nra|]. lra.
Qed.

Let mu := mean_over m C V g.
Let off (s : row) : R := g s - mu.

Lemma off_reads : reads (outputs m) off.
Proof. intros s s' L. unfold off. rewrite (RD s s' L). reflexivity. Qed.

Lemma off_mean : mean_over m C V off = 0.
Proof.
  transitivity (mean_over m C V g + - mu * rsum (map (fun T => prob m T C) V)).
  - unfold mean_over at 1 2. rewrite <- rsum_scal, <- rsum_add. apply rsum_ext. intros S _. unfold off. ring.
  - destruct EX as (_ & _ & ->). fold mu. ring.
Qed.

Lemma squares_mean : expect sim (on_ok (across (fun l => rsum (map (fun x => x * x) l)) off)) = INR n * spread_over m C V g.
Proof.
  transitivity (expect sim (total (fun s => off s * off s))).
  - apply (expect_calm _ _ _ _ sim_calm sim_many). intros r (l & -> & _). cbn [on_ok across total]. rewrite map_map. reflexivity.
  - rewrite view_sum; [reflexivity|]. intros s s' L. rewrite (off_reads s s' L). reflexivity.
Qed.

Lemma sum_square : expect sim (on_ok (across (fun l => rsum l * rsum l) off)) = INR n * spread_over m C V g.
Proof.
  transitivity (expect sim (fun r => on_ok (across (fun l => rsum (map (fun x => x * x) l)) off) r + 2 * on_ok (across cross off) r)).
  - apply (expect_calm _ _ _ _ sim_calm sim_many). intros r (l & -> & _). cbn [on_ok across]. apply square_of_sum.
  - rewrite expect_plus, expect_scale, squares_mean, cross_zero; [ring|exact off_reads|exact off_mean].
Qed.

(** ** The estimate *)

Lemma estimate_is : forall rs, rs <> [] -> get_estimate (map Fin rs) = mkEstimate (Fin (rmean rs))
  (Fin (/ INR (List.length rs) * rmean (map (fun r => (r - rmean rs) * (r - rmean rs)) rs))).
Proof.
  intros rs H. unfold get_estimate, numpy_var. rewrite mean_fin by exact H. rewrite map_length.
  assert (E : map (fun x => xsquare (xsub x (Fin (rmean rs)))) (map Fin rs) = map Fin (map (fun r => (r - rmean rs) * (r - rmean rs))%R rs)).
  { rewrite !map_map. apply map_ext. intros r. cbn. f_equal. }
  rewrite E, mean_fin; [reflexivity|]. destruct rs; [congruence|discriminate].
Qed.

Variable est : list row -> out (list xr).
Hypothesis HE : forall l, (forall s, In s l -> Permutation (keys s) ts /\ sample_ok m None C s) -> est l = Ok (map (fun s => Fin (g s)) l).

Let run := sobind (sobind sim (fun r => Ret (obind (samples_of r) est))) (fun l => Ret (Ok (get_estimate l))).

Lemma run_is : forall Phi : out estimate -> R,
  expect run Phi = expect sim (on_ok (across (fun rs => Phi (Ok (get_estimate (map Fin rs)))) g)).
Proof.
  intros Phi. unfold run. rewrite expect_sobind, expect_sobind.
  apply (expect_always _ _ _ _ (proj1 sim_calm) (query_samples m ts C n W Q Hn)).
  intros r (l & -> & LL & Hl). cbn [samples_of obind expect on_ok across]. rewrite (HE l Hl), map_map. reflexivity.
Qed.

Lemma INRn : INR n <> 0.
Proof. apply not_0_INR. exact Hn. Qed.

Lemma off_sum : forall l, List.length l = n -> rsum (map off l) = rsum (map g l) - INR n * mu.
Proof.
  intros l <-. clear. induction l as [|s l IH]; cbn [map]; [change (rsum []) with 0; cbn; lra|].
  change (rsum (?x :: ?y)) with (x + rsum y). rewrite IH. unfold off. cbn [List.length]. rewrite S_INR. ring.
Qed.

Theorem error_is : expect run (squared_error mu) = spread_over m C V g / INR n.
Proof.
  rewrite run_is. transitivity (expect sim (fun r => / (INR n * INR n) * on_ok (across (fun l => rsum l * rsum l) off) r)).
  - apply (expect_calm _ _ _ _ sim_calm sim_many). intros r (l & -> & LL). cbn [on_ok across].
    rewrite estimate_is by (destruct l; [cbn in LL; congruence|discriminate]). unfold squared_error. cbn [mean_of est_mean].
    unfold rmean. rewrite map_length, LL, (off_sum l LL). field. exact INRn.
  - rewrite expect_scale, sum_square. field. exact INRn.
Qed.

Lemma deviations : forall rs c, rsum (map (fun r => (r - c) * (r - c)) rs) = rsum (map (fun r => r * r) rs) - 2 * c * rsum rs + INR (List.length rs) * (c * c).
Proof.
  intros rs c. induction rs as [|r rs IH]; cbn [map]; [change (rsum []) with 0; cbn; lra|].
  change (rsum (?x :: ?y)) with (x + rsum y). rewrite IH. cbn [List.length]. rewrite S_INR. ring.
Qed.

Theorem reported_is : expect run reported = (INR n - 1) / INR n * (spread_over m C V g / INR n).
Proof.
  rewrite run_is.
  transitivity (expect sim (fun r => / (INR n * INR n) * (on_ok (across (fun l => rsum (map (fun x => x * x) l)) off) r +
     - / INR n * on_ok (across (fun l => rsum l * rsum l) off) r))).
  - apply (expect_calm _ _ _ _ sim_calm sim_many). intros r (l & -> & LL). cbn [on_ok across].
    rewrite estimate_is by (destruct l; [cbn in LL; congruence|discriminate]). cbn [reported est_variance].
    assert (E : rsum (map (fun r => (r - rmean (map g l)) * (r - rmean (map g l))) (map g l)) =
      rsum (map (fun x => x * x) (map off l)) + - / INR n * (rsum (map off l) * rsum (map off l))).
    { assert (MO : map (fun r => (r - rmean (map g l)) * (r - rmean (map g l))) (map g l) =
        map (fun r => (r - (rmean (map g l) - mu)) * (r - (rmean (map g l) - mu))) (map off l)).
      { rewrite !map_map. apply map_ext. intros s. unfold off. ring. }
      rewrite MO, deviations, map_length, LL. unfold rmean. rewrite map_length, LL, (off_sum l LL). field. exact INRn. }
    set (q := rsum (map (fun x => x * x) (map off l)) + - / INR n * (rsum (map off l) * rsum (map off l))) in *.
    unfold rmean at 1. rewrite E. rewrite !map_length, LL. field. exact INRn.
  - rewrite expect_scale, expect_plus, expect_scale, squares_mean, sum_square. field. exact INRn.
Qed.
End Moments.
