(** C77: the samples of a view drawn at once are independent, and the error of estimates. *)
From Coq Require Import List ZArith QArith Qcanon Reals Bool String Permutation Lia Lra.
From Verif Require Import Base Xr Samp Lgamma Prims Cgpm Entropy Lib SpecPrims SpecComp CompThm SpecSim SimLaw ChainLaw
  PropComp SpecWalks WalksThm SpecEntropy SpecMany SpecError ManyLaw ManyLaw5 ManyLaw6 ManyLaw7 IidLaw ErrThm ErrThm2 PropMany.
Import ListNotations.
Local Open Scope Z_scope.

(** ** C77 *)

(** Samples of a view drawn at once are independent draws: the mean of a product of any
    function of each of the [n] samples is the mean of the function to the power [n]. *)
Theorem C77_independent : forall m ts C V g n, grown m -> view m -> askable m ts C -> discrete m ts -> exhausts m ts C V ->
  reads (outputs m) g -> n <> 0%nat ->
  expect (simulate m None ts C [] (Some n)) (product_over g) = (mean_over m C V g ^ n)%R.
Proof.
  intros m ts C V g n RE VW Q DI EX RD Hn. apply (view_product m ts C V n); auto. apply grown_wf. exact RE.
Qed.
Print Assumptions C77_independent.

(** The mean squared error of an estimate of the entropy is the spread of minus the log
    probability over the number of samples, which is 100 where no number is asked for. *)
Theorem C77_entropy : forall m t0 t1 C M T N V, grown m -> view m -> askable m t0 (given_cells C) -> discrete m t0 ->
  (forall k, In k t0 <-> In k t1) -> M = None \/ M = Some [] -> exhausts m t0 (given_cells C) V ->
  expect (mutual_information m t0 t1 C M T N) (squared_error (entropy m (given_cells C) V)) =
  (spread_over m (given_cells C) V (surprise m (given_cells C)) / INR (sample_size N))%R.
Proof.
  intros m t0 t1 C M T N V RE VW Q DI E HM EX. apply grown_wf in RE.
  destruct (entropy_made m t0 t1 C M T N V RE (or_introl VW) Q DI E HM EX) as (g & MD & Hg).
  rewrite entropy_is_mean, <- (mean_same _ _ _ _ _ Hg), <- (spread_same _ _ _ _ _ Hg).
  exact (proj1 (made_error m t0 _ V _ _ g RE VW Q DI EX (size_pos N) MD)).
Qed.
Print Assumptions C77_entropy.

(** So it is for an estimate of the mutual information. *)
Theorem C77_information : forall m t0 t1 C M T N V, grown m -> view m -> askable m (t0 ++ t1) (given_cells C) ->
  discrete m (t0 ++ t1) -> t0 <> [] -> t1 <> [] -> M = None \/ M = Some [] -> exhausts m (t0 ++ t1) (given_cells C) V ->
  expect (mutual_information m t0 t1 C M T N) (squared_error (information m t0 t1 (given_cells C) V)) =
  (spread_over m (given_cells C) V (association m t0 t1 (given_cells C)) / INR (sample_size N))%R.
Proof.
  intros m t0 t1 C M T N V RE VW Q DI N0 N1 HM EX. apply grown_wf in RE.
  destruct (information_made m t0 t1 C M T N V RE (or_introl VW) Q DI N0 N1 HM EX) as (g & MD & Hg).
  rewrite information_is_mean, <- (mean_same _ _ _ _ _ Hg), <- (spread_same _ _ _ _ _ Hg).
  exact (proj1 (made_error m _ _ V _ _ g RE VW Q DI EX (size_pos N) MD)).
Qed.
Print Assumptions C77_information.

(** Hence estimates from more samples are seldom far off: the chance of an error of at
    least [eps] is at most the spread over the number of samples times [eps] squared. *)
Theorem C77_entropy_far : forall m t0 t1 C M T N V eps, grown m -> view m -> askable m t0 (given_cells C) -> discrete m t0 ->
  (forall k, In k t0 <-> In k t1) -> M = None \/ M = Some [] -> exhausts m t0 (given_cells C) V -> (0 < eps)%R ->
  (expect (mutual_information m t0 t1 C M T N) (off_by eps (entropy m (given_cells C) V)) <=
  spread_over m (given_cells C) V (surprise m (given_cells C)) / (INR (sample_size N) * (eps * eps)))%R.
Proof.
  intros m t0 t1 C M T N V eps RE VW Q DI E HM EX He. apply grown_wf in RE.
  destruct (entropy_made m t0 t1 C M T N V RE (or_introl VW) Q DI E HM EX) as (g & MD & Hg).
  rewrite entropy_is_mean, <- (mean_same _ _ _ _ _ Hg), <- (spread_same _ _ _ _ _ Hg).
  exact (made_far m t0 _ V _ _ g eps RE VW Q DI EX (size_pos N) MD He).
Qed.
Print Assumptions C77_entropy_far.

Theorem C77_information_far : forall m t0 t1 C M T N V eps, grown m -> view m -> askable m (t0 ++ t1) (given_cells C) ->
  discrete m (t0 ++ t1) -> t0 <> [] -> t1 <> [] -> M = None \/ M = Some [] -> exhausts m (t0 ++ t1) (given_cells C) V -> (0 < eps)%R ->
  (expect (mutual_information m t0 t1 C M T N) (off_by eps (information m t0 t1 (given_cells C) V)) <=
  spread_over m (given_cells C) V (association m t0 t1 (given_cells C)) / (INR (sample_size N) * (eps * eps)))%R.
Proof.
  intros m t0 t1 C M T N V eps RE VW Q DI N0 N1 HM EX He. apply grown_wf in RE.
  destruct (information_made m t0 t1 C M T N V RE (or_introl VW) Q DI N0 N1 HM EX) as (g & MD & Hg).
  rewrite information_is_mean, <- (mean_same _ _ _ _ _ Hg), <- (spread_same _ _ _ _ _ Hg).
  exact (made_far m _ _ V _ _ g eps RE VW Q DI EX (size_pos N) MD He).
Qed.
Print Assumptions C77_information_far.

(** The variance reported beside the mean is, on average, the mean squared error times
    (n - 1) / n. *)
Theorem C77_reported : forall m t0 t1 C M T N V, grown m -> view m -> M = None \/ M = Some [] ->
  let n := INR (sample_size N) in
  (askable m t0 (given_cells C) -> discrete m t0 -> (forall k, In k t0 <-> In k t1) -> exhausts m t0 (given_cells C) V ->
   expect (mutual_information m t0 t1 C M T N) reported =
   ((n - 1) / n * expect (mutual_information m t0 t1 C M T N) (squared_error (entropy m (given_cells C) V)))%R) /\
  (askable m (t0 ++ t1) (given_cells C) -> discrete m (t0 ++ t1) -> t0 <> [] -> t1 <> [] -> exhausts m (t0 ++ t1) (given_cells C) V ->
   expect (mutual_information m t0 t1 C M T N) reported =
   ((n - 1) / n * expect (mutual_information m t0 t1 C M T N) (squared_error (information m t0 t1 (given_cells C) V)))%R).
Proof.
  intros m t0 t1 C M T N V RE VW HM n. split.
  - intros Q DI E EX. rewrite (C77_entropy m t0 t1 C M T N V RE VW Q DI E HM EX). apply grown_wf in RE.
    destruct (entropy_made m t0 t1 C M T N V RE (or_introl VW) Q DI E HM EX) as (g & MD & Hg).
    rewrite <- (spread_same _ _ _ _ _ Hg). exact (proj2 (made_error m t0 _ V _ _ g RE VW Q DI EX (size_pos N) MD)).
  - intros Q DI N0 N1 EX. rewrite (C77_information m t0 t1 C M T N V RE VW Q DI N0 N1 HM EX). apply grown_wf in RE.
    destruct (information_made m t0 t1 C M T N V RE (or_introl VW) Q DI N0 N1 HM EX) as (g & MD & Hg).
    rewrite <- (spread_same _ _ _ _ _ Hg). exact (proj2 (made_error m _ _ V _ _ g RE VW Q DI EX (size_pos N) MD)).
Qed.
Print Assumptions C77_reported.

(** ** The two coins of C74 *)

Lemma two_coins_association : map (association two_coins [7] [17] []) coin_values = [ln (1 / 2); ln (3 / 2); ln (3 / 2); ln (1 / 2)] /\
  map (fun T => prob two_coins T []) coin_values = [1 / 8; 3 / 8; 3 / 8; 1 / 8]%R.
Proof.
  destruct two_coins_dens as (D0 & D1 & D2 & D3 & D4 & D5 & D6 & D7 & D8).
  assert (N7 : NoDup [7; 17]) by (repeat constructor; cbn; intuition lia).
  assert (A7 : forall a b, at_columns [7] [(7, a); (17, b)] = [(7, a)]) by reflexivity.
  assert (A17 : forall a b, at_columns [17] [(7, a); (17, b)] = [(17, b)]) by reflexivity.
  unfold association, coin_values. cbn [map]. rewrite !A7, !A17.
  rewrite !two_coins_prob by (try discriminate; try exact N7; try (repeat constructor; cbn; intuition lia);
    try (intros k Hk; cbn in *; tauto); apply two_coins_plausible; vm_compute; reflexivity).
  rewrite D1, D2, D3, D4, D5, D6, D7, D8. split; [|reflexivity].
  replace (1 / 8 / (1 / 2 * (1 / 2)))%R with (1 / 2)%R by lra. replace (3 / 8 / (1 / 2 * (1 / 2)))%R with (3 / 2)%R by lra. reflexivity.
Qed.

Lemma two_coins_spread : spread_over two_coins [] coin_values (association two_coins [7] [17] []) = (3 / 16 * (ln 3 * ln 3))%R.
Proof.
  destruct two_coins_association as [A P].
  assert (L3 : ln 3 = (ln (3 / 2) - ln (1 / 2))%R).
  { transitivity (ln (3 / 2 * / (1 / 2))); [f_equal; lra|]. rewrite ln_mult, ln_Rinv by lra. lra. }
  rewrite L3. unfold spread_over, mean_over, coin_values in *. cbn [map] in *. injection A as A1 A2 A3 A4. injection P as P1 P2 P3 P4.
  rewrite A1, A2, A3, A4, P1, P2, P3, P4. cbn [rsum fold_right]. field.
Qed.

(** The hundred samples drawn when no number is asked for. *)
Example C77_information_case : exhausts two_coins [7; 17] [] coin_values /\
  expect (mutual_information two_coins [7] [17] None None None None)
    (squared_error (information two_coins [7] [17] [] coin_values)) = (3 / 1600 * (ln 3 * ln 3))%R.
Proof.
  destruct two_coins_exhausts as [EX _]. split; [exact EX|].
  assert (N7 : NoDup [7; 17]) by (repeat constructor; cbn; intuition lia).
  change (information two_coins [7] [17] [] coin_values) with (information two_coins [7] [17] (given_cells None) coin_values).
  rewrite (C77_information two_coins [7] [17] None None None None coin_values); auto; try discriminate.
  - cbn [given_cells]. rewrite two_coins_spread. cbn [sample_size]. replace (INR 100) with 100%R by (rewrite INR_IZR_INZ; reflexivity). field.
  - apply creachable_grown. exact two_coins_reachable.
  - exact two_coins_view.
  - apply two_coins_askable; [discriminate|exact N7|auto].
  - apply two_coins_discrete. auto.
Qed.

(** Three samples of the label and the coin: the chance that all three are heads of the
    first. *)
Example C77_independent_case :
  expect (simulate two_coins None [7; 17] [] [] (Some 3%nat)) (product_over (fun s => if hit [(7, vz 0); (17, vz 1)] s then 1%R else 0%R)) =
  (3 / 8 * (3 / 8) * (3 / 8))%R.
Proof.
  destruct two_coins_exhausts as [EX _]. destruct two_coins_association as [_ P].
  assert (N7 : NoDup [7; 17]) by (repeat constructor; cbn; intuition lia).
  rewrite (C77_independent two_coins [7; 17] [] coin_values); auto; try discriminate.
  - unfold mean_over, coin_values in *. cbn [map] in *. injection P as P1 P2 P3 P4. rewrite P1, P2, P3, P4.
    assert (H1 : hit [(7, vz 0); (17, vz 1)] [(7, vz 0); (17, vz 0)] = false) by (vm_compute; reflexivity).
    assert (H2 : hit [(7, vz 0); (17, vz 1)] [(7, vz 0); (17, vz 1)] = true) by (vm_compute; reflexivity).
    assert (H3 : hit [(7, vz 0); (17, vz 1)] [(7, vz 1); (17, vz 0)] = false) by (vm_compute; reflexivity).
    assert (H4 : hit [(7, vz 0); (17, vz 1)] [(7, vz 1); (17, vz 1)] = false) by (vm_compute; reflexivity).
    rewrite H1, H2, H3, H4. cbn [rsum fold_right pow]. field.
  - apply creachable_grown. exact two_coins_reachable.
  - exact two_coins_view.
  - apply two_coins_askable; [discriminate|exact N7|auto].
  - apply two_coins_discrete. auto.
  - intros s s' L. replace (hit [(7, vz 0); (17, vz 1)] s') with (hit [(7, vz 0); (17, vz 1)] s); [reflexivity|].
    apply eq_true_iff_eq. rewrite !hit_true.
    split; intros X k x Hx; (assert (Hk : In k (outputs two_coins)) by (destruct Hx as [[= <- _]|[[= <- _]|[]]]; cbn; auto));
      [rewrite <- L by exact Hk|rewrite L by exact Hk]; auto.
Qed.

(** The reported variance is not the mean squared error: one sample of the two coins reports
    no variance at all, though its error is not 0. *)
Theorem C77_reported_refuted :
  ~ (forall m t0 t1 C N V, grown m -> view m -> askable m (t0 ++ t1) C -> discrete m (t0 ++ t1) -> t0 <> [] -> t1 <> [] ->
     exhausts m (t0 ++ t1) C V ->
     expect (mutual_information m t0 t1 (Some C) None None N) reported =
     expect (mutual_information m t0 t1 (Some C) None None N) (squared_error (information m t0 t1 C V))).
Proof.
  intros H. destruct two_coins_exhausts as [EX _]. assert (N7 : NoDup [7; 17]) by (repeat constructor; cbn; intuition lia).
  assert (RE : grown two_coins) by (apply creachable_grown; exact two_coins_reachable).
  assert (AS : askable two_coins ([7] ++ [17]) []) by (apply two_coins_askable; [discriminate|exact N7|auto]).
  assert (DI : discrete two_coins ([7] ++ [17])) by (apply two_coins_discrete; auto).
  specialize (H two_coins [7] [17] [] (Some 1%nat) coin_values RE two_coins_view AS DI ltac:(discriminate) ltac:(discriminate) EX).
  destruct (C77_reported two_coins [7] [17] (Some []) None None (Some 1%nat) coin_values RE two_coins_view (or_introl eq_refl)) as [_ R1].
  assert (R2 := R1 AS DI ltac:(discriminate) ltac:(discriminate) EX). clear R1.
  assert (E := C77_information two_coins [7] [17] (Some []) None None (Some 1%nat) coin_values RE two_coins_view AS DI
    ltac:(discriminate) ltac:(discriminate) (or_introl eq_refl) EX).
  assert (G : forall a b c : R, a = ((INR 1 - 1) / INR 1 * b)%R -> a = b -> b = (c / INR 1)%R -> c = 0%R) by (cbn [INR]; intros; lra).
  assert (Z0 := G _ _ _ R2 H E). change (given_cells (Some [])) with (@nil (Z * val)) in Z0. rewrite two_coins_spread in Z0.
  assert (P : (0 < ln 3)%R) by (rewrite <- ln_1; apply ln_increasing; lra). assert (PP := Rmult_lt_0_compat _ _ P P). lra.
Qed.
Print Assumptions C77_reported_refuted.
