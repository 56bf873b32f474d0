(** Proof of C74, continued: exact means. *)
From Coq Require Import List ZArith QArith Qcanon Reals Bool String Permutation Lia Lra FunctionalExtensionality.
From Verif Require Import Base Xr Samp Lgamma Prims Cgpm Lib SpecPrims PrimsInv PrimsDens PrimsThm PrimsThm2
  SpecComp CompInv CompDens CompThm SpecSim SimShape SimLaw SimTotal ChainLaw SpecMany ManyLaw ManyLaw2 ManyLaw3 ManyLaw4.
From Verif Require EntropyThm ViewsThm2.
Import ListNotations.
Local Open Scope Z_scope.

Lemma expect_nonneg : forall {A} (m : samp A) (f : A -> R), finite_choices m -> always m (fun a => (0 <= f a)%R) -> (0 <= expect m f)%R.
Proof.
  induction m as [a|ws k IH|l k IH|n p k IH|lo hi k IH|n k IH]; cbn; intros f F H; try contradiction; auto.
  destruct F as (F1 & F2 & F3). apply rsum_nonneg. intros x Hx. apply in_map_iff in Hx. destruct Hx as (i & <- & Hi).
  apply in_seq in Hi. assert (W : (0 <= nth i ws 0)%R) by (apply F1; apply nth_In; lia).
  destruct (Rle_lt_or_eq_dec _ _ W) as [P0|P0].
  - apply Rmult_le_pos; [apply Rlt_le, Rdiv_lt_0_compat; assumption|]. apply IH; [apply F3; lia|apply H; [lia|exact P0]].
  - rewrite <- P0. unfold Rdiv. rewrite !Rmult_0_l. lra.
Qed.

Lemma expect_zero : forall {A} (m : samp A) (f : A -> R), finite_choices m -> always m (fun a => (0 <= f a)%R) -> expect m f = 0%R ->
  always m (fun a => f a = 0%R).
Proof.
  induction m as [a|ws k IH|l k IH|n p k IH|lo hi k IH|n k IH]; cbn; intros f F H E; try contradiction; auto.
  destruct F as (F1 & F2 & F3). intros i Hi P0. apply IH; [apply F3; exact Hi|apply H; assumption|].
  assert (N : forall x, In x (map (fun i => nth i ws 0 / rsum ws * expect (k i) f)%R (seq 0 (List.length ws))) -> (0 <= x)%R).
  { intros x Hx. apply in_map_iff in Hx. destruct Hx as (j & <- & Hj). apply in_seq in Hj.
    assert (W : (0 <= nth j ws 0)%R) by (apply F1; apply nth_In; lia).
    destruct (Rle_lt_or_eq_dec _ _ W) as [Pj|Pj].
    - apply Rmult_le_pos; [apply Rlt_le, Rdiv_lt_0_compat; assumption|]. apply expect_nonneg; [apply F3; lia|apply H; [lia|exact Pj]].
    - rewrite <- Pj. unfold Rdiv. rewrite !Rmult_0_l. lra. }
  assert (Ei : (nth i ws 0 / rsum ws * expect (k i) f <= 0)%R).
  { eapply Rle_trans; [|apply Req_le; exact E]. apply (EntropyThm.rsum_ge _ N). apply in_map_iff. exists i. split; [reflexivity|apply in_seq; lia]. }
  assert (PP : (0 < nth i ws 0 / rsum ws)%R) by (apply Rdiv_lt_0_compat; assumption).
  assert (NN : (0 <= expect (k i) f)%R) by (apply expect_nonneg; [apply F3; exact Hi|apply H; assumption]).
  nra.
Qed.

Lemma expect_total_sum : forall {A I} (m : samp A) (h : I -> A -> R) l, expect m (fun a => rsum (map (fun i => h i a) l)) = rsum (map (fun i => expect m (h i)) l).
Proof.
  intros A I m h l. induction l as [|i l IH]; cbn [map].
  - change (rsum []) with 0%R. induction m as [a|ws k IH|q k IH|n p k IH|lo hi k IH|n k IH]; cbn; auto.
    transitivity (rsum (map (fun _ : nat => 0%R) (seq 0 (List.length ws)))); [apply rsum_ext; intros; rewrite IH; lra|].
    rewrite rsum_const. lra.
  - change (rsum (?x :: ?y)) with (x + rsum y)%R. rewrite <- IH, <- expect_plus. reflexivity.
Qed.

Lemma ready_calm : forall c rid ts C n, wf c -> ready c rid ts C -> ts <> [] -> (forall k, In k ts -> In k (outputs c)) ->
  (forall k, In k (keys C) -> In k (outputs c)) -> n <> 0%nat -> calm (simulate c rid ts C [] (Some n)).
Proof. intros c rid ts C n W Q NE S1 S2 Hn. rewrite <- (whole_part c) by assumption. apply calm_ask; assumption. Qed.

Lemma ready_shape : forall c rid ts C n, wf c -> ready c rid ts C -> (forall k, In k ts -> In k (outputs c)) -> n <> 0%nat ->
  always (simulate c rid ts C [] (Some n)) (if_ok (well_shaped ts (Some n) (sample_ok c rid C))).
Proof.
  intros c rid ts C n W (U & _ & _ & NT & _) S1 Hn. apply simulate_shape; auto; [congruence|apply unknown_uc; exact U].
Qed.

(** The chance of one value. *)
Lemma one_tally : forall c rid T C, wf c -> ready c rid (keys T) C -> T <> [] -> numbers T -> labelled c (T ++ C) ->
  (forall k, In k (keys T) -> In k (outputs c)) -> (forall k, In k (keys C) -> In k (outputs c)) ->
  expect (simulate c rid (keys T) C [] (Some 1%nat)) (tally T) = (dens c (T ++ C) / dens c C)%R.
Proof.
  intros c rid T C W Q NE NU LB S1 S2. pose proof Q as (U & LC & NC & NT & X & SD & P & DI).
  assert (NK : keys T <> []) by (destruct T; [congruence|discriminate]).
  rewrite <- (wf_law c W rid T C (Some 1%nat)); auto.
  - apply (expect_calm _ _ _ _ (ready_calm c rid (keys T) C 1 W Q NK S1 S2 ltac:(discriminate)) (ready_shape c rid (keys T) C 1 W Q S1 ltac:(discriminate))).
    intros r Hr. destruct r as [|l]; [destruct Hr|]. destruct Hr as [L _]. destruct l as [|s [|]]; try discriminate.
    cbn [tally total map agrees]. unfold tally. cbn [total map]. change (rsum [?x]) with (x + 0)%R. lra.
  - right. reflexivity.
  - unfold disjoint_rows, keys. rewrite map_app. apply ViewsThm2.NoDup_app_intro; assumption.
Qed.

Lemma hit_reads : forall T s ts cols g, reads cols g -> keys T = ts -> NoDup ts -> Permutation (keys s) ts -> hit T s = true -> g s = g T.
Proof.
  intros T s ts cols g RD E ND PM H. apply RD. intros k _. rewrite hit_true in H.
  destruct (memb k ts) eqn:M.
  - apply memb_In in M. rewrite <- E in M. destruct (lookup_keys _ _ M) as [x Lx]. rewrite Lx. apply H. apply lookup_In. exact Lx.
  - assert (N : ~ In k ts) by (intros Q; apply memb_In in Q; congruence).
    transitivity (@None val); [|symmetry]; apply lookup_None; [|rewrite E; exact N].
    intros Q. apply N. apply (Permutation_in _ PM). exact Q.
Qed.

Lemma same_keys : forall (T T' : row), NoDup (keys T) -> keys T = keys T' ->
  (forall k, In k (keys T) -> lookup k T = lookup k T') -> T = T'.
Proof.
  induction T as [|[k x] T IH]; intros [|[k' x'] T'] ND E H; try discriminate; [reflexivity|]. cbn in E. injection E as <- E.
  inversion ND as [|? ? NI ND']; subst.
  assert (Ex := H k (or_introl eq_refl)). rewrite !lookup_cons_eq in Ex. injection Ex as <-. f_equal. apply IH; auto.
  intros j Hj. assert (N : j <> k) by (intros ->; contradiction).
  specialize (H j (or_intror Hj)). rewrite !lookup_cons_neq in H by exact N. exact H.
Qed.

Lemma hit_unique : forall T T' s ts, keys T = ts -> keys T' = ts -> NoDup ts -> hit T s = true -> hit T' s = true -> T = T'.
Proof.
  intros T T' s ts E E' ND H H'. rewrite hit_true in H, H'. apply same_keys; [rewrite E; exact ND|congruence|].
  intros k Hk. destruct (lookup_keys _ _ Hk) as [x Lx]. assert (Hk' : In k (keys T')) by congruence.
  destruct (lookup_keys _ _ Hk') as [x' Lx']. rewrite Lx, Lx'.
  rewrite <- (H _ _ (lookup_In _ _ _ Lx)), <- (H' _ _ (lookup_In _ _ _ Lx')). reflexivity.
Qed.

(** At most one of the listed values agrees with a sample, and if one does, a sum over
    them has one term. *)
Lemma hits_one : forall ts s (f : row -> R) V, NoDup ts -> NoDup V -> (forall T, In T V -> keys T = ts) ->
  (forall T, In T V -> hit T s = true -> rsum (map (fun T' => f T' * if hit T' s then 1 else 0)%R V) = f T) /\
  ((forall T, In T V -> hit T s = false) -> rsum (map (fun T' => f T' * if hit T' s then 1 else 0)%R V) = 0%R).
Proof.
  intros ts s f V ND. induction V as [|T0 V IH]; intros NV KT; [split; [intros ? []|reflexivity]|].
  inversion NV as [|? ? NI NV']; subst. destruct (IH NV' (fun T H => KT T (or_intror H))) as [IH1 IH2]. split.
  - intros T HT E. cbn [map]. change (rsum (?x :: ?y)) with (x + rsum y)%R. destruct HT as [->|HT].
    + rewrite E, IH2; [lra|]. intros T' HT'. destruct (hit T' s) eqn:E'; [|reflexivity]. exfalso. apply NI.
      rewrite (hit_unique T T' s ts) by (auto; try (apply KT; cbn; auto)). exact HT'.
    + rewrite (IH1 T HT E). destruct (hit T0 s) eqn:E0; [|lra]. exfalso. apply NI.
      rewrite (hit_unique T0 T s ts) by (auto; try (apply KT; cbn; auto)). exact HT.
  - intros H. cbn [map]. change (rsum (?x :: ?y)) with (x + rsum y)%R. rewrite (H T0 (or_introl eq_refl)), IH2; [lra|].
    intros T HT. apply H. now right.
Qed.

(** The mean over one sample is the sum over the listed values. *)
Lemma one_mean : forall c ts C V g, wf c -> ready c None ts C -> ts <> [] -> (forall k, In k ts -> In k (outputs c)) ->
  (forall k, In k (keys C) -> In k (outputs c)) -> exhausts c ts C V -> reads (outputs c) g ->
  expect (simulate c None ts C [] (Some 1%nat)) (total g) = rsum (map (fun T => prob c T C * g T)%R V).
Proof.
  intros c ts C V g W Q NE S1 S2 (NV & HV & SV) RD. pose proof Q as (U & LC & NC & NT & X & SD & P & DI).
  assert (CA := ready_calm c None ts C 1 W Q NE S1 S2 ltac:(discriminate)).
  assert (SH := ready_shape c None ts C 1 W Q S1 ltac:(discriminate)).
  set (m := simulate c None ts C [] (Some 1%nat)) in *.
  assert (PT : forall T, In T V -> expect m (tally T) = prob c T C).
  { intros T HT. destruct (HV T HT) as (ET & LT & NU). unfold m. rewrite <- ET.
    assert (NT0 : T <> []) by (intros ->; apply NE; symmetry; exact ET).
    assert (DJ : disjoint_rows T C).
    { unfold disjoint_rows, keys. rewrite map_app. change (NoDup (keys T ++ keys C)). rewrite ET.
      apply ViewsThm2.NoDup_app_intro; assumption. }
    rewrite one_tally; auto; try (rewrite ET; assumption).
    unfold prob. rewrite (model_density c None T C); auto.
    - rewrite xexp_xlog; [reflexivity|apply ratio_nonneg; auto].
    - intros k Hk. unfold keys in Hk. rewrite map_app in Hk. apply in_app_or in Hk. destruct Hk as [Hk|Hk]; [|auto].
      apply S1. rewrite <- ET. exact Hk. }
  set (miss := fun r : out sres => on_ok (tot (fun s => 1 - rsum (map (fun T => 1 * if hit T s then 1 else 0) V))%R) r).
  assert (MN : forall s, (0 <= 1 - rsum (map (fun T => 1 * if hit T s then 1 else 0) V))%R).
  { intros s. destruct (hits_one ts s (fun _ => 1%R) V NT NV (fun T HT => proj1 (HV T HT))) as [H1 H2].
    destruct (existsb (fun T => hit T s) V) eqn:EX.
    - apply existsb_exists in EX. destruct EX as (T & HT & E). rewrite (H1 T HT E). lra.
    - rewrite H2; [lra|]. intros T HT. destruct (hit T s) eqn:E; [|reflexivity].
      assert (EX' : existsb (fun T => hit T s) V = true) by (apply existsb_exists; eauto). congruence. }
  assert (M0 : expect m miss = 0%R).
  { transitivity (expect m (fun r => on_ok (fun _ => 1%R) r + (-1) * rsum (map (fun T => tally T r) V))%R).
    - apply (expect_calm _ _ _ _ CA SH). intros r Hr. destruct r as [|l]; [destruct Hr|]. destruct Hr as [L _].
      destruct l as [|s [|]]; try discriminate. unfold miss, tally. cbn [on_ok tot map total]. change (rsum [?x]) with (x + 0)%R.
      rewrite (rsum_ext (fun T => 1 * (if hit T s then 1 else 0))%R (fun T => (if hit T s then 1 else 0) + 0)%R); [lra|].
      intros T _. destruct (hit T s); lra.
    - rewrite expect_plus, calm_const by exact CA. rewrite (expect_scale m (fun r => rsum (map (fun T => tally T r) V)) (-1)).
      rewrite (expect_total_sum m tally V), (rsum_ext _ (fun T => prob c T C)) by exact PT. rewrite SV. lra. }
  assert (MZ : always m (fun r => miss r = 0%R)).
  { apply expect_zero; [apply CA| |exact M0]. revert SH. apply always_imp. intros [[s|l]|e] _; unfold miss; cbn [on_ok tot]; [apply MN| |lra].
    apply rsum_nonneg. intros x Hx. apply in_map_iff in Hx. destruct Hx as (s & <- & _). apply MN. }
  transitivity (expect m (fun r => rsum (map (fun T => g T * tally T r)%R V))).
  - apply (expect_always m (fun r => (fails (fun _ => False) r /\ if_ok (well_shaped ts (Some 1%nat) (sample_ok c None C)) r) /\ miss r = 0%R)); [apply CA| |].
    { apply always_and; [apply always_and; [apply CA|exact SH]|exact MZ]. }
    intros [r|e] [[F Hr] Z0]; [|destruct F]. cbn [if_ok] in Hr. destruct r as [|l]; [destruct Hr|]. destruct Hr as [L Hs].
    destruct l as [|s [|]]; try discriminate. assert (PM := proj1 (Hs s (or_introl eq_refl))). unfold miss, tally in *. cbn [on_ok tot map total] in *. change (rsum [?x]) with (x + 0)%R in *.
    destruct (hits_one ts s (fun _ => 1%R) V NT NV (fun T HT => proj1 (HV T HT))) as [_ H2].
    destruct (existsb (fun T => hit T s) V) eqn:EX.
    + apply existsb_exists in EX. destruct EX as (T & HT & E).
      destruct (hits_one ts s g V NT NV (fun T HT => proj1 (HV T HT))) as [H3 _].
      rewrite (rsum_ext (fun T' => g T' * ((if hit T' s then 1 else 0) + 0))%R (fun T' => g T' * (if hit T' s then 1 else 0))%R) by (intros; lra).
      rewrite (H3 T HT E). rewrite (hit_reads T s ts (outputs c) g RD (proj1 (HV T HT)) NT PM E). lra.
    + exfalso. rewrite H2 in Z0; [lra|]. intros T HT. destruct (hit T s) eqn:E; [|reflexivity].
      assert (EX' : existsb (fun T => hit T s) V = true) by (apply existsb_exists; eauto). congruence.
  - rewrite (expect_total_sum m (fun T r => g T * tally T r)%R V). apply rsum_ext. intros T HT.
    rewrite (expect_scale m (tally T) (g T)), (PT T HT). lra.
Qed.
