(** Proof of C74, continued: primitives, Products of primitives, row mixtures, states. *)
From Coq Require Import List ZArith QArith Qcanon Reals Bool String Permutation Lia Lra FunctionalExtensionality.
From Verif Require Import Base Xr Samp Lgamma Prims Cgpm Lib SpecPrims PrimsInv PrimsDens PrimsThm PrimsThm2
  SpecComp CompInv CompDens CompThm SpecSim SimShape SimLaw SimTotal ChainLaw SpecMany ManyLaw.
Import ListNotations.
Local Open Scope Z_scope.

(** A query whose answer is certain to be a list of samples of discrete columns. *)
Definition ready (c : cgpm) (rid : option Z) (ts : list Z) (C : row) : Prop :=
  unknown c rid /\ labelled c C /\ NoDup (keys C) /\ NoDup ts /\ (forall k, In k ts -> ~ In k (keys C)) /\
  solid c C /\ (0 < dens c C)%R /\ discrete c ts.

Definition linear (c : cgpm) : Prop := forall rid ts C g, ready c rid ts C -> ts <> [] ->
  (forall k, In k ts -> In k (outputs c)) -> (forall k, In k (keys C) -> In k (outputs c)) ->
  exists B, forall n, n <> 0%nat -> expect (simulate c rid ts C [] (Some n)) (total g) = (INR n * B)%R.

(** The part of a query a child of a Product is asked. *)
Definition ask (c : cgpm) rid ts C n := simulate_one (outputs c) [] (simulate c) rid ts C [] (Some n).

Lemma calm_ask : forall c rid ts C n, wf c -> ready c rid ts C -> n <> 0%nat -> calm (ask c rid ts C n).
Proof.
  intros c rid ts C n W (U & LB & NC & NT & X & SD & P & DI) Hn. split.
  - unfold ask, simulate_one. destruct (interl (outputs c) ts) eqn:E; [exact I|]. rewrite <- E.
    change (interd [] (@nil (Z * val))) with (@nil (Z * val)). apply sim_choices; auto. apply interl_discrete; auto.
  - unfold ask. generalize (quiet_one c W (wf_quiet c W) rid ts C (Some n) U LB NC NT X SD ltac:(congruence)).
    apply fails_imp. intros e [_ E]. lra.
Qed.

Lemma ready_part : forall c rid ts C, wf c -> ready c rid ts C -> 
  ready c rid (interl (outputs c) ts) (interd (outputs c) C).
Proof.
  intros c rid ts C W (U & LB & NC & NT & X & SD & P & DI). split; [exact U|]. split; [apply labelled_interd; exact LB|].
  split; [rewrite keys_interd; apply NoDup_filter; exact NC|]. split; [apply NoDup_filter; exact NT|].
  split.
  { intros k Hk H. apply filter_In in Hk. apply keys_interd_sub in H. apply (X k); tauto. }
  split.
  { eapply solid_ext; [exact W| |exact SD]. intros k Hk. rewrite lookup_interd.
    replace (memb k (outputs c)) with true; [reflexivity|]. symmetry. apply memb_In. exact Hk. }
  split; [rewrite dens_interd by auto; exact P|]. apply interl_discrete; auto.
Qed.

Lemma linear_ask : forall c, wf c -> linear c -> forall rid ts C g, ready c rid ts C ->
  exists B, forall n, n <> 0%nat -> expect (ask c rid ts C n) (total g) = (INR n * B)%R.
Proof.
  intros c W L rid ts C g Q. unfold ask, simulate_one. destruct (interl (outputs c) ts) as [|t0 tc] eqn:E.
  - exists (g []). intros n Hn. cbn [expect empty_samples total]. 
    transitivity (rsum (map (fun _ : row => g []) (repeat ([] : row) n))).
    + f_equal. apply map_ext_in. intros s Hs. apply repeat_spec in Hs. now subst.
    + rewrite rsum_const, repeat_length. reflexivity.
  - assert (NE : interl (outputs c) ts <> []) by congruence. rewrite <- E.
    change (interd [] (@nil (Z * val))) with (@nil (Z * val)). apply L; auto using ready_part.
    + intros k Hk. apply filter_In in Hk. apply memb_In. tauto.
    + intros k Hk. apply In_keys_interd in Hk. tauto.
Qed.

(** ** Primitives *)

Lemma always_unbind : forall {A B} (m : samp (out A)) (f : A -> samp (out B)), always (sobind m f) (fails (fun _ => False)) ->
  always m (fails (fun _ => False)).
Proof.
  intros A B m f. unfold sobind. induction m as [a|ws k IH|l k IH|n p k IH|lo hi k IH|n k IH]; cbn; intros H; auto.
  destruct a as [a|e]; [exact I|exact H].
Qed.

Definition listed (m : samp (out row)) (n : nat) : samp (out sres) := sobind (srepeat n m) (fun l => Ret (Ok (SMany l))).

Lemma srepeat_nil : forall n, srepeat n (Ret (Ok ([] : row))) = Ret (Ok (repeat [] n)).
Proof. induction n as [|n IH]; [reflexivity|]. cbn [srepeat]. rewrite IH. reflexivity. Qed.

Lemma leaf_draws : forall d rid ts C, dinv d -> ready (CDist d) rid ts C ->
  exists m, calm m /\ forall n, ask (CDist d) rid ts C n = listed m n.
Proof.
  intros d rid ts C D Q. assert (W : wf (CDist d)) by (constructor; exact D).
  assert (CA := calm_ask (CDist d) rid ts C 1 W Q ltac:(discriminate)).
  destruct Q as (U & LB & NC & NT & X & SD & P & DI). cbn [unknown discrete] in U, DI.
  unfold ask, simulate_one in *. cbn [outputs simulate] in *. 
  change (interd [] (@nil (Z * val))) with (@nil (Z * val)) in *.
  destruct (memb (dist_o d) ts) eqn:M.
  - apply memb_In in M. destruct (DI M) as [K SU].
    assert (E : interl [dist_o d] ts = [dist_o d]).
    { clear - M NT. induction ts as [|k ts IH]; [destruct M|]. inversion NT as [|? ? H1 H2]; subst.
      unfold interl in *. cbn [filter]. destruct (memb k [dist_o d]) eqn:Mk.
      - apply memb_In in Mk. destruct Mk as [<-|[]]. f_equal.
        clear IH M H2 NT. induction ts as [|j ts IH]; [reflexivity|]. cbn [filter].
        destruct (memb j [dist_o d]) eqn:Mj.
        + apply memb_In in Mj. destruct Mj as [<-|[]]. exfalso. apply H1. now left.
        + apply IH. intros Hi. apply H1. now right.
      - apply memb_false in Mk. apply IH; [exact H2|]. destruct M as [->|M]; [|exact M]. exfalso. apply Mk. now left. }
    assert (EC : interd [dist_o d] C = []).
    { rewrite interd_nil_lookup. intros k [<-|[]]. apply lookup_None. apply X. exact M. }
    rewrite E, EC in *. destruct (prim_draw d rid K D U SU) as (m & Em & FC & _).
    exists m. split.
    + split; [exact FC|]. destruct CA as [_ CA]. rewrite Em in CA. cbn [simulate_many] in CA.
      apply always_unbind in CA. cbn [srepeat] in CA. apply always_unbind in CA. exact CA.
    + intros n. rewrite Em. reflexivity.
  - apply memb_false in M.
    assert (E : interl [dist_o d] ts = []).
    { unfold interl. clear - M. induction ts as [|k ts IH]; [reflexivity|]. cbn [filter].
      destruct (memb k [dist_o d]) eqn:Mk.
      - apply memb_In in Mk. destruct Mk as [<-|[]]. exfalso. apply M. now left.
      - apply IH. intros H. apply M. now right. }
    rewrite E in *. exists (Ret (Ok [])). split; [split; exact I|]. intros n. unfold listed. rewrite srepeat_nil. reflexivity.
Qed.

Lemma listed_sum : forall m g n, calm m -> expect (listed m n) (total g) = (INR n * expect m (on_ok g))%R.
Proof.
  intros m g n H. unfold listed. rewrite expect_sobind.
  assert (X := expect_repeat m g (fun _ => True) n (proj1 H) (calm_ok m H)). etransitivity; [|exact X].
  apply expect_eq; reflexivity.
Qed.

Lemma whole_part : forall c rid ts C n, (forall k, In k ts -> In k (outputs c)) -> (forall k, In k (keys C) -> In k (outputs c)) ->
  ts <> [] -> ask c rid ts C n = simulate c rid ts C [] (Some n).
Proof.
  intros c rid ts C n H1 H2 NE. unfold ask, simulate_one.
  assert (E : interl (outputs c) ts = ts).
  { unfold interl. clear - H1. induction ts as [|k ts IH]; [reflexivity|]. cbn [filter].
    replace (memb k (outputs c)) with true by (symmetry; apply memb_In; apply H1; now left).
    f_equal. apply IH. intros; apply H1; now right. }
  rewrite E, (all_in (outputs c) C H2). destruct ts; [congruence|reflexivity].
Qed.

Lemma leaf_linear : forall d, dinv d -> linear (CDist d).
Proof.
  intros d D rid ts C g Q NE S1 S2. destruct (leaf_draws d rid ts C D Q) as (m & H & E).
  exists (expect m (on_ok g)). intros n Hn. rewrite <- (whole_part (CDist d)) by assumption. rewrite E. apply listed_sum. exact H.
Qed.

(** ** Products of primitives *)

Lemma leaves_draws : forall ds rid ts C, (forall d, In d ds -> dinv d /\ ready (CDist d) rid ts C) ->
  exists Ms, (forall m, In m Ms -> calm m) /\ List.length Ms = List.length ds /\
    forall n, map (fun c => ask c rid ts C n) (map CDist ds) = map (fun m => listed m n) Ms.
Proof.
  induction ds as [|d ds IH]; intros rid ts C H; [exists []; split; [intros ? []|split; reflexivity]|].
  destruct (H d (or_introl eq_refl)) as [D Q]. destruct (leaf_draws d rid ts C D Q) as (m & CM & E).
  destruct (IH rid ts C (fun d' Hd => H d' (or_intror Hd))) as (Ms & CMs & L & Es). exists (m :: Ms). split; [|split].
  - intros m' [<-|Hm]; auto.
  - cbn. congruence.
  - intros n. cbn [map]. rewrite E, Es. reflexivity.
Qed.

Lemma listed_soseq : forall Ms n (F : out (list sres) -> R),
  expect (soseq (map (fun m => listed m n) Ms)) F =
  expect (soseq (map (srepeat n) Ms)) (fun r => F (omap (map SMany) r)).
Proof.
  induction Ms as [|m Ms IH]; intros n F; [reflexivity|]. cbn [map soseq]. unfold listed at 1. rewrite !expect_sobind.
  apply expect_eq; [|reflexivity]. intros l. cbn [expect]. rewrite !expect_sobind, IH. apply expect_eq; reflexivity.
Qed.

Lemma merge_many : forall n ls, ls <> [] -> (forall l, In l ls -> List.length l = n) ->
  merge_samples (map SMany ls) = Ok (SMany (map (fun i => mergedl (map (fun l => nth i l []) ls)) (seq 0 n))).
Proof.
  intros n ls NE H. destruct ls as [|l ls]; [congruence|]. unfold merge_samples. cbn [map].
  change (SMany l :: map SMany ls) with (map SMany (l :: ls)). rewrite all_many_ok. cbn [obind].
  rewrite (H l (or_introl eq_refl)), (zip_nth n (l :: ls) H), map_map. reflexivity.
Qed.

Lemma leaves_linear : forall ds, (forall d, In d ds -> dinv d) -> NoDup (flat_map outputs (map CDist ds)) -> linear (CProd (map CDist ds)).
Proof.
  intros ds D ND rid ts C g Q NE S1 S2.
  assert (W : wf (CProd (map CDist ds))).
  { constructor; [|exact ND]. intros c Hc. apply in_map_iff in Hc. destruct Hc as (d & <- & Hd). constructor. auto. }
  assert (QD : forall d, In d ds -> dinv d /\ ready (CDist d) rid ts C).
  { intros d Hd. split; [auto|]. destruct Q as (U & LB & NC & NT & X & SD & P & DI).
    cbn [unknown labelled solid discrete] in U, LB, SD, DI. rewrite each_In in U, LB, SD, DI.
    assert (Hc : In (CDist d) (map CDist ds)) by (apply in_map; exact Hd).
    split; [apply U; exact Hc|]. split; [apply LB; exact Hc|]. split; [exact NC|]. split; [exact NT|]. split; [exact X|].
    split; [apply SD; exact Hc|]. split; [|apply DI; exact Hc].
    cbn [dens] in P. apply (rprod_pos (map (fun c' => dens c' C) (map CDist ds))); auto.
    - intros r Hr. apply in_map_iff in Hr. destruct Hr as (c' & <- & Hc'). apply dens_nonneg.
      apply in_map_iff in Hc'. destruct Hc' as (d' & <- & Hd'). constructor. auto.
    - apply in_map_iff. exists (CDist d). split; [reflexivity|exact Hc]. }
  destruct (leaves_draws ds rid ts C QD) as (Ms & CM & LM & EM).
  assert (NM : Ms <> []).
  { intros ->. destruct ds; [|discriminate LM]. destruct ts as [|k ts]; [congruence|]. exact (S1 k (or_introl eq_refl)). }
  exists (expect (soseq (map (fun m => m) Ms)) (on_ok (fun s => g (mergedl s)))). intros n Hn.
  cbn [simulate]. unfold prod_simulate. rewrite (map_map (fun c' => (outputs c', inputs c', simulate c'))).
  assert (EA : map (fun c => simulate_one (outputs c) (inputs c) (simulate c) rid ts C [] (Some n)) (map CDist ds) =
               map (fun m => listed m n) Ms).
  { rewrite <- EM. apply map_ext_in. intros c Hc. apply in_map_iff in Hc. destruct Hc as (d & <- & _). reflexivity. }
  cbv beta iota in EA |- *. rewrite EA, expect_sobind. cbn [expect]. rewrite listed_soseq.
  assert (CS : calm (soseq (map (srepeat n) Ms))).
  { apply calm_soseq. intros m Hm. apply in_map_iff in Hm. destruct Hm as (m' & <- & Hm'). apply calm_srepeat. auto. }
  assert (SH : always (soseq (map (srepeat n) Ms)) (if_ok (fun ls => ls <> [] /\ forall l, In l ls -> List.length l = n))).
  { generalize (always_soseq (srepeat n) (fun (_ : samp (out row)) (l : list row) => List.length l = n) Ms). intros AS.
    assert (AS' : always (soseq (map (srepeat n) Ms)) (if_ok (Forall2 (fun (_ : samp (out row)) (l : list row) => List.length l = n) Ms))).
    { apply AS. intros m Hm. assert (T : always m (if_ok (fun _ => True))).
      { destruct (CM m Hm) as [_ F]. revert F. apply always_imp. intros [a|e] _; exact I. }
      generalize (always_srepeat m (fun _ => True) n T). apply always_imp. intros [l|e]; [|auto]. cbn. tauto. }
    revert AS'. apply always_imp. intros [ls|e]; [|auto]. cbn [if_ok]. intros F. split.
    - destruct F; [congruence|discriminate].
    - clear - F. induction F as [|m l Ms ls E F IH]; intros x [<-|Hx] || intros x []; auto. }
  transitivity (expect (soseq (map (srepeat n) Ms)) (fun r => rsum (map (fun i => 1 * on_ok (fun ls => g (mergedl (map (fun l => nth i l []) ls))) r)%R (seq 0 n)))).
  - apply (expect_calm _ _ _ _ CS SH). intros ls [H1 H2]. cbn [omap obind on_ok]. rewrite (merge_many n ls H1 H2). cbn [total].
    rewrite map_map. apply rsum_ext. intros i _. lra.
  - assert (X : forall A (m : samp A) (h : nat -> A -> R) l, expect m (fun a => rsum (map (fun i => 1 * h i a)%R l)) = rsum (map (fun i => expect m (h i)) l)).
    { clear. intros A m h l. induction l as [|i l IH]; cbn [map].
      - change (rsum []) with 0%R. induction m as [a|ws k IH|q k IH|n p k IH|lo hi k IH|n k IH]; cbn; auto.
        transitivity (rsum (map (fun _ : nat => 0%R) (seq 0 (List.length ws)))); [apply rsum_ext; intros; rewrite IH; lra|].
        rewrite rsum_const. lra.
      - change (rsum (?x :: ?y)) with (x + rsum y)%R. rewrite <- IH, <- expect_plus. f_equal. apply functional_extensionality.
        intros a. change (rsum (?x :: ?y)) with (x + rsum y)%R. lra. }
    rewrite X. transitivity (rsum (map (fun _ : nat => expect (soseq (map (fun m => m) Ms)) (on_ok (fun s => g (mergedl s)))) (seq 0 n))).
    + apply rsum_ext. intros i Hi. apply in_seq in Hi.
      apply (soseq_runs (fun m : samp (out row) => m) [] n i ltac:(lia) Ms CM (fun s => g (mergedl s))).
    + rewrite rsum_const, seq_length. reflexivity.
Qed.

Lemma flat_linear : forall c, wf c -> flat c -> linear c.
Proof.
  intros c W F. destruct F as [d|ds].
  - inversion W; subst. apply leaf_linear. assumption.
  - inversion W as [|cs Wc ND| |]; subst. apply leaves_linear; [|exact ND].
    intros d Hd. specialize (Wc (CDist d) (in_map CDist _ _ Hd)). inversion Wc. assumption.
Qed.
