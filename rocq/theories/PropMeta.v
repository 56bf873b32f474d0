(** C30 and C31: metadata. *)
From Coq Require Import List ZArith QArith Qcanon Reals Bool String Lia.
From Verif Require Import Base Xr Samp Lgamma Prims Cgpm Lib SpecPrims PrimsInv SpecComp CompInv CompThm Meta
  MetaThm Alias SpecMeta AliasThm DemoComp PropPrims
  SpecWalks WalksThm.
Import ListNotations.
Local Open Scope Z_scope.

(** ** C30: metadata round trip *)

(** Reading back what to_metadata wrote yields the same model: structure, data,
    statistics, hyperparameters and row maps, however deeply the model is nested. *)
Theorem C30_round_trip : forall c, grown c -> build (to_meta c) = Ok c.
Proof.
  intros c RE. apply build_round_trip. apply wf_loadable; [apply grown_wf|apply grown_maps]; exact RE.
Qed.
Print Assumptions C30_round_trip.

(** The component array of a mixture, taken by itself, too. *)
Theorem C30_array_round_trip : forall flex div arr r2c, grown (CMix flex div arr r2c) -> build (to_meta arr) = Ok arr.
Proof.
  intros flex div arr r2c RE. apply build_round_trip.
  assert (L : loadable (CMix flex div arr r2c)) by (apply wf_loadable; [apply grown_wf|apply grown_maps]; exact RE).
  apply L.
Qed.
Print Assumptions C30_array_round_trip.

(** So every part of a FlexibleArray is copied faithfully; in particular a component made
    on demand (create_new_cgpm) is the base. *)
Theorem C30_components : forall div ix base cs r2i r2c, grown (CMix true div (CFlexArr ix base cs r2i) r2c) ->
  clone base = Ok base /\ forall k c, In (k, c) cs -> clone c = Ok c.
Proof.
  intros div ix base cs r2i r2c RE.
  assert (L : loadable (CMix true div (CFlexArr ix base cs r2i) r2c)) by (apply wf_loadable; [apply grown_wf|apply grown_maps]; exact RE).
  destruct L as (_ & _ & (_ & _ & LB & LC) & _). rewrite each_In in LC.
  split; [apply build_round_trip; exact LB|]. intros k c H. apply build_round_trip. apply (LC (k, c) H).
Qed.
Print Assumptions C30_components.

(** Reading terminates on any metadata whatsoever (the depth bound of the model is never
    reached): it yields a model or raises. *)
Theorem C30_reading_terminates : forall m, build m <> Err OutOfFuel.
Proof. exact build_total. Qed.
Print Assumptions C30_reading_terminates.

(** Different models have different metadata. *)
Theorem C30_injective : forall c c', grown c -> grown c' -> to_meta c = to_meta c' -> c = c'.
Proof.
  intros c c' RE RE' E. assert (A := C30_round_trip c RE). rewrite E, (C30_round_trip c' RE') in A. congruence.
Qed.
Print Assumptions C30_injective.

(** A view with two rows and two columns is a case; malformed metadata raises. *)
Example C30_case : build (to_meta demo_view) = Ok demo_view /\ outputs demo_view <> [] /\
  build (MDict []) = Err KeyError /\ build (MDict [factory "cgpm2.nothing" "Nothing"]) = Err AttributeError /\
  build (MDict [("cgpms"%string, MList [to_meta (CDist cat1); to_meta (CDist cat1)]); factory "cgpm2.product" "Product"]) = Err AssertionError.
Proof.
  split; [apply C30_round_trip; exact (creachable_grown _ (proj1 demo_view_reachable))|]. split; [vm_compute; discriminate|].
  split; [reflexivity|]. split; vm_compute; reflexivity.
Qed.

(** ** C31: snapshots *)

(** Objects and metadata behave like values: a snapshot keeps recording the state of its
    object at the time it was taken, and an object changes by calls of its own methods
    only, whatever else the program does, provided no metadata is taken of a Bernoulli
    that was itself built from metadata and set_hypers is not called on a NormalUC. In
    particular this holds for all programs that use CRP, Categorical, Poisson and Normal. *)
Theorem C31_independent : forall ps, careful ps -> as_values (run_world ps) (ideal ps).
Proof. exact careful_values. Qed.
Print Assumptions C31_independent.

(** For the four classes named in the claim there is no proviso. *)
Theorem C31_four_classes : forall ps,
  (forall p d, In p ps -> p = New d -> reachable d /\ ~ is_bernoulli d /\ ~ is_normal_uc d) ->
  as_values (run_world ps) (ideal ps).
Proof.
  intros ps H. apply careful_values.
  assert (X : careful ps /\ (forall d b, In (d, b) (fst (ideal ps)) -> ~ is_bernoulli d /\ ~ is_normal_uc d) /\
    (forall d, In d (snd (ideal ps)) -> ~ is_bernoulli d /\ ~ is_normal_uc d)).
  2: { apply X. }
  revert H. induction ps as [|p ps IH] using rev_ind; intros H.
  - split; [constructor|]. split; [intros d b []|intros d []].
  - destruct IH as (C & O & S); [intros q d Hq; apply H; apply in_or_app; auto|].
    assert (HP : forall d, p = New d -> reachable d /\ ~ is_bernoulli d /\ ~ is_normal_uc d).
    { intros d. apply H. apply in_or_app. right. now left. }
    assert (CL : forall d c, ~ is_bernoulli d /\ ~ is_normal_uc d -> ~ is_bernoulli (after d c) /\ ~ is_normal_uc (after d c)).
    { intros d c [A B]. assert (E := after_cls d c). split; intros X; destruct (after d c); try contradiction; destruct d; try discriminate E; cbn in *; auto. }
    unfold ideal in *. rewrite fold_left_app. cbn [fold_left].
    split; [|].
    + constructor; [exact C|]. fold (ideal ps) in *. destruct p as [d|i []|i|j]; cbn [harmless]; try exact Logic.I.
      * apply (HP d eq_refl).
      * intros d l E. apply nth_error_In in E. apply (O _ _ E).
      * intros d E. apply nth_error_In in E. apply (O _ _ E).
    + destruct (fold_left ideal_step ps ([], [])) as [os ss]. cbn [fst snd] in *. destruct p as [d|i c|i|j]; cbn [ideal_step].
      * split; [|exact S]. intros d0 b HI. apply in_app_or in HI. destruct HI as [HI|[E|[]]]; [eauto|]. injection E as <- _. apply (HP d eq_refl).
      * destruct (nth_error os i) as [[d l]|] eqn:E; [|split; assumption]. split; [|exact S]. intros d0 b HI. apply set_nth_In in HI.
        destruct HI as [X|HI]; [|eauto]. injection X as -> _. apply CL. apply (O d l). eapply nth_error_In; eauto.
      * destruct (nth_error os i) as [[d l]|] eqn:E; [|split; assumption]. split; [exact O|]. intros d0 HI. apply in_app_or in HI.
        destruct HI as [HI|[<-|[]]]; [auto|]. apply (O d l). eapply nth_error_In; eauto.
      * destruct (nth_error ss j) as [d|] eqn:E; [|split; assumption]. split; [|exact S]. intros d0 b HI. apply in_app_or in HI.
        destruct HI as [HI|[X|[]]]; [eauto|]. injection X as <- _. apply S. eapply nth_error_In; eauto.
Qed.
Print Assumptions C31_four_classes.

(** Refuted for Bernoulli: take the metadata of an object built from metadata, then
    observe a 1. The metadata is changed along: what it records is no state any Bernoulli
    can be in (its sum exceeds the ones in its data). *)
Theorem C31_bernoulli_refuted : forall s rid, reachable (DBer s) -> lookup rid (ber_data s) = None ->
  let ps := [New (DBer s); Snap 0; Load 0; Snap 1; Call 1 (Observe rid [(ber_o s, vz 1)] [])] in
  nth_error (snd (ideal ps)) 1 = Some (DBer s) /\
  exists d, nth_error (map (recorded (w_heap (run_world ps))) (w_snaps (run_world ps))) 1 = Some (Some d) /\
    d <> DBer s /\ ~ reachable d.
Proof.
  intros s rid RE NR ps. assert (D := reachable_dinv _ RE). assert (DD := dinv_dicts _ D). cbn in DD.
  split; [reflexivity|]. destruct s as [o data N sm a b]. cbn [ber_o ber_data] in *.
  assert (AF : after (DBer (mkBer o data N sm a b)) (Observe rid [(o, vz 1)] []) = DBer (mkBer o (dset rid (vz 1) data) (N + 1) (sm + 1) a b)).
  { cbn [after dist_observe]. unfold ber_observe, base_observe. cbn [ber_data ber_o]. unfold dmem. rewrite NR. cbn.
    destruct (eq_dec o o) as [_|]; [|congruence]. unfold eqb. destruct (eq_dec [o] [o]); [|congruence]. reflexivity. }
  exists (DBer (mkBer o data N (sm + 1) a b)).
  assert (X : w_snaps (run_world ps) = [SBer o data N (NInt sm) a b; SBer o data N (NArr 2%nat) a b] /\
    nth_error (w_heap (run_world ps)) 2 = Some (HZero (sm + 1))).
  { unfold run_world, ps. cbn - [dict_of invoke]. rewrite (dict_of_NoDup data DD). unfold invoke, denote. cbn [get_num].
    unfold get_cells. cbn [nth_error]. rewrite AF. cbn. split; reflexivity. }
  destruct X as [X1 X2]. rewrite X1. cbn [map nth_error]. split; [|split].
  - f_equal. unfold recorded. cbn [load get_num]. rewrite X2. cbn [denote get_num]. unfold get_cells. rewrite nth_new0, nth_new1.
    rewrite (dict_of_NoDup data DD). reflexivity.
  - intros E. injection E as E. lia.
  - intros R'. apply reachable_dinv in R'. destruct D as (_ & _ & ST & _). destruct R' as (_ & _ & ST' & _).
    cbn in ST, ST'. destruct ST as [_ A], ST' as [_ B]. rewrite <- A in B. lia.
Qed.
Print Assumptions C31_bernoulli_refuted.

(** Refuted for NormalUC: an object, its metadata and all objects built from it have one
    dictionary of hyperparameters, so set_hypers on one of them reaches all. *)
Theorem C31_normal_uc_refuted : forall s h, reachable (DNuc s) ->
  let ps := [New (DNuc s); Snap 0; Load 0; Call 0 (SetHypers h)] in
  let d := after (DNuc s) (SetHypers h) in
  ideal ps = ([(d, false); (DNuc s, true)], [DNuc s]) /\
  map (denote (w_heap (run_world ps))) (w_objs (run_world ps)) = [Some d; Some d] /\
  map (recorded (w_heap (run_world ps))) (w_snaps (run_world ps)) = [Some d].
Proof.
  intros s h RE ps d. assert (DD := dinv_dicts _ (reachable_dinv _ RE)). cbn in DD. split; [reflexivity|].
  destruct s as [o data N sm sq mu var hy]. cbn [nuc_data] in DD.
  assert (AF : exists hy', d = DNuc (mkNuc o data N sm sq mu var hy')).
  { unfold d. cbn [after dist_set_hypers]. repeat match goal with |- context[match ?x with _ => _ end] => destruct x end; eexists; reflexivity. }
  destruct AF as [hy' AF].
  assert (X : run_world ps = mkWorld [HCells data; HHypers hy'; HCells data] [ONuc o 0%nat N sm sq mu var 1%nat; ONuc o 2%nat N sm sq mu var 1%nat]
    [SNuc o data N sm sq mu var 1%nat]).
  { unfold run_world, ps. cbn [fold_left]. cbn [step create app List.length nuc_o nuc_N nuc_sum nuc_sumsq nuc_mu nuc_var nuc_hypers nuc_data].
    cbn - [after dict_of invoke]. rewrite (dict_of_NoDup data DD). unfold invoke. cbn [denote].
    unfold get_cells, get_hypers. cbn [nth_error]. fold d. rewrite AF. reflexivity. }
  rewrite X, AF. cbn [w_heap w_objs w_snaps map denote]. unfold recorded. cbn [load app List.length denote]. unfold get_cells, get_hypers. cbn [nth_error].
  rewrite (dict_of_NoDup data DD). split; reflexivity.
Qed.
Print Assumptions C31_normal_uc_refuted.

(** A program for which the theorem says something, and a NormalUC for which the
    refutation does. *)
Definition cat0 : dist := DCat (cat_new 1 3 1%Qc).
Definition nuc0 : dist := DNuc (mkNuc 1 [] 0 0%Qc 0%Qc 0%Qc 1%Qc []).
Definition hypers0 : hypers := [("m", qz 5); ("r", qz 2); ("s", qz 3); ("nu", qz 4)]%string.

Lemma cat0_reachable : reachable cat0.
Proof. exists cat0, []. split; [apply fresh_cat; [lia|exact one_pos]|reflexivity]. Qed.

Example C31_case :
  let ps := [New cat0; Snap 0; Call 0 (Observe 7 [(1, vz 2)] []); Load 0] in
  careful ps /\
  map (denote (w_heap (run_world ps))) (w_objs (run_world ps)) =
    [Some (DCat (mkCat 1 3 [(7, vz 2)] 1 [0; 0; 1] 1%Qc)); Some cat0] /\
  reachable nuc0 /\ after nuc0 (SetHypers hypers0) <> nuc0.
Proof.
  split; [|split; [|split]].
  - apply (careful_step [New cat0; Snap 0; Call 0 (Observe 7 [(1, vz 2)] [])] (Load 0)); [|exact I].
    apply (careful_step [New cat0; Snap 0] (Call 0 (Observe 7 [(1, vz 2)] []))); [|exact I].
    apply (careful_step [New cat0] (Snap 0)); [|intros d E; discriminate E].
    apply (careful_step [] (New cat0)); [constructor|exact cat0_reachable].
  - vm_compute. reflexivity.
  - exists nuc0, []. split; [|reflexivity]. apply (fresh_nuc 1 [] 0%Qc 1%Qc). reflexivity.
  - vm_compute. discriminate.
Qed.
