(** Properties C21 and C22: the form of what simulate returns, and its law. The specification of a possible sample
    is in SpecSim.v. *)
From Coq Require Import List ZArith QArith Qcanon Reals Bool String Permutation Lia Lra.
From Verif Require Import Base Xr Samp Lgamma Prims Cgpm Lib SpecPrims PrimsInv PrimsDens PrimsThm2
  SpecComp CompInv CompDens CompThm SpecSim SimShape SimLaw SimTotal PropPrims DemoComp
  SpecWalks WalksThm.
Import ListNotations.
Local Open Scope Z_scope.

(** ** C21 *)

(** Whatever the random generator does, if simulate returns then it returns one sample or a
    list of exactly [N] samples; each has exactly the targets as keys, repeats recorded
    cells, has other cells in their domain, and takes the cells of a mixture from a single
    cluster, which is the recorded one, the constrained one, or one of positive posterior
    weight. *)
Theorem C21_simulate_shape : forall c rid ts C N r, grown c ->
  NoDup ts -> (forall k, In k ts -> In k (outputs c)) ->
  N <> Some 0%nat -> uc_ok c rid (match N with Some _ => true | None => false end) ->
  possible (simulate c rid ts C [] N) (fun x => x = Ok r) ->
  well_shaped ts N (sample_ok c rid C) r.
Proof.
  intros c rid ts C N r RE NT SUB N0 UC PO.
  assert (H := simulate_shape c (grown_wf _ RE) rid ts C N NT SUB N0 UC).
  destruct (always_possible _ _ _ H PO) as (x & Hx & Ex). subst x. exact Hx.
Qed.
Print Assumptions C21_simulate_shape.

(** simulate of a row not on record returns, whatever the random generator does, unless the
    constraints have density zero, and then the only exception is ValueError. *)
Theorem C21_simulate_returns : forall c rid ts C N, grown c -> unknown c rid -> labelled c C ->
  NoDup (keys C) -> NoDup ts -> (forall k, In k ts -> In k (outputs c) /\ ~ In k (keys C)) -> ts <> [] ->
  (forall k, In k (keys C) -> In k (outputs c)) -> solid c C -> N <> Some 0%nat ->
  always (simulate c rid ts C [] N) (fun r =>
    (exists s, r = Ok s) \/ r = Err ValueError /\ dens c C = 0%R).
Proof.
  intros c rid ts C N RE U LB NC NT ST NE SC SD N0.
  generalize (wf_quiet c (grown_wf _ RE) rid ts C N U LB NC NT ST NE SC SD N0). apply always_imp.
  intros [s|e] H; [left; eauto|right]. destruct H as [-> H]. auto.
Qed.
Print Assumptions C21_simulate_returns.

(** The first exception: asked for no samples of a row it does not know, with no cluster
    named, a row mixture does what it does when asked for a list of one. *)
Theorem C21_mixture_zero_samples : forall flex div arr r2c rid ts C,
  on_record rid r2c = None -> lookup (dist_o div) C = None ->
  simulate (CMix flex div arr r2c) rid ts C [] (Some 0%nat) =
  simulate (CMix flex div arr r2c) rid ts C [] (Some 1%nat).
Proof. exact zero_samples. Qed.
Print Assumptions C21_mixture_zero_samples.

(** The second: NormalUC returns a single sample for a recorded row, however many are
    asked for. *)
Theorem C21_normal_uc_ignores_N : forall s r q N, lookup r (nuc_data s) = Some (VQ q) ->
  simulate (CDist (DNuc s)) (Some r) [nuc_o s] [] [] N = Ret (Ok (SOne [(nuc_o s, VQ q)])).
Proof. exact nuc_ignores_N. Qed.
Print Assumptions C21_normal_uc_ignores_N.

(** Row 1 of the worked view has column 1 recorded as 0, is in cluster 0 and has no value in
    column 2: two samples, with column 2 either way. *)
Example C21_case :
  possible (simulate demo_view (Some 1) [1; 2; 9] [] [] (Some 2%nat))
    (fun x => x = Ok (SMany [[(1, vz 0); (2, vz 1); (9, vz 0)]; [(1, vz 0); (2, vz 0); (9, vz 0)]])) /\
  well_shaped [1; 2; 9] (Some 2%nat) (sample_ok demo_view (Some 1) [])
    (SMany [[(1, vz 0); (2, vz 1); (9, vz 0)]; [(1, vz 0); (2, vz 0); (9, vz 0)]]).
Proof.
  assert (P : possible (simulate demo_view (Some 1) [1; 2; 9] [] [] (Some 2%nat))
    (fun x => x = Ok (SMany [[(1, vz 0); (2, vz 1); (9, vz 0)]; [(1, vz 0); (2, vz 0); (9, vz 0)]]))).
  { vm_compute. exists 1%nat. split; [repeat constructor|]. split; [apply exp_pos|].
    exists 0%nat. split; [repeat constructor|]. split; [apply exp_pos|]. reflexivity. }
  split; [exact P|]. destruct demo_view_reachable as [RC V]. assert (RE := creachable_grown _ RC).
  apply (C21_simulate_shape demo_view (Some 1) [1; 2; 9] [] (Some 2%nat)); [exact RE| | |discriminate| |exact P].
  - repeat constructor; cbn; intuition lia.
  - vm_compute. intuition congruence.
  - vm_compute. repeat split.
Qed.

(** ** C22 *)

(** One sample of columns of finite support, of a row not on record: the call makes finitely
    many choices, and the probability that the answer agrees with [T] is the exponential of
    the log density logpdf reports for [T] under the same constraints. *)
Theorem C22_simulate_law : forall m rid T C N l, grown m -> unknown m rid ->
  labelled m (T ++ C) -> disjoint_rows T C -> T <> [] ->
  (forall k, In k (keys (T ++ C)) -> In k (outputs m)) -> solid m C -> (0 < dens m C)%R ->
  discrete m (keys T) -> (forall k x, In (k, x) T -> exists z, x = vz z) ->
  N = None \/ N = Some 1%nat ->
  logpdf m rid T C [] = Ok l ->
  finite_choices (simulate m rid (keys T) C [] N) /\
  expect (simulate m rid (keys T) C [] N) (agrees T) = xexp l.
Proof.
  intros m rid T C N l RE U LB DJ NE SUB SD P DI NU SN E. assert (W := grown_wf _ RE).
  split; [apply sim_choices; auto|].
  rewrite (wf_law m W rid T C N); auto.
  - rewrite (model_density m rid T C) in E; auto. injection E as <-. rewrite xexp_xlog; [reflexivity|].
    apply ratio_nonneg; auto.
  - intros k H. apply SUB. unfold keys in *. rewrite map_app. apply in_or_app. now left.
  - intros k H. apply SUB. unfold keys in *. rewrite map_app. apply in_or_app. now right.
Qed.
Print Assumptions C22_simulate_law.

(** Every view, under constraints of positive density. *)
Theorem C22_view_law : forall m rid T C N, grown m -> view m -> unknown m rid ->
  labelled m (T ++ C) -> disjoint_rows T C -> T <> [] ->
  (forall k, In k (keys (T ++ C)) -> In k (outputs m)) -> (0 < dens m C)%R ->
  discrete m (keys T) -> (forall k x, In (k, x) T -> exists z, x = vz z) ->
  N = None \/ N = Some 1%nat ->
  exists l, logpdf m rid T C [] = Ok l /\
    expect (simulate m rid (keys T) C [] N) (agrees T) = xexp l.
Proof.
  intros m rid T C N RE V U LB DJ NE SUB P DI NU SN. assert (W := grown_wf _ RE).
  assert (SD : solid m C) by (apply solid_view; auto).
  exists (xlog (dens m (T ++ C) / dens m C)). split; [apply model_density; auto|].
  apply (C22_simulate_law m rid T C N); auto. apply model_density; auto.
Qed.
Print Assumptions C22_view_law.

(** The worked view: cluster and first column given the second, for a new row. *)
Example C22_case : exists l,
  logpdf demo_view (Some 7) [(1, vz 2); (9, vz 1)] [(2, vz 1)] [] = Ok l /\
  expect (simulate demo_view (Some 7) [1; 9] [(2, vz 1)] [] None) (agrees [(1, vz 2); (9, vz 1)]) = xexp l /\
  (0 < xexp l)%R.
Proof.
  destruct demo_view_reachable as [RC V]. assert (RE := creachable_grown _ RC). assert (W := grown_wf _ RE).
  assert (U : unknown demo_view (Some 7)) by (vm_compute; intuition discriminate).
  pose (T := [(1, vz 2); (9, vz 1)] : row). pose (C := [(2, vz 1)] : row).
  assert (PT : plausible demo_view (T ++ C)) by (apply plausibleb_ok; vm_compute; reflexivity).
  assert (PC : plausible demo_view C) by (apply plausibleb_ok; vm_compute; reflexivity).
  destruct (plausible_good _ W _ PT) as (P1 & _ & LB). destruct (plausible_good _ W _ PC) as (P2 & SD & _).
  assert (DJ : disjoint_rows T C) by (repeat constructor; cbn; intuition lia).
  assert (SUB : forall k, In k (keys (T ++ C)) -> In k (outputs demo_view)).
  { intros k. vm_compute. intuition congruence. }
  assert (NE : T <> []) by discriminate.
  assert (E := model_density demo_view (Some 7) T C W U LB DJ NE SUB SD P2).
  exists (xlog (dens demo_view (T ++ C) / dens demo_view C)). split; [exact E|split].
  - apply (C22_simulate_law demo_view (Some 7) T C None _ RE U LB DJ NE SUB SD P2).
    + vm_compute. repeat split; intros; eexists; reflexivity.
    + intros k x [[= <- <-]|[[= <- <-]|[]]]; eexists; reflexivity.
    + now left.
    + exact E.
  - rewrite xexp_xlog by (apply ratio_nonneg; [exact W|exact P2]). apply Rdiv_lt_0_compat; [exact P1|exact P2].
Qed.

(** Several samples of a Product are not independent samples of that law. Two row mixtures
    side by side, each with two clusters: the pairs of clusters (0, 1) and (1, 0) both have
    positive probability, yet they never occur together when two samples are asked for,
    since each mixture groups its own samples by cluster (src/finite_rowmix.py:57-61) and
    the Product pairs them up (src/product.py:77-80). *)
Definition half_mix (z x : Z) : cgpm :=
  CMix false (DBer (ber_new z 1%Qc 1%Qc))
    (CFinArr z [CDist (DBer (ber_new x 1%Qc 1%Qc)); CDist (DBer (ber_new x 1%Qc 1%Qc))] []) [].
Definition two_mixes : cgpm := CProd [half_mix 7 17; half_mix 8 18].

Lemma half_mix_reachable : forall z x, x <> z -> creachable (half_mix z x).
Proof.
  intros z x NE.
  assert (RB : forall o, reachable (DBer (ber_new o 1%Qc 1%Qc))).
  { intros o. exists (DBer (ber_new o 1%Qc 1%Qc)), []. split; [|reflexivity]. apply fresh_ber; exact one_pos. }
  apply (cr_finite (DBer (ber_new z 1%Qc 1%Qc)) [CDist (DBer (ber_new x 1%Qc 1%Qc)); CDist (DBer (ber_new x 1%Qc 1%Qc))]).
  - apply RB.
  - discriminate.
  - intros c [<-|[<-|[]]]; constructor; apply RB.
  - intros c [<-|[<-|[]]]; (split; [reflexivity|cbn; intuition lia]).
  - reflexivity.
Qed.

(** Two cluster labels of one of the mixtures always come out in increasing order. *)
Lemma half_mix_two_7 : always (simulate (half_mix 7 17) None [7] [] [] (Some 2%nat))
  (if_ok (fun r => exists a b, In (a, b) [(0, 0); (0, 1); (1, 1)] /\ r = SMany [[(7, vz a)]; [(7, vz b)]])).
Proof.
  unfold half_mix. cbn [simulate]. unfold mix_simulate. cbn [lookup dist_support obind].
  destruct (oseq _) as [ws|e] eqn:EW; [|exact I]. cbn [obind].
  assert (LW := oseq_length _ _ EW). rewrite map_length in LW. cbn in LW. clear EW.
  apply always_sobind. generalize (always_srepeat _ _ 2 (flip_index ws)). apply always_imp.
  intros [is|e]; [|auto]. cbn [if_ok]. intros [LI HI].
  destruct is as [|i [|j [|]]]; try discriminate.
  destruct (HI i (or_introl eq_refl)) as [Li _]. destruct (HI j (or_intror (or_introl eq_refl))) as [Lj _].
  rewrite LW in Li, Lj. clear - Li Lj.
  destruct i as [|[|]]; [| |lia]; (destruct j as [|[|]]; [| |lia]); clear.
  - exists 0, 0. split; [cbn; tauto|]. vm_compute. reflexivity.
  - exists 0, 1. split; [cbn; tauto|]. vm_compute. reflexivity.
  - exists 0, 1. split; [cbn; tauto|]. vm_compute. reflexivity.
  - exists 1, 1. split; [cbn; tauto|]. vm_compute. reflexivity.
Qed.

Lemma half_mix_two_8 : always (simulate (half_mix 8 18) None [8] [] [] (Some 2%nat))
  (if_ok (fun r => exists a b, In (a, b) [(0, 0); (0, 1); (1, 1)] /\ r = SMany [[(8, vz a)]; [(8, vz b)]])).
Proof.
  unfold half_mix. cbn [simulate]. unfold mix_simulate. cbn [lookup dist_support obind].
  destruct (oseq _) as [ws|e] eqn:EW; [|exact I]. cbn [obind].
  assert (LW := oseq_length _ _ EW). rewrite map_length in LW. cbn in LW. clear EW.
  apply always_sobind. generalize (always_srepeat _ _ 2 (flip_index ws)). apply always_imp.
  intros [is|e]; [|auto]. cbn [if_ok]. intros [LI HI].
  destruct is as [|i [|j [|]]]; try discriminate.
  destruct (HI i (or_introl eq_refl)) as [Li _]. destruct (HI j (or_intror (or_introl eq_refl))) as [Lj _].
  rewrite LW in Li, Lj. clear - Li Lj.
  destruct i as [|[|]]; [| |lia]; (destruct j as [|[|]]; [| |lia]); clear.
  - exists 0, 0. split; [cbn; tauto|]. vm_compute. reflexivity.
  - exists 0, 1. split; [cbn; tauto|]. vm_compute. reflexivity.
  - exists 0, 1. split; [cbn; tauto|]. vm_compute. reflexivity.
  - exists 1, 1. split; [cbn; tauto|]. vm_compute. reflexivity.
Qed.

Theorem C22_joint_samples_refuted :
  creachable two_mixes /\
  (0 < expect (simulate two_mixes None [7; 8]%Z [] [] None) (agrees [(7, vz 0); (8, vz 1)]%Z))%R /\
  (0 < expect (simulate two_mixes None [7; 8]%Z [] [] None) (agrees [(7, vz 1); (8, vz 0)]%Z))%R /\
  always (simulate two_mixes None [7; 8] [] [] (Some 2%nat)) (fun r => forall s1 s2, r = Ok (SMany [s1; s2]) ->
    ~ (hit [(7, vz 0); (8, vz 1)] s1 = true /\ hit [(7, vz 1); (8, vz 0)] s2 = true) /\
    ~ (hit [(7, vz 0); (8, vz 1)] s2 = true /\ hit [(7, vz 1); (8, vz 0)] s1 = true)).
Proof.
  assert (RE : creachable two_mixes).
  { apply (cr_product [half_mix 7 17; half_mix 8 18]); [|reflexivity].
    intros c [<-|[<-|[]]]; apply half_mix_reachable; discriminate. }
  assert (W := creachable_wf _ RE). split; [exact RE|].
  assert (POS : forall a b, plausibleb two_mixes [(7, vz a); (8, vz b)] = true ->
     (0 < expect (simulate two_mixes None [7; 8]%Z [] [] None) (agrees [(7, vz a); (8, vz b)]%Z))%R).
  { intros a b PL. pose (T := [(7, vz a); (8, vz b)] : row).
    assert (PT : plausible two_mixes T) by (apply plausibleb_ok; exact PL).
    assert (PC : plausible two_mixes []) by (apply plausibleb_ok; reflexivity).
    destruct (plausible_good _ W _ PT) as (P1 & _ & LB). destruct (plausible_good _ W _ PC) as (P2 & SD & _).
    assert (U : unknown two_mixes None) by (vm_compute; tauto).
    assert (DJ : disjoint_rows T []) by (repeat constructor; cbn; intuition lia).
    assert (SUB : forall k, In k (keys (T ++ [])) -> In k (outputs two_mixes)) by (intros k; cbn; intuition lia).
    assert (NE : T <> []) by discriminate. assert (LB' : labelled two_mixes (T ++ [])) by (rewrite app_nil_r; exact LB).
    assert (E := model_density two_mixes None T [] W U LB' DJ NE SUB SD P2).
    change [7; 8] with (keys T).
    assert (X : expect (simulate two_mixes None (keys T) [] [] None) (agrees T) =
      xexp (xlog (dens two_mixes (T ++ []) / dens two_mixes []))).
    { apply (C22_simulate_law two_mixes None T [] None _ (creachable_grown _ RE) U LB' DJ NE SUB SD P2).
      - vm_compute. repeat split; intros; eexists; reflexivity.
      - intros k x [[= <- <-]|[[= <- <-]|[]]]; eexists; reflexivity.
      - now left.
      - exact E. }
    fold T. rewrite X, xexp_xlog by (apply ratio_nonneg; [exact W|exact P2]).
    apply Rdiv_lt_0_compat; [rewrite app_nil_r; exact P1|exact P2]. }
  split; [apply POS; vm_compute; reflexivity|]. split; [apply POS; vm_compute; reflexivity|].
  unfold two_mixes. cbn [simulate map]. unfold prod_simulate.
  apply (always_imp _ (if_ok (fun r => exists a b c d, In (a, b) [(0, 0); (0, 1); (1, 1)] /\
     In (c, d) [(0, 0); (0, 1); (1, 1)] /\ r = SMany [[(7, vz a); (8, vz c)]; [(7, vz b); (8, vz d)]]))).
  { intros [r|e] H s1 s2 E; [|discriminate]. destruct H as (a & b & c & d & H1 & H2 & ->). injection E as <- <-.
    cbn in H1, H2. repeat destruct H1 as [H1|H1]; try contradiction; injection H1 as <- <-;
    repeat destruct H2 as [H2|H2]; try contradiction; injection H2 as <- <-;
    vm_compute; intuition discriminate. }
  apply always_sobind. cbn [map soseq].
  apply always_sobind. generalize half_mix_two_7. apply always_imp. intros [r1|e] H1; [|exact I].
  destruct H1 as (a & b & H1 & ->). cbn [if_ok].
  apply always_sobind. cbn [soseq]. apply always_sobind. generalize half_mix_two_8. apply always_imp. intros [r2|e] H2; [|exact I].
  destruct H2 as (c & d & H2 & ->). cbn [if_ok always]. exists a, b, c, d.
  split; [exact H1|]. split; [exact H2|]. reflexivity.
Qed.
Print Assumptions C22_joint_samples_refuted.
