(** Proof of C74, continued: row mixtures and states. *)
From Coq Require Import List ZArith QArith Qcanon Reals Bool String Permutation Lia Lra FunctionalExtensionality.
From Verif Require Import Base Xr Samp Lgamma Prims Cgpm Lib SpecPrims PrimsInv PrimsDens PrimsThm PrimsThm2
  SpecComp CompInv CompDens CompThm SpecSim SimShape SimLaw SimTotal ChainLaw SpecMany ManyLaw ManyLaw2.
Import ListNotations.
Local Open Scope Z_scope.

Section Mixture.
Variables (flex : bool) (div : dist) (arr : cgpm) (r2c : dict Z val).
Let m := CMix flex div arr r2c.
Let ix := dist_o div.
Hypothesis W : wf m.

Definition grp rid ts C (n : nat) (z : Z) := mix_simulate_one ix (outputs arr) (simulate arr) rid ts C [] (Some n) (vz z).

Lemma grp_ask : forall rid ts C n t c, component arr t = Some c ->
  grp rid ts C n t = sobind (ask c rid ts C n) (fun s => Ret (add_cluster ix (vz t) ts (Some n) s)).
Proof.
  intros rid ts C n t c E. destruct (wf_mix _ _ _ _ W) as (_ & _ & A & NI & CO & _ & _). destruct (CO c (comp_In _ _ _ E)) as [Wc Oc].
  unfold grp, mix_simulate_one, ask.
  assert (EM : match interl (outputs arr) ts with
     | [] => Ret (Ok (empty_samples (Some n)))
     | _ :: _ => simulate arr rid (interl (outputs arr) ts) (interd (outputs arr) C)
          (merged (interd (outputs arr) []) [(dist_o div, vz t)]) (Some n) end = simulate_one (outputs c) [] (simulate c) rid ts C [] (Some n)).
  { unfold simulate_one. rewrite Oc. destruct (interl (outputs arr) ts); [reflexivity|].
    change (merged (interd (outputs arr) []) [(dist_o div, vz t)]) with [(dist_o div, vz t)].
    change (interd [] (@nil (Z * val))) with (@nil (Z * val)). eapply CompThm.arr_simulate; eauto. }
  rewrite <- EM. destruct (interl (outputs arr) ts); reflexivity.
Qed.

Lemma grp_calm : forall rid ts C n t c, component arr t = Some c -> ready c rid ts C -> n <> 0%nat -> calm (grp rid ts C n t).
Proof.
  intros rid ts C n t c E Q Hn. rewrite (grp_ask rid ts C n t c E).
  destruct (wf_mix _ _ _ _ W) as (_ & _ & A & NI & CO & _ & _). destruct (CO c (comp_In _ _ _ E)) as [Wc Oc].
  assert (CA := calm_ask c rid ts C n Wc Q Hn). destruct CA as [F AL]. destruct Q as (U & _ & _ & NT & _). split.
  - apply choices_sobind; [exact F|intros; exact I].
  - apply fails_sobind; [exact AL|]. unfold ask. generalize (child_shape c rid ts C (Some n) Wc U ltac:(congruence) NT).
    apply always_imp. intros [r|e]; [|exact (fun x => x)]. cbn [if_ok always]. intros H. unfold add_cluster.
    destruct (memb ix ts); [|exact I]. destruct r as [s|rs]; [contradiction|exact I].
Qed.

Lemma grp_linear : forall rid ts C g t c, component arr t = Some c -> linear c -> ready c rid ts C ->
  exists B, forall n, n <> 0%nat -> expect (grp rid ts C n t) (total g) = (INR n * B)%R.
Proof.
  intros rid ts C g t c E L Q. 
  destruct (wf_mix _ _ _ _ W) as (_ & _ & A & NI & CO & _ & _). destruct (CO c (comp_In _ _ _ E)) as [Wc Oc].
  destruct (linear_ask c Wc L rid ts C (fun s => g (if memb ix ts then dset ix (vz t) s else s)) Q) as (B & HB).
  exists B. intros n Hn. rewrite <- HB by exact Hn. rewrite (grp_ask rid ts C n t c E), expect_sobind. cbn [expect].
  pose proof Q as (U & _ & _ & NT & _).
  eapply (expect_calm (ask c rid ts C n)); [apply calm_ask; assumption|apply (child_shape c rid ts C (Some n) Wc U ltac:(congruence) NT)|].
  intros r Hr. cbn [well_shaped] in Hr. destruct r as [s|l]; [contradiction|]. unfold add_cluster.
  destruct (memb ix ts); cbn [total]; [rewrite map_map; reflexivity|reflexivity].
Qed.

(** The sum over the groups is the sum over the draws. *)
Lemma counts_sum : forall (K zs : list Z) (h : Z -> R), NoDup K -> (forall z, In z zs -> In z K) ->
  rsum (map (fun p => INR (snd p) * h (fst p))%R (cluster_counts K zs)) = rsum (map h zs).
Proof.
  intros K zs h ND. unfold cluster_counts.
  assert (X : forall l, rsum (map (fun p : Z * nat => INR (snd p) * h (fst p))%R (filter (fun p => negb (Nat.eqb (snd p) 0)) l)) =
              rsum (map (fun p : Z * nat => INR (snd p) * h (fst p))%R l)).
  { induction l as [|[z n] l IH]; [reflexivity|]. cbn [filter snd]. destruct n as [|n]; cbn [Nat.eqb negb map fst snd].
    - change (rsum (?x :: ?y)) with (x + rsum y)%R. rewrite IH. cbn. lra.
    - change (rsum (?x :: ?y)) with (x + rsum y)%R. rewrite IH. reflexivity. }
  rewrite X, map_map. cbn [fst snd]. clear X. induction zs as [|z zs IH]; intros H.
  - cbn [count_occ map]. transitivity (rsum (map (fun _ : Z => 0%R) K)); [apply rsum_ext; intros; cbn; lra|rewrite rsum_const; cbn; lra].
  - cbn [map]. change (rsum (h z :: ?y)) with (h z + rsum y)%R. rewrite <- IH by (intros; apply H; now right).
    assert (Y : forall l, rsum (map (fun x => INR (count_occ Z.eq_dec (z :: zs) x) * h x)%R l) =
       (rsum (map (fun x => (if eqb (vz z) (vz x) then 1 else 0) * h x)%R l) + rsum (map (fun x => INR (count_occ Z.eq_dec zs x) * h x)%R l))%R).
    { intros l. rewrite <- rsum_add. apply rsum_ext. intros x _. cbn [count_occ]. destruct (Z.eq_dec z x) as [->|N].
      - rewrite eqb_refl, S_INR. lra.
      - replace (eqb (vz z) (vz x)) with false; [lra|]. symmetry. apply eqb_false. intros E. apply N. apply vz_inj. exact E. }
    rewrite Y, (rsum_single K h z ND). replace (memb z K) with true; [reflexivity|]. symmetry. apply memb_In. apply H. now left.
Qed.

Lemma mix_linear : (forall c, In c (components arr) -> linear c) -> linear m.
Proof.
  intros LC rid ts C g Q NE S1 S2. pose proof Q as (U & LB & NC & NT & X & SD & P & DI).
  destruct (wf_mix _ _ _ _ W) as (D & (K & SU) & A & NI & CO & CE & _). pose proof LB as [LB1 LB2].
  assert (KN : NoDup K) by (eapply support_NoDup; eauto).
  assert (RC : (match rid with None => None | Some r => lookup r r2c end) = None).
  { destruct U as (_ & U & _). destruct rid as [r|]; [|reflexivity]. apply lookup_None. exact U. }
  assert (QC : forall t c, component arr t = Some c -> (0 < dens c C)%R -> ready c rid ts C).
  { intros t c E Pc. assert (Ic := comp_In _ _ _ E). split; [eapply unknown_comp; eauto; apply U|].
    split; [exact (labelled_comp arr _ c LB2 Ic)|]. split; [exact NC|]. split; [exact NT|]. split; [exact X|].
    split; [apply (solid_comp arr C c SD Ic)|]. split; [exact Pc|exact (discrete_comp arr _ c DI Ic)]. }
  destruct (lookup ix C) as [x|] eqn:LX.
  - destruct (LB1 x LX) as (t & -> & LZ). destruct (CE t LZ) as [c E].
    assert (DC : dens m C = (cell_density div (vz t) * dens c C)%R).
    { unfold m. rewrite (dens_mix_some flex div arr r2c W t C LX), (q_comp flex div arr r2c W t c C E). reflexivity. }
    assert (Wc : wf c) by (apply CO; eapply comp_In; eauto).
    assert (P1 := cell_nonneg div (vz t) D). assert (P2 := dens_nonneg c Wc C).
    assert (PP : (0 < cell_density div (vz t))%R /\ (0 < dens c C)%R).
    { rewrite DC in P. split.
      - destruct P1 as [|Z0]; [auto|rewrite <- Z0 in P; lra].
      - destruct P2 as [|Z0]; [auto|rewrite <- Z0 in P; lra]. }
    destruct (grp_linear rid ts C g t c E (LC c (comp_In _ _ _ E)) (QC t c E (proj2 PP))) as (B & HB).
    exists B. intros n Hn. rewrite <- HB by exact Hn. unfold m. cbn [simulate]. unfold mix_simulate. rewrite RC.
    unfold ix in LX. rewrite LX, SU. replace (in_support (vz t) K) with true; [reflexivity|].
    symmetry. apply in_support_spec. apply (support_pos div K t D SU). apply PP.
  - assert (LCk : ~ In ix (keys C)) by (apply lookup_None; exact LX).
    set (pr := fun t => (dens m ((ix, vz t) :: C) / dens m C)%R).
    assert (EP : forall t c, component arr t = Some c -> pr t = (cell_density div (vz t) * dens c C / dens m C)%R).
    { intros t c E. unfold pr, m. rewrite (dens_mix_some flex div arr r2c W t _ (lookup_cons_eq _ _ _)).
      rewrite (q_comp flex div arr r2c W t c _ E). f_equal. f_equal.
      destruct (CO c (comp_In _ _ _ E)) as [Wc Oc]. apply dens_ext; auto.
      intros k Hk. apply lookup_cons_neq. intros ->. rewrite Oc in Hk. contradiction. }
    assert (PN : forall t, In t K -> (0 <= pr t)%R) by (intros; apply ratio_nonneg; auto).
    assert (PS : rsum (map pr K) = 1%R).
    { unfold pr. rewrite (rsum_div (fun t => dens m ((ix, vz t) :: C))). unfold m, ix.
      rewrite (cluster_marginal flex div arr r2c K C W SU LCk). fold m. field. lra. }
    set (ws := map (fun t => xlog (pr t)) K).
    set (h := fun z => expect (grp rid ts C 1 z) (total g)).
    exists (expect (log_pflip ws) (on_ok (fun i => h (nth i K 0)))). intros n Hn.
    assert (GP : forall z, In z K -> (0 < pr z)%R -> exists c, component arr z = Some c /\ ready c rid ts C).
    { intros z Hz Pz. destruct (CE z (or_intror (ex_intro _ K (conj SU Hz)))) as [c E]. exists c. split; [exact E|].
      apply (QC z c E). rewrite (EP _ _ E) in Pz. assert (Wc : wf c) by (apply CO; eapply comp_In; eauto).
      destruct (dens_nonneg c Wc C) as [|Z0]; [auto|]. rewrite <- Z0 in Pz. unfold Rdiv in Pz. lra. }
    assert (GL : forall z k, In z K -> (0 < pr z)%R -> k <> 0%nat -> expect (grp rid ts C k z) (total g) = (INR k * h z)%R).
    { intros z k Hz Pz Hk. destruct (GP z Hz Pz) as (c & E & Qc).
      destruct (grp_linear rid ts C g z c E (LC c (comp_In _ _ _ E)) Qc) as (B & HB). unfold h.
      rewrite (HB k Hk), (HB 1%nat ltac:(discriminate)). cbn. lra. }
    assert (PF : calm (log_pflip ws)).
    { split; [apply choices_log_pflip|]. apply pflip_ok. apply pos_term; [exact PN|]. rewrite PS. lra. }
    unfold m. cbn [simulate]. unfold mix_simulate. rewrite RC. unfold ix in LX. rewrite LX, SU. cbn [obind]. fold ix.
    rewrite (oseq_map_ok _ (fun t => xlog (pr t))).
    2:{ intros t Ht. apply (mixture_density flex div arr r2c rid [(ix, vz t)] C); auto.
        - cbn [app]. apply labelled_add; eauto.
        - unfold disjoint_rows. cbn. constructor; auto. }
    cbn [obind]. fold ws.
    replace (match n with O => 1%nat | Datatypes.S _ => n end) with n by (destruct n; [congruence|reflexivity]).
    rewrite expect_sobind.
    assert (R1 := expect_repeat (log_pflip ws) (fun i => h (nth i K 0)) (fun _ => True) n (proj1 PF) (calm_ok _ PF)).
    etransitivity; [|exact R1].
    apply (expect_calm _ _ _ _ (calm_srepeat (log_pflip ws) n PF) (always_srepeat _ _ n (flip_index ws))).
    intros is [LI HI]. set (zs := map (fun i => nth i K 0) is).
    assert (HZ : forall z, In z zs -> In z K /\ (0 < pr z)%R).
    { intros z Hz. apply in_map_iff in Hz. destruct Hz as (i & <- & Hi). destruct (HI i Hi) as [Li (w & Hw)].
      unfold ws in Li, Hw. rewrite map_length in Li. split; [apply nth_In; auto|]. rewrite nth_error_map in Hw.
      destruct (nth_error K i) as [z|] eqn:En; [|discriminate]. rewrite (nth_error_nth _ _ 0 En).
      cbn in Hw. injection Hw as Hw. unfold xlog in Hw. destruct (Rlt_dec 0 (pr z)); [auto|discriminate]. }
    assert (CG : forall p, In p (cluster_counts K zs) -> snd p <> 0%nat /\ In (fst p) K /\ (0 < pr (fst p))%R).
    { intros p Hp. destruct (cluster_counts_pos _ _ _ Hp) as (P0 & PK & PZ). destruct (HZ _ PZ) as [_ PP]. auto. }
    rewrite expect_sobind. cbn [expect].
    set (M := fun p : Z * nat => mix_simulate_one ix (outputs arr) (simulate arr) rid ts C [] (Some (snd p)) (vz (fst p))).
    assert (CM : forall p, In p (cluster_counts K zs) -> calm (M p)).
    { intros p Hp. destruct (CG p Hp) as (H0 & H1 & H2). destruct (GP _ H1 H2) as (c & E & Qc).
      exact (grp_calm rid ts C (snd p) (fst p) c E Qc H0). }
    transitivity (rsum (map (fun p => INR (snd p) * h (fst p))%R (cluster_counts K zs))).
    2:{ rewrite (counts_sum K zs h KN); [unfold zs; rewrite map_map; reflexivity|intros z Hz; apply HZ; exact Hz]. }
    transitivity (rsum (map (fun p => expect (M p) (on_ok (tot g))) (cluster_counts K zs))).
    2:{ apply rsum_ext. intros p Hp. destruct (CG p Hp) as (H0 & H1 & H2). rewrite <- total_on_ok. apply GL; assumption. }
    rewrite <- (soseq_sum M (tot g) _ CM).
    assert (AM : always (soseq (map M (cluster_counts K zs)))
         (if_ok (Forall2 (fun p => well_shaped ts (Some (snd p)) (cluster_ok div arr rid C (vz (fst p)))) (cluster_counts K zs)))).
    { apply always_soseq. intros p Hp. destruct (CG p Hp) as (P0 & _ & _).
      apply (mix_simulate_one_shape flex div arr r2c W); auto.
      - intros c' Hc' rid' ts' C' N' H1 H2 H3 H4. apply simulate_shape; auto. apply CO. exact Hc'.
      - congruence.
      - apply unknown_uc. apply U. }
    assert (CS : calm (soseq (map M (cluster_counts K zs)))).
    { apply calm_soseq. intros q Hq. apply in_map_iff in Hq. destruct Hq as (p & <- & Hp). auto. }
    apply (expect_calm _ _ _ _ CS AM). intros l F.
    assert (DS : exists ds, l = map SMany ds).
    { clear - F. induction F as [|p r ps rs Y F IH]; [exists []; auto|]. destruct IH as (ds & ->).
      destruct r as [|rows]; [destruct Y|]. exists (rows :: ds). reflexivity. }
    destruct DS as (ds & ->). unfold chain_samples. rewrite all_many_ok. cbn [omap obind total on_ok]. rewrite map_map. cbn [tot].
    clear. induction ds as [|d ds IH]; [reflexivity|]. cbn [List.concat map]. rewrite map_app, rsum_app.
    change (rsum (?x :: ?y)) with (x + rsum y)%R. rewrite IH. reflexivity.
Qed.
End Mixture.

Lemma view_linear : forall m, wf m -> view m -> linear m.
Proof.
  intros m W (flex & div & arr & r2c & -> & F). apply mix_linear; [exact W|]. intros c Hc.
  destruct (wf_mix _ _ _ _ W) as (_ & _ & _ & _ & CO & _ & _). apply flat_linear; [apply CO; exact Hc|apply F; exact Hc].
Qed.
