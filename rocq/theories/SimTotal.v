(** simulate raises nothing unless the constraints have density zero. (Proofs.) *)
From Coq Require Import List ZArith QArith Qcanon Reals Bool String Permutation Lia Lra.
From Verif Require Import Base Xr Samp Lgamma Prims Cgpm Lib SpecPrims PrimsInv PrimsDens PrimsThm2
  SpecComp CompInv CompDens CompThm SpecSim SimShape SimLaw.
Import ListNotations.
Local Open Scope Z_scope.

Definition fails {A} (E : exn -> Prop) (r : out A) : Prop := match r with Ok _ => True | Err e => E e end.

Lemma fails_sobind : forall {A B} (m : samp (out A)) (f : A -> samp (out B)) E,
  always m (fails E) -> always m (if_ok (fun a => always (f a) (fails E))) -> always (sobind m f) (fails E).
Proof.
  intros A B m f E H1 H2. apply always_bind. generalize (always_and _ _ _ H1 H2). apply always_imp.
  intros [a|e]; cbn; tauto.
Qed.

Lemma fails_imp : forall {A} (m : samp (out A)) (E E' : exn -> Prop), (forall e, E e -> E' e) ->
  always m (fails E) -> always m (fails E').
Proof. intros A m E E' H. apply always_imp. intros [a|e]; cbn; auto. Qed.

Lemma fails_soseq : forall {A} (l : list (samp (out A))) E, (forall m, In m l -> always m (fails E)) ->
  always (soseq l) (fails E).
Proof.
  intros A l E. induction l as [|m l IH]; intros H; [exact I|]. cbn [soseq]. apply fails_sobind; [apply H; now left|].
  apply always_True. intros [a|]; [|exact I]. cbn. apply fails_sobind; [apply IH; intros; apply H; now right|].
  apply always_True. intros [b|]; exact I.
Qed.

Lemma fails_srepeat : forall {A} (m : samp (out A)) E n, always m (fails E) -> always (srepeat n m) (fails E).
Proof.
  intros A m E n H. induction n as [|n IH]; [exact I|]. cbn [srepeat]. apply fails_sobind; [exact H|].
  apply always_True. intros [a|]; [|exact I]. cbn. apply fails_sobind; [exact IH|]. apply always_True. intros [b|]; exact I.
Qed.

Lemma fails_many : forall m N E, always m (fails E) -> always (simulate_many m N) (fails E).
Proof.
  intros m [n|] E H; cbn [simulate_many]; (apply fails_sobind; [auto using fails_srepeat|]);
    apply always_True; intros [b|]; exact I.
Qed.

Lemma draw_list_ok : forall l o n E, always (let! r := draw_list l o n in Ret (Ok (SMany r))) (fails E).
Proof. intros. apply always_bind. apply always_True. intros; exact I. Qed.

Lemma xlog_good : forall p, is_bad (xlog p) = false.
Proof. intros p. unfold xlog. destruct (Rlt_dec 0 p); reflexivity. Qed.

Lemma pflip_ok : forall {A} (K : list A) (p : A -> R), (exists z, In z K /\ (0 < p z)%R) ->
  always (log_pflip (map (fun z => xlog (p z)) K)) (fails (fun _ => False)).
Proof.
  intros A K p (z & Hz & P). unfold log_pflip.
  replace (existsb is_bad _) with false.
  2:{ symmetry. apply Bool.not_true_iff_false. intros H. apply existsb_exists in H. destruct H as (x & H & B).
      apply in_map_iff in H. destruct H as (y & <- & _). rewrite xlog_good in B. discriminate. }
  replace (existsb is_fin _) with true.
  2:{ symmetry. apply existsb_exists. exists (xlog (p z)). split; [apply in_map_iff; eauto|]. rewrite xlog_pos by exact P. reflexivity. }
  cbn. auto.
Qed.

Lemma pos_term : forall {A} (K : list A) (p : A -> R), (forall z, In z K -> (0 <= p z)%R) -> (0 < rsum (map p K))%R ->
  exists z, In z K /\ (0 < p z)%R.
Proof.
  intros A K p NN. induction K as [|a K IH]; cbn; intros H; [lra|].
  destruct (NN a (or_introl eq_refl)) as [P|Z]; [exists a; auto|].
  rewrite <- Z in H. destruct IH as (z & Hz & P); [intros; apply NN; now right|unfold rsum in *; lra|]. exists z. auto.
Qed.

Lemma dist_total : forall d rid N E, dinv d -> unrecorded rid (dist_data d) ->
  always (dist_simulate d rid [dist_o d] [] [] N) (fails E).
Proof.
  intros d rid N E D U. apply (fails_imp _ (fun _ => False)); [tauto|].
  assert (NN : forall z, (0 <= cell_density d (vz z))%R) by (intros; apply cell_nonneg; auto).
  destruct d as [s|s|s|s|s|s]; cbn [dist_simulate]; try apply fails_many.
  - unfold crp_simulate1. cbn [dist_o]. rewrite base_simulate_one.
    assert (R : (match rid with None => None | Some r => lookup r (crp_data s) end) = None).
    { destruct rid as [r|]; [|reflexivity]. cbn in U. apply lookup_None.
      intros H. apply U. unfold keys in *. rewrite map_map. cbn. exact H. }
    rewrite R. cbn [hd].
    rewrite (oseq_map_ok _ (fun z => xlog (cell_density (DCrp s) (vz z)))).
    2:{ intros z Hz. apply (cell_logpdf (DCrp s) rid (vz z) D U). apply crp_missing_vz. }
    apply fails_sobind; [|apply always_True; intros [i|]; exact I].
    apply pflip_ok. apply pos_term; [auto|].
    assert (S1 := support_sum (DCrp s) (crp_support s) D eq_refl). unfold rsum in *. rewrite S1. lra.
  - unfold cat_simulate1. cbn [dist_o]. rewrite base_simulate_one, unrecorded_none by exact U. cbn. auto.
  - unfold ber_simulate1. cbn [dist_o]. rewrite base_simulate_one, unrecorded_none by exact U.
    rewrite !ber_pred_fin by exact D. apply fails_sobind; [|apply always_True; intros [i|]; exact I]. cbn. auto.
  - unfold poi_simulate1. cbn [dist_o]. rewrite base_simulate_one, unrecorded_none by exact U.
    destruct (poi_posterior _ _ _ _). cbn. auto.
  - unfold nrm_simulate1. cbn [dist_o]. rewrite base_simulate_one, unrecorded_none by exact U. cbn. auto.
  - unfold nuc_simulate. cbn [dist_o]. rewrite base_simulate_one, unrecorded_none by exact U.
    destruct (qltb (nuc_var s) 0) eqn:Q.
    { exfalso. destruct D as (_ & _ & _ & P). cbn in P. apply qltb_true in Q. rewrite qr_0 in Q. lra. }
    destruct N as [n|]; [apply draw_list_ok|]. cbn. auto.
Qed.

(** What simulate of a model raises: ValueError, and only under constraints of density zero. *)
Definition quiet (c : cgpm) : Prop := forall rid ts C N, unknown c rid -> labelled c C -> NoDup (keys C) ->
  NoDup ts -> (forall k, In k ts -> In k (outputs c) /\ ~ In k (keys C)) -> ts <> [] ->
  (forall k, In k (keys C) -> In k (outputs c)) -> solid c C -> N <> Some 0%nat ->
  always (simulate c rid ts C [] N) (fails (fun e => e = ValueError /\ dens c C = 0%R)).

Lemma quiet_one : forall c, wf c -> quiet c -> forall rid ts C N, unknown c rid -> labelled c C -> NoDup (keys C) ->
  NoDup ts -> (forall k, In k ts -> ~ In k (keys C)) -> solid c C -> N <> Some 0%nat ->
  always (simulate_one (outputs c) [] (simulate c) rid ts C [] N) (fails (fun e => e = ValueError /\ dens c C = 0%R)).
Proof.
  intros c W Q rid ts C N U LB NC NT DJ SD N0. unfold simulate_one.
  destruct (interl (outputs c) ts) as [|t0 tc] eqn:E; [exact I|]. rewrite <- E.
  change (interd [] (@nil (Z * val))) with (@nil (Z * val)).
  rewrite <- (dens_interd c C) by exact W. apply Q; auto.
  - apply labelled_interd. exact LB.
  - rewrite keys_interd. apply NoDup_filter. exact NC.
  - apply NoDup_filter. exact NT.
  - intros k Hk. apply filter_In in Hk. destruct Hk as [H1 H2]. apply memb_In in H2. split; [exact H2|].
    intros H. apply keys_interd_sub in H. apply (DJ k); auto.
  - rewrite E. discriminate.
  - intros k Hk. apply In_keys_interd in Hk. tauto.
  - eapply solid_ext; [exact W| |exact SD]. intros k Hk. rewrite lookup_interd.
    replace (memb k (outputs c)) with true; [reflexivity|]. symmetry. apply memb_In. exact Hk.
Qed.

Lemma all_one_ok : forall ds, all_one (map SOne ds) = Ok ds.
Proof.
  intros ds. unfold all_one. rewrite map_map. rewrite (oseq_map_ok _ (fun d => d)) by reflexivity. now rewrite map_id.
Qed.

Lemma all_many_ok : forall ds, all_many (map SMany ds) = Ok ds.
Proof.
  intros ds. unfold all_many. rewrite map_map. rewrite (oseq_map_ok _ (fun d => d)) by reflexivity. now rewrite map_id.
Qed.

Lemma shaped_list : forall {A} (cs : list A) N (ts : A -> list Z) (P : A -> row -> Prop) l,
  Forall2 (fun c => well_shaped (ts c) N (P c)) cs l ->
  match N with None => exists ds, l = map SOne ds | Some _ => exists ds, l = map SMany ds end.
Proof.
  intros A cs N ts P l F. induction F as [|c r cs l H F IH]; [destruct N; exists []; reflexivity|].
  destruct N as [n|], r as [s|rs]; try contradiction; destruct IH as [ds ->].
  - exists (rs :: ds). reflexivity.
  - exists (s :: ds). reflexivity.
Qed.

Lemma prod_quiet : forall cs, (forall c, In c cs -> wf c) -> NoDup (flat_map outputs cs) ->
  (forall c, In c cs -> quiet c) -> quiet (CProd cs).
Proof.
  intros cs W ND Q rid ts C N U LB NC NT ST NE SC SD N0. cbn [unknown labelled solid] in *. rewrite each_In in U, LB, SD.
  cbn [simulate]. unfold prod_simulate. rewrite map_map.
  set (M := fun c => simulate_one (outputs c) [] (simulate c) rid ts C [] N).
  assert (EM : map (fun c => simulate_one (outputs c) (inputs c) (simulate c) rid ts C [] N) cs = map M cs).
  { apply map_ext_in. intros c Hc. unfold M. rewrite (wf_inputs c (W c Hc)). reflexivity. }
  rewrite EM. apply fails_sobind.
  - apply fails_soseq. intros m Hm. apply in_map_iff in Hm. destruct Hm as (c & <- & Hc).
    eapply fails_imp; [|apply quiet_one; auto; intros k Hk; apply ST; exact Hk].
    intros e [-> Z0]. split; [reflexivity|]. cbn [dens].
    destruct (Rtotal_order 0 (rprod (map (fun c' => dens c' C) cs))) as [P|[Z1|P]]; [exfalso|auto|exfalso].
    + assert (X : (0 < dens c C)%R).
      { apply (rprod_pos (map (fun c' => dens c' C) cs)); auto.
        - intros r Hr. apply in_map_iff in Hr. destruct Hr as (c' & <- & Hc'). apply dens_nonneg. auto.
        - apply in_map_iff. eauto. }
      lra.
    + assert (X : (0 <= rprod (map (fun c' => dens c' C) cs))%R).
      { apply rprod_nonneg. intros r Hr. apply in_map_iff in Hr. destruct Hr as (c' & <- & Hc'). apply dens_nonneg. auto. }
      lra.
  - assert (H : always (soseq (map M cs)) (if_ok (Forall2 (fun c => well_shaped (interl (outputs c) ts) N
        (fun s => cells_of (outputs c) s = [] \/ sample_ok c rid (cells_of (outputs c) C) s)) cs))).
    { apply always_soseq. intros c Hc. apply child_shape; auto. }
    revert H. apply always_imp. intros [l|]; [|exact (fun x => x)]. cbn [if_ok always]. intros F.
    assert (L := shaped_list _ _ _ _ _ F).
    assert (CE : cs <> []).
    { destruct cs; [|discriminate]. destruct ts as [|k ts]; [congruence|]. destruct (ST k (or_introl eq_refl)) as [[] _]. }
    destruct N as [n|]; destruct L as [ds ->].
    + destruct ds as [|d ds]; [inversion F; subst; congruence|]. unfold merge_samples. cbn [map].
      change (SMany d :: map SMany ds) with (map SMany (d :: ds)). rewrite all_many_ok. exact I.
    + destruct ds as [|d ds]; [inversion F; subst; congruence|]. unfold merge_samples. cbn [map].
      change (SOne d :: map SOne ds) with (map SOne (d :: ds)). rewrite all_one_ok. exact I.
Qed.

Lemma mix_one_quiet : forall flex div arr r2c, wf (CMix flex div arr r2c) ->
  forall t c, component arr t = Some c -> quiet c ->
  forall rid ts C N, unknown c rid -> labelled c C -> NoDup (keys C) -> NoDup ts ->
  (forall k, In k ts -> In k (outputs (CMix flex div arr r2c)) /\ ~ In k (keys C)) -> solid c C -> N <> Some 0%nat ->
  always (mix_simulate_one (dist_o div) (outputs arr) (simulate arr) rid ts C [] N (vz t))
    (fails (fun e => e = ValueError /\ dens c C = 0%R)).
Proof.
  intros flex div arr r2c W t c E Q rid ts C N U LB NC NT ST SD N0.
  destruct (wf_mix _ _ _ _ W) as (_ & _ & A & NI & CO & _ & _). destruct (CO c (comp_In _ _ _ E)) as [Wc Oc].
  unfold mix_simulate_one.
  set (M := simulate_one (outputs c) [] (simulate c) rid ts C [] N).
  assert (EM : match interl (outputs arr) ts with
     | [] => Ret (Ok (empty_samples N))
     | _ :: _ => simulate arr rid (interl (outputs arr) ts) (interd (outputs arr) C)
          (merged (interd (outputs arr) []) [(dist_o div, vz t)]) N end = M).
  { unfold M, simulate_one. rewrite Oc. destruct (interl (outputs arr) ts); [reflexivity|].
    change (merged (interd (outputs arr) []) [(dist_o div, vz t)]) with [(dist_o div, vz t)].
    change (interd [] (@nil (Z * val))) with (@nil (Z * val)). eapply CompThm.arr_simulate; eauto. }
  assert (X : always (sobind M (fun s => Ret (add_cluster (dist_o div) (vz t) ts N s)))
                (fails (fun e => e = ValueError /\ dens c C = 0%R))).
  { apply fails_sobind.
    - apply quiet_one; auto. intros k Hk. apply ST. exact Hk.
    - unfold M. generalize (child_shape c rid ts C N Wc U N0 NT). apply always_imp. intros [r|e]; [|exact (fun x => x)].
      cbn [if_ok always]. intros H. unfold add_cluster. destruct (memb _ ts); [|exact I].
      destruct N as [n|], r as [s|rs]; try contradiction; exact I. }
  rewrite <- EM in X. destruct (interl (outputs arr) ts); exact X.
Qed.

Lemma mix_quiet : forall flex div arr r2c, wf (CMix flex div arr r2c) ->
  (forall c, In c (components arr) -> quiet c) -> quiet (CMix flex div arr r2c).
Proof.
  intros flex div arr r2c W Q rid ts C N U LB NC NT ST NE SC SD N0.
  destruct (wf_mix _ _ _ _ W) as (D & (K & SU) & A & NI & CO & CE & _). pose proof LB as [LB1 LB2].
  assert (KN : NoDup K) by (eapply support_NoDup; eauto).
  set (m := CMix flex div arr r2c) in *. set (ix := dist_o div) in *.
  assert (RC : (match rid with None => None | Some r => lookup r r2c end) = None).
  { destruct U as (_ & U & _). destruct rid as [r|]; [|reflexivity]. apply lookup_None. exact U. }
  assert (ONE : forall t c M, component arr t = Some c -> M <> Some 0%nat ->
    always (mix_simulate_one ix (outputs arr) (simulate arr) rid ts C [] M (vz t)) (fails (fun e => e = ValueError /\ dens c C = 0%R))).
  { intros t c M E SM. assert (Ic := comp_In _ _ _ E). destruct (CO c Ic) as [Wc Oc].
    apply (mix_one_quiet flex div arr r2c W t c E); auto.
    - eapply unknown_comp; eauto.
    - exact (labelled_comp arr _ c LB2 Ic).
    - apply (solid_comp arr C c SD Ic). }
  destruct (lookup ix C) as [x|] eqn:LC.
  - unfold m. cbn [simulate]. unfold mix_simulate. rewrite RC. fold ix. rewrite LC.
    destruct (LB1 x eq_refl) as (t & -> & LZ). destruct (CE t LZ) as [c E].
    assert (DC : dens m C = (cell_density div (vz t) * dens c C)%R).
    { unfold m. rewrite (dens_mix_some flex div arr r2c W t C LC), (q_comp flex div arr r2c W t c C E). reflexivity. }
    rewrite SU. destruct (in_support (vz t) K) eqn:IS.
    + generalize (ONE t c N E N0). apply fails_imp. intros e [-> Z0]. split; [reflexivity|]. fold m. rewrite DC, Z0. ring.
    + cbn [always fails]. split; [reflexivity|]. fold m. rewrite DC. destruct (cell_nonneg div (vz t) D) as [P|Z0]; [|rewrite <- Z0; ring].
      apply (support_pos div K t D SU) in P. apply in_support_spec in P. congruence.
  - assert (LCk : ~ In ix (keys C)) by (apply lookup_None; exact LC).
    destruct (dens_nonneg m W C) as [P|Z0].
    2:{ unfold m. rewrite zero_simulate; auto. cbn. auto. }
    unfold m. cbn [simulate]. unfold mix_simulate. rewrite RC. fold ix. rewrite LC.
    set (pr := fun t => (dens m ((ix, vz t) :: C) / dens m C)%R).
    assert (EP : forall t c, component arr t = Some c -> pr t = (cell_density div (vz t) * dens c C / dens m C)%R).
    { intros t c E. unfold pr, m. rewrite (dens_mix_some flex div arr r2c W t _ (lookup_cons_eq _ _ _)).
      rewrite (q_comp flex div arr r2c W t c _ E). f_equal. f_equal.
      destruct (CO c (comp_In _ _ _ E)) as [Wc Oc]. apply dens_ext; auto.
      intros k Hk. apply lookup_cons_neq. intros ->. rewrite Oc in Hk. contradiction. }
    assert (PN : forall t, In t K -> (0 <= pr t)%R) by (intros; apply ratio_nonneg; auto).
    assert (PS : rsum (map pr K) = 1%R).
    { unfold pr. rewrite (rsum_div (fun t => dens m ((ix, vz t) :: C))). unfold m, ix.
      rewrite (cluster_marginal flex div arr r2c K C W SU LCk). fold m. field. lra. }
    rewrite SU. cbn [obind].
    rewrite (oseq_map_ok _ (fun t => xlog (pr t))).
    2:{ intros t Ht. apply (mixture_density flex div arr r2c rid [(ix, vz t)] C); auto.
        - cbn [app]. apply labelled_add; eauto.
        - unfold disjoint_rows. cbn. constructor; auto. }
    cbn [obind].
    set (size := match N with None => 1%nat | Some O => 1%nat | Some n => n end).
    apply (fails_imp _ (fun _ => False)); [tauto|].
    assert (PF : always (log_pflip (map (fun t => xlog (pr t)) K)) (fails (fun _ => False))).
    { apply pflip_ok. apply pos_term; [exact PN|]. rewrite PS. lra. }
    apply fails_sobind; [apply fails_srepeat; exact PF|].
    generalize (always_srepeat _ _ size (flip_index (map (fun t => xlog (pr t)) K))). apply always_imp.
    intros [is|e]; [|auto]. cbn [if_ok]. intros [LI HI].
    set (zs := map (fun i => nth i K 0) is).
    assert (HZ : forall z, In z zs -> In z K /\ (0 < pr z)%R).
    { intros z Hz. apply in_map_iff in Hz. destruct Hz as (i & <- & Hi). destruct (HI i Hi) as [Li (w & Hw)].
      rewrite map_length in Li. split; [apply nth_In; auto|]. rewrite nth_error_map in Hw.
      destruct (nth_error K i) as [z|] eqn:En; [|discriminate]. rewrite (nth_error_nth _ _ 0 En).
      cbn in Hw. injection Hw as Hw. unfold xlog in Hw. destruct (Rlt_dec 0 (pr z)); [auto|discriminate]. }
    assert (CS : list_sum (map snd (cluster_counts K zs)) = size).
    { rewrite cluster_counts_sum; [unfold zs; rewrite map_length; exact LI|exact KN|].
      intros z Hz. apply HZ. exact Hz. }
    apply fails_sobind.
    + apply fails_soseq. intros mm Hm. apply in_map_iff in Hm. destruct Hm as (p & <- & Hp).
      destruct (cluster_counts_pos _ _ _ Hp) as (P0 & PK & PZ). destruct (HZ _ PZ) as [_ PP].
      destruct (CE (fst p) (or_intror (ex_intro _ K (conj SU PK)))) as [c E].
      generalize (ONE (fst p) c (Some (snd p)) E ltac:(congruence)). apply fails_imp. intros e [_ Z0].
      rewrite (EP _ _ E), Z0 in PP. unfold Rdiv in PP. lra.
    + assert (H : always (soseq (map (fun p => mix_simulate_one ix (outputs arr) (simulate arr) rid ts C []
            (Some (snd p)) (vz (fst p))) (cluster_counts K zs)))
         (if_ok (Forall2 (fun p => well_shaped ts (Some (snd p)) (cluster_ok div arr rid C (vz (fst p)))) (cluster_counts K zs)))).
      { apply always_soseq. intros p Hp. destruct (cluster_counts_pos _ _ _ Hp) as (P0 & PK & PZ).
        apply (mix_simulate_one_shape flex div arr r2c W); auto.
        - intros c' Hc' rid' ts' C' N' H1 H2 H3 H4. apply simulate_shape; auto. apply CO. exact Hc'.
        - intros k Hk. apply ST. exact Hk.
        - congruence.
        - apply unknown_uc. apply U. }
      revert H. apply always_imp. intros [l|e]; [|auto]. cbn [if_ok always]. intros F.
      assert (AM : exists ds, l = map SMany ds /\ List.length (List.concat ds) = size).
      { rewrite <- CS. clear - F. induction F as [|p r ps rs X F IH]; [exists []; auto|].
        destruct IH as (ds & -> & L). destruct r as [|rows]; [destruct X|]. destruct X as [X _].
        exists (rows :: ds). split; [reflexivity|]. cbn [List.concat map list_sum fold_right]. rewrite app_length.
        unfold list_sum in L. rewrite L, X. reflexivity. }
      destruct AM as (ds & -> & L). unfold chain_samples. rewrite all_many_ok. cbn [omap obind].
      destruct N as [n|]; [exact I|]. destruct (List.concat ds); [discriminate L|exact I].
Qed.

Lemma dist_quiet : forall d, dinv d -> quiet (CDist d).
Proof.
  intros d D rid ts C N U LB NC NT ST NE SC SD N0. cbn [outputs simulate] in *.
  assert (E : ts = [dist_o d]).
  { destruct ts as [|k ts]; [congruence|]. destruct (ST k (or_introl eq_refl)) as [[<-|[]] _]. f_equal.
    destruct ts as [|k ts]; [reflexivity|]. destruct (ST k (or_intror (or_introl eq_refl))) as [[<-|[]] _].
    inversion NT as [|? ? H _]; subst. exfalso. apply H. now left. }
  subst ts. destruct C as [|[k x] C].
  - apply dist_total; auto.
  - exfalso. destruct (SC k (or_introl eq_refl)) as [<-|[]]. destruct (ST (dist_o d) (or_introl eq_refl)) as [_ H].
    apply H. now left.
Qed.

Lemma wf_quiet : forall c, wf c -> quiet c.
Proof.
  induction 1 as [d D|cs Wc IH ND|div cs r2i r2c D F SU NE Wc IH O|div b cs r2i r2c D HS Wb IHb NI ND Wc IH O].
  - apply dist_quiet; auto.
  - apply prod_quiet; auto.
  - apply mix_quiet; auto. econstructor; eauto.
  - apply mix_quiet; auto; [econstructor; eauto|].
    intros c [<-|Hc]; [exact IHb|]. unfold values in Hc. apply in_map_iff in Hc. destruct Hc as ([k c'] & <- & Hc).
    eapply IH; eauto.
Qed.
