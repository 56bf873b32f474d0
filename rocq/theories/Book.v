(** Scores of composite models, removal of unknown rows, rejected observations. *)
From Coq Require Import List ZArith QArith Qcanon Reals Bool String Permutation Lia Lra.
From Verif Require Import Base Xr Samp Lgamma Prims Cgpm Lib SpecPrims PrimsInv PrimsDens PrimsThm PrimsThm2
  SpecComp CompInv CompDens CompThm SpecBook.
Import ListNotations.
Local Open Scope Z_scope.

(** ** Scores *)

Lemma prim_score_ok : forall d, dinv d -> dist_score d = Ok (Fin (prim_score d)).
Proof. intros d D. unfold prim_score. destruct (score_fin d D) as [r ->]. reflexivity. Qed.

Lemma xsum_fin : forall {A} (f : A -> R) l, xsum (map (fun a => Fin (f a)) l) = Fin (rsum (map f l)).
Proof.
  intros A f l. induction l as [|a l IH]; [reflexivity|]. cbn [map].
  change (xsum (?x :: ?y)) with (xadd x (xsum y)). rewrite IH. reflexivity.
Qed.

Lemma score_total : forall c, wf c -> flexible c -> score c = Ok (Fin (total_score c)).
Proof.
  induction 1 as [d D|cs Wc IH ND|div cs r2i r2c D F SU NE Wc IH O|div b cs r2i r2c D HS Wb IHb NI ND Wc IH O];
    intros FX; cbn [flexible score total_score] in *.
  - apply prim_score_ok. exact D.
  - rewrite each_In in FX. rewrite (oseq_map_ok score (fun c => Fin (total_score c))).
    + cbn [omap]. rewrite xsum_fin. reflexivity.
    + intros c Hc. auto.
  - contradiction.
  - destruct FX as [Fb FX]. rewrite each_In in FX. rewrite prim_score_ok by exact D. cbn [obind].
    rewrite (oseq_map_ok _ (fun p : val * cgpm => Fin (let '(_, c') := p in total_score c'))).
    + cbn [omap obind]. rewrite xsum_fin. reflexivity.
    + intros [k c] Hc. rewrite (IH k c Hc); [reflexivity|]. apply (FX (k, c) Hc).
Qed.

Lemma settings_fresh : forall d, dinv d -> fresh (settings d).
Proof.
  intros d (_ & _ & _ & H). destruct d; cbn [settings hypers_pos] in *.
  - constructor. exact H.
  - constructor; apply H.
  - constructor; apply H.
  - apply (fresh_poi (poi_o s) (poi_a s) (poi_b s)). unfold poi_new.
    assert (A : qltb 0%Qc (poi_a s) = true) by (apply qltb_true; rewrite qr_0; apply H).
    assert (B : qltb 0%Qc (poi_b s) = true) by (apply qltb_true; rewrite qr_0; apply H).
    rewrite A, B. reflexivity.
  - apply (fresh_nrm (nrm_o s) (nrm_m s) (nrm_r s) (nrm_s s) (nrm_nu s)). unfold nrm_new.
    assert (A : qltb 0%Qc (nrm_r s) = true) by (apply qltb_true; rewrite qr_0; apply H).
    assert (B : qltb 0%Qc (nrm_s s) = true) by (apply qltb_true; rewrite qr_0; apply H).
    assert (C : qltb 0%Qc (nrm_nu s) = true) by (apply qltb_true; rewrite qr_0; apply H).
    rewrite A, B, C. reflexivity.
  - apply (fresh_nuc (nuc_o s) (nuc_hypers s) (nuc_mu s) (nuc_var s)). unfold nuc_new.
    assert (A : qltb 0%Qc (nuc_var s) = true) by (apply qltb_true; rewrite qr_0; apply H).
    rewrite A. reflexivity.
Qed.

Lemma settings_data : forall d, dist_data (settings d) = [].
Proof. destruct d; reflexivity. Qed.

Lemma settings_idem : forall d, settings (settings d) = settings d.
Proof. destruct d; reflexivity. Qed.

Lemma prim_score_vacant : forall d, dinv d -> dist_data d = [] -> prim_score d = 0%R.
Proof.
  intros d D E. assert (F := settings_fresh d D).
  destruct (exchangeable d (settings d) D (fresh_dinv _ F)) as [_ (_ & _ & S & _)].
  - symmetry. apply settings_idem.
  - rewrite E, settings_data. constructor.
  - unfold prim_score. rewrite S, (score_fresh _ F). reflexivity.
Qed.

Lemma total_vacant : forall c, wf c -> vacant c -> total_score c = 0%R.
Proof.
  induction 1 as [d D|cs Wc IH ND|div cs r2i r2c D F SU NE Wc IH O|div b cs r2i r2c D HS Wb IHb NI ND Wc IH O];
    intros V; cbn [vacant total_score] in *.
  - apply prim_score_vacant; auto.
  - rewrite each_In in V. apply rsum_zero. intros x Hx. apply in_map_iff in Hx. destruct Hx as (c & <- & Hc). auto.
  - destruct V as [Vd V]. rewrite each_In in V. rewrite prim_score_vacant by auto.
    rewrite rsum_zero; [lra|]. intros x Hx. apply in_map_iff in Hx. destruct Hx as (c & <- & Hc). auto.
  - destruct V as (Vd & Vb & V). rewrite each_In in V. rewrite prim_score_vacant by auto.
    rewrite rsum_zero; [lra|]. intros x Hx. apply in_map_iff in Hx. destruct Hx as ([k c] & <- & Hc).
    apply (IH k c Hc). apply (V (k, c) Hc).
Qed.

Lemma rsum_dset : forall {V} (f : V -> R) (d : dict val V) k v,
  rsum (map (fun p => let '(_, c) := p in f c) (dset k v d)) =
  (rsum (map (fun p => let '(_, c) := p in f c) d) + f v - match lookup k d with Some w => f w | None => 0 end)%R.
Proof.
  intros V f d k v. induction d as [|[k' w] d IH]; cbn [dset map lookup].
  - unfold rsum. cbn. lra.
  - destruct (eq_dec k k'); cbn [map]; change (rsum (?x :: ?l)) with (x + rsum l)%R; [lra|]. rewrite IH. lra.
Qed.

(** ** Primitives *)

Lemma leaf_accepts : forall d rid x, dinv d -> ~ In rid (keys (dist_data d)) -> in_domain (kind_of d) (dist_data d) x ->
  exists d', dist_observe d rid [(dist_o d, x)] [] = (d', Ok tt) /\
    dist_data d' = dist_data d ++ [(rid, stored (kind_of d) x)].
Proof.
  intros d rid x D NI DO. assert (R := observe_refines d rid [(dist_o d, x)] [] D). destruct R as [R _].
  destruct (dist_observe d rid [(dist_o d, x)] []) as [d' res]. cbn in R. exists d'.
  inversion R as [A B|A B|A B C|y A B C E F|y A B C E F]; subst; try contradiction; try congruence.
  injection C as <-. auto.
Qed.

Lemma leaf_accepted : forall d rid obs d', dinv d -> dist_observe d rid obs [] = (d', Ok tt) ->
  exists x, obs = [(dist_o d, x)] /\ ~ In rid (keys (dist_data d)) /\ in_domain (kind_of d) (dist_data d) x /\
    dist_data d' = dist_data d ++ [(rid, stored (kind_of d) x)].
Proof.
  intros d rid obs d' D E. assert (R := observe_refines d rid obs [] D). destruct R as [R _].
  rewrite E in R. cbn in R. inversion R as [A B|A B|A B C|y A B C F G|y A B C F G]; subst. exists y. auto.
Qed.

Lemma leaf_rejected : forall d rid obs d' e, dinv d -> dist_observe d rid obs [] = (d', Err e) -> d' = d.
Proof.
  intros d rid obs d' e D E. assert (R := observe_refines d rid obs [] D). destruct R as [_ R].
  rewrite E in R. cbn in R. apply (R e eq_refl).
Qed.

Lemma leaf_unobserve_unknown : forall d rid, ~ In rid (keys (dist_data d)) -> dist_unobserve d rid = (d, Err ValueError).
Proof.
  intros d rid NI.
  apply lookup_None in NI. destruct d; cbn [dist_unobserve dist_data] in *;
    [unfold crp_unobserve|unfold cat_unobserve|unfold ber_unobserve|unfold poi_unobserve|unfold nrm_unobserve|unfold nuc_unobserve];
    try (rewrite NI; reflexivity).
  assert (LC := lookup_cdata s rid). unfold dist_data in LC. rewrite NI in LC.
  destruct (lookup rid (crp_data s)); [discriminate|reflexivity].
Qed.

Lemma leaf_unobserve_known : forall d rid x, dinv d -> lookup rid (dist_data d) = Some x ->
  exists d', dist_unobserve d rid = (d', Ok ([(dist_o d, x)], [])) /\ dist_data d' = ddel rid (dist_data d).
Proof.
  intros d rid x D L. assert (R := unobserve_refines d rid D). destruct R as [R _].
  destruct (dist_unobserve d rid) as [d' res]. cbn in R. exists d'. assert (ND : NoDup (keys (dist_data d))) by apply D.
  inversion R as [A B|l1 l2 y A B C]; subst.
  - exfalso. apply A. eapply lookup_Some_keys; eauto.
  - assert (Y : lookup rid (dist_data d) = Some y).
    { apply In_lookup; auto. rewrite A. apply in_or_app. right. now left. }
    rewrite L in Y. injection Y as ->. split; [reflexivity|].
    assert (NI1 : ~ In rid (keys l1)).
    { rewrite A in ND. unfold keys in ND. rewrite map_app in ND. cbn in ND. apply NoDup_remove_2 in ND.
      intros H. apply ND. apply in_or_app. now left. }
    rewrite A. clear - NI1. induction l1 as [|[k v] l1 IH]; cbn.
    + destruct (eq_dec rid rid); [reflexivity|congruence].
    + cbn in NI1. destruct (eq_dec rid k) as [->|]; [tauto|]. f_equal. apply IH. tauto.
Qed.

(** ** Observing adds the log density *)

Definition adds (c : cgpm) (S : row) (p : cgpm * out unit) : Prop :=
  snd p = Ok tt -> (0 < dens c S)%R -> total_score (fst p) = (total_score c + ln (dens c S))%R.

Lemma prim_step : forall d rid x d', dinv d -> dist_observe d rid [(dist_o d, x)] [] = (d', Ok tt) ->
  (0 < cell_density d x)%R -> prim_score d' = (prim_score d + ln (cell_density d x))%R.
Proof.
  intros d rid x d' D E P. destruct (score_step d rid x d' D E) as (r & l & S & S' & L).
  unfold prim_score. rewrite S, S'. f_equal.
  destruct x as [|q].
  - subst l. destruct d; cbn in P |- *; try lra; rewrite ln_1; reflexivity.
  - assert (U : unrecorded (Some rid) (dist_data d)).
    { destruct (leaf_accepted d rid _ d' D E) as (y & _ & NI & _). exact NI. }
    rewrite cell_logpdf in L; auto; [|unfold crp_missing; destruct d; cbn; try tauto; congruence].
    unfold xlog in L. destruct (Rlt_dec 0 (cell_density d (VQ q))); [congruence|contradiction].
Qed.

Lemma adds_interd : forall c S p, wf c -> adds c (interd (outputs c) S) p -> adds c S p.
Proof. intros c S p W H E P. rewrite <- (dens_interd c S W) in P |- *. auto. Qed.

Lemma named_ext : forall c, wf c -> forall S S', (forall k, In k (outputs c) -> lookup k S' = lookup k S) ->
  named c S -> named c S'.
Proof.
  intros c W S S'.
  induction W as [d D|cs Wc IH ND|div cs r2i r2c D F SU NE Wc IH O|div b cs r2i r2c D HS Wb IHb NI ND Wc IH O];
    cbn [named outputs]; intros LK N.
  - exact I.
  - rewrite each_In in N |- *. intros c Hc.
    assert (LK' : forall k, In k (outputs c) -> lookup k S' = lookup k S).
    { intros k Hk. apply LK. apply in_flat_map. eauto. }
    destruct (N c Hc) as [N1|N1]; [left|right].
    + intros k Hk. rewrite LK' by exact Hk. auto.
    + apply IH; auto.
  - destruct N as [(z & Hz) N2]. rewrite each_In in N2 |- *. split.
    + exists z. rewrite LK by now left. exact Hz.
    + intros c Hc. apply IH; auto. intros k Hk. apply LK. right.
      destruct cs as [|c0 cs]; [contradiction|]. destruct (O c Hc) as [E _]. cbn in E |- *. rewrite <- E. exact Hk.
  - destruct N as ((z & Hz) & N2 & N3). rewrite each_In in N3 |- *. split; [|split].
    + exists z. rewrite LK by now left. exact Hz.
    + apply IHb; auto. intros k Hk. apply LK. now right.
    + intros [k c] Hc. apply (IH k c Hc); [|apply (N3 (k, c) Hc)]. intros o Ho. apply LK. right.
      cbn [outputs]. rewrite <- (O k c Hc). exact Ho.
Qed.

Lemma named_interd : forall c S, wf c -> named c S -> named c (interd (outputs c) S).
Proof.
  intros c S W. apply named_ext; auto. intros k Hk. rewrite lookup_interd.
  destruct (memb k (outputs c)) eqn:M; [reflexivity|]. apply memb_false in M. contradiction.
Qed.

Lemma observe_adds : forall c, wf c -> flexible c -> clean c -> forall rid S, NoDup (keys S) ->
  unknown c (Some rid) -> named c S -> always (observe c rid S []) (adds c S).
Proof.
  induction 1 as [d D|cs Wc IH ND|div cs r2i r2c D F SU NE Wc IH O|div b cs r2i r2c D HS Wb IHb NI ND Wc IH O];
    intros FX CL rid S NS U NM; cbn [flexible clean unknown named] in *.
  - cbn [observe always]. destruct (dist_observe d rid S []) as [d' r] eqn:E. intros H P. cbn in H. subst r.
    destruct (leaf_accepted d rid S d' D E) as (x & -> & _). cbn [dens] in P |- *. rewrite lookup_cons_eq in P |- *.
    cbn. eapply prim_step; eauto.
  - rewrite each_In in FX, CL, U, NM. cbn [observe]. apply always_bind.
    assert (H : always (prod_observe (map (fun c' => (c', observe c')) cs) rid S []) (fun r =>
      snd r = Ok tt -> (forall c, In c cs -> 0 < dens c S)%R ->
      rsum (map total_score (fst r)) = (rsum (map total_score cs) + rsum (map (fun c => ln (dens c S)) cs))%R)).
    { clear ND. induction cs as [|c cs IHcs]; cbn [map prod_observe].
      { intros _ _. unfold rsum. cbn. lra. }
      assert (IH' : always (prod_observe (map (fun c' => (c', observe c')) cs) rid S []) (fun r =>
        snd r = Ok tt -> (forall c, In c cs -> 0 < dens c S)%R ->
        rsum (map total_score (fst r)) = (rsum (map total_score cs) + rsum (map (fun c => ln (dens c S)) cs))%R)).
      { apply IHcs; intros; [apply Wc|apply IH|apply FX|apply CL|apply U|apply NM]; auto; now right. }
      clear IHcs. assert (Wc0 : wf c) by (apply Wc; now left).
      destruct (interd (outputs c) S) as [|p l] eqn:E.
      + apply always_bind. eapply always_imp; [|exact IH']. intros [cs' r] H Er P. cbn [fst snd always map] in *.
        change (rsum (?x :: ?l)) with (x + rsum l)%R. rewrite (H Er) by (intros; apply P; now right).
        rewrite (dens_none c Wc0 S) by (apply interd_nil_lookup; exact E). rewrite ln_1. lra.
      + apply always_bind. rewrite <- E. rewrite (wf_inputs c Wc0).
        replace (merged (interd [] S) (interd [] [])) with (@nil (Z * val)).
        2:{ assert (X : interd [] S = []) by (apply interd_nil_lookup; intros k []). rewrite X. reflexivity. }
        assert (H0 : always (observe c rid (interd (outputs c) S) []) (adds c S)).
        { eapply always_imp; [intros q; apply adds_interd; auto|]. apply (IH c (or_introl eq_refl)).
          - apply FX. now left.
          - apply CL. now left.
          - apply NoDup_keys_interd. exact NS.
          - apply U. now left.
          - apply named_interd; auto. destruct (NM c (or_introl eq_refl)) as [N|N]; [|exact N].
            assert (X : interd (outputs c) S = []) by (apply interd_nil_lookup; exact N). congruence. }
        revert H0. apply always_imp. intros [c' r] H0. cbn [snd fst]. destruct r as [[]|e].
        * apply always_bind. eapply always_imp; [|exact IH']. intros [cs' r] H Er P. cbn [fst snd always map] in *.
          change (rsum (?x :: ?l)) with (x + rsum l)%R. rewrite (H Er) by (intros; apply P; now right).
          assert (Q := H0 eq_refl (P c (or_introl eq_refl))). cbn [fst] in Q. rewrite Q. lra.
        * cbn. discriminate. }
    revert H. apply always_imp. intros [cs' r] H Er P. cbn [fst snd total_score dens] in *.
    rewrite H; auto.
    + f_equal. assert (PP : forall c, In c cs -> (0 < dens c S)%R).
      { intros c Hc. apply (CompDens.rprod_pos (map (fun c' => dens c' S) cs)); auto.
        - intros p Hp. apply in_map_iff in Hp. destruct Hp as (x & <- & Hx). apply dens_nonneg. auto.
        - apply in_map_iff. eauto. }
      clear - PP. induction cs as [|c cs IH]; [unfold rsum, rprod; cbn; rewrite ln_1; reflexivity|]. cbn [map].
      change (rsum (?x :: ?l)) with (x + rsum l)%R. change (rprod (?x :: ?l)) with (x * rprod l)%R.
      rewrite IH by (intros; apply PP; now right). rewrite ln_mult; [reflexivity|apply PP; now left|].
      apply Lib.rprod_pos. intros x Hx. apply in_map_iff in Hx. destruct Hx as (y & <- & Hy). apply PP. now right.
    + intros c Hc. apply (CompDens.rprod_pos (map (fun c' => dens c' S) cs)); auto.
      * intros p Hp. apply in_map_iff in Hp. destruct Hp as (x & <- & Hx). apply dens_nonneg. auto.
      * apply in_map_iff. eauto.
  - contradiction.
  - destruct FX as [Fb FX]. destruct CL as (Vb & Cb & CL). destruct U as (U1 & U2 & Ub & U3).
    destruct NM as (N1 & Nb & N3). rewrite each_In in FX, CL, U3, N3.
    set (m := CMix true div (CFlexArr (dist_o div) b cs r2i) r2c).
    assert (W : wf m) by (constructor; auto).
    unfold m at 1. cbn [observe]. unfold mix_observe. cbv zeta.
    replace (lookup rid r2c) with (@None val) by (symmetry; apply lookup_None; exact U2).
    destruct N1 as (z & Hz). rewrite Hz. cbn [sbind].
    destruct (dist_observe div rid [(dist_o div, vz z)] []) as [div' r] eqn:Ed.
    destruct r as [[]|e]; [|cbn; discriminate].
    assert (Fz := prim_step div rid (vz z) div' D Ed).
    assert (Od : dist_o div' = dist_o div).
    { assert (Fr := observe_frame div rid [(dist_o div, vz z)] []). rewrite Ed in Fr. apply Fr. }
    unfold mix_observe_x. rewrite Od. cbn [outputs inputs tl observe]. unfold flexarr_observe.
    assert (Ib : inputs b = []) by (apply wf_inputs; exact Wb). rewrite Ib.
    replace (merged (interd [] []) [(dist_o div, vz z)]) with [(dist_o div, vz z)] by reflexivity.
    rewrite lookup_cons_eq. replace (ddel (dist_o div) [(dist_o div, vz z)]) with (@nil (Z * val)).
    2:{ cbn [ddel]. destruct (eq_dec (dist_o div) (dist_o div)); [reflexivity|congruence]. }
    set (c := match lookup (vz z) cs with Some c => c | None => b end).
    replace (match lookup (vz z) (map (fun p => let '(k, c') := p in (k, observe c')) cs) with Some f => f | None => observe b end)
      with (observe c).
    2:{ rewrite lookup_dict_map. unfold c. destruct (lookup (vz z) cs); reflexivity. }
    assert (CC : component (CFlexArr (dist_o div) b cs r2i) z = Some c) by reflexivity.
    assert (Oc : outputs c = outputs b /\ wf c).
    { unfold c. destruct (lookup (vz z) cs) as [c0|] eqn:E; [|auto]. apply lookup_In in E. split; [apply (O _ _ E)|apply (Wc _ _ E)]. }
    destruct Oc as [Oc Wc0].
    assert (A : always (observe c rid (interd (outputs b) S) []) (adds c S)).
    { rewrite <- Oc. eapply always_imp; [intros q; apply adds_interd; auto|].
      assert (X : forall H : NoDup (keys (interd (outputs c) S)), flexible c -> clean c -> unknown c (Some rid) -> named c S ->
        always (observe c rid (interd (outputs c) S) []) (adds c (interd (outputs c) S))).
      { intros H F1 C1 U1' N1'. unfold c in *. destruct (lookup (vz z) cs) as [c0|] eqn:E.
        - apply lookup_In in E. apply (IH _ _ E); auto. apply named_interd; auto.
        - apply IHb; auto. apply named_interd; auto. }
      unfold c in *. destruct (lookup (vz z) cs) as [c0|] eqn:E.
      - apply lookup_In in E. apply X; [apply NoDup_keys_interd; exact NS|apply (FX _ E)|apply (CL _ E)|apply (U3 _ E)|apply (N3 _ E)].
      - apply X; auto. apply NoDup_keys_interd; exact NS. }
    apply always_bind. apply always_bind. revert A. apply always_imp. intros [c' r] A.
    destruct r as [[]|e]; cbn [snd fst always]; [|discriminate].
    intros _ P. unfold m in P |- *. rewrite (dens_mix_some _ _ _ _ W z S Hz) in P |- *. rewrite (q_comp _ _ _ _ W z c S CC) in P |- *.
    assert (PP : (0 < cell_density div (vz z) /\ 0 < dens c S)%R).
    { assert (P1 := cell_nonneg div (vz z) D). assert (P2 := dens_nonneg c Wc0 S).
      destruct P1 as [P1|P1]; [destruct P2 as [P2|P2]; [auto|]|]; exfalso; [rewrite <- P2 in P|rewrite <- P1 in P]; lra. }
    destruct PP as [P1 P2]. rewrite ln_mult by assumption. cbn [fst total_score]. rewrite rsum_dset.
    assert (Q := A eq_refl P2). cbn [fst] in Q. rewrite Q. rewrite (Fz P1). cbn [fst total_score].
    assert (T : total_score c = match lookup (vz z) cs with Some w => total_score w | None => 0%R end).
    { unfold c. destruct (lookup (vz z) cs) eqn:E; [reflexivity|]. apply total_vacant; auto. }
    lra.
Qed.

(** ** Observing and removing keep the shape *)

Definition tidy (c : cgpm) : Prop := flexible c /\ clean c.

Lemma tidy_prod : forall cs, tidy (CProd cs) <-> forall c, In c cs -> tidy c.
Proof.
  intros cs. unfold tidy. cbn [flexible clean]. rewrite !each_In. split; [intros [A B] c H; auto|].
  intros H; split; intros c Hc; apply (H c Hc).
Qed.

Lemma tidy_flex : forall ix b cs r2i, tidy (CFlexArr ix b cs r2i) <-> vacant b /\ tidy b /\ forall k c, In (k, c) cs -> tidy c.
Proof.
  intros. unfold tidy. cbn [flexible clean]. rewrite !each_In. split.
  - intros [[A A'] (B & B' & B'')]. repeat split; auto; [apply (A' (k, c) H)|apply (B'' (k, c) H)].
  - intros (A & [B B'] & C). repeat split; auto; intros [k c] H; apply (C k c H).
Qed.

Lemma flexarr_observe_tidy : forall ix b cs r2i, tidy (CFlexArr ix b cs r2i) ->
  (tidy b -> forall rid obs ins, always (observe b rid obs ins) (fun r => tidy (fst r))) ->
  (forall k c, In (k, c) cs -> tidy c -> forall rid obs ins, always (observe c rid obs ins) (fun r => tidy (fst r))) ->
  forall rid obs ins, always (observe (CFlexArr ix b cs r2i) rid obs ins) (fun r => tidy (fst r)).
Proof.
  intros ix b cs r2i T HB HC rid obs ins. cbn [observe]. unfold flexarr_observe.
  destruct (lookup ix ins) as [i|]; [|exact T]. assert (T' := T). apply tidy_flex in T'. destruct T' as (VB & TB & TC).
  apply always_bind.
  assert (A : always ((match lookup i (map (fun p => let '(k, c') := p in (k, observe c')) cs) with
      Some f => f | None => observe b end) rid obs (ddel ix ins)) (fun r => tidy (fst r))).
  { rewrite lookup_dict_map. destruct (lookup i cs) as [c|] eqn:E; cbn; [|apply HB; auto].
    apply lookup_In in E. apply (HC _ _ E). apply (TC _ _ E). }
  revert A. apply always_imp. intros [c' r] A. cbn [fst snd] in *.
  assert (X : forall r2, tidy (CFlexArr ix b (dset i c' cs) r2)).
  { intros r2. apply tidy_flex. split; [exact VB|split; [exact TB|]]. intros k c H. apply dset_In in H.
    destruct H as [[_ ->]|H]; [exact A|apply (TC _ _ H)]. }
  destruct r; cbn; apply X.
Qed.

Lemma observe_tidy : forall c, tidy c -> forall rid obs ins, always (observe c rid obs ins) (fun r => tidy (fst r)).
Proof.
  induction c as [d|cs IH|ix cs r2i IH|ix b cs r2i IHb IH|flex div arr r2c IH] using cgpm_ind_In; intros T rid obs ins.
  - cbn. destruct (dist_observe d rid obs ins). split; exact I.
  - cbn [observe]. apply always_bind. rewrite tidy_prod in T.
    assert (H : always (prod_observe (map (fun c' => (c', observe c')) cs) rid obs ins) (fun r => forall c, In c (fst r) -> tidy c)).
    { induction cs as [|c cs IHcs]; cbn [map prod_observe]; [intros c []|].
      assert (IH' : always (prod_observe (map (fun c' => (c', observe c')) cs) rid obs ins) (fun r => forall c, In c (fst r) -> tidy c)).
      { apply IHcs; intros; [apply IH|apply T]; auto; now right. }
      assert (TC : tidy c) by (apply T; now left).
      destruct (interd (outputs c) obs) as [|p l] eqn:E.
      - apply always_bind. revert IH'. apply always_imp. intros [cs2 r2] H. cbn [fst snd always] in *. intros c0 [<-|H0]; auto.
      - apply always_bind. eapply always_imp; [|apply (IH c (or_introl eq_refl) TC)]. intros [c' r] TC'. cbn [fst snd] in *.
        destruct r as [[]|e].
        + apply always_bind. revert IH'. apply always_imp. intros [cs2 r2] H. cbn [fst snd always] in *. intros c0 [<-|H0]; auto.
        + cbn. intros c0 [<-|H0]; auto. rewrite map_map, map_id in H0. apply T. now right. }
    revert H. apply always_imp. intros [cs' r] H. cbn in *. apply tidy_prod. exact H.
  - destruct T as [[] _].
  - apply flexarr_observe_tidy; assumption.
  - assert (TA : tidy arr) by exact T. specialize (IH TA).
    assert (Y : forall div' r2c' rid' obs' I' z, always (mix_observe_x flex div' arr (observe arr) r2c' rid' obs' I' z) (fun r => tidy (fst r))).
    { intros. unfold mix_observe_x. apply always_bind. eapply always_imp; [|apply IH]. intros [a r] H. exact H. }
    cbn [observe]. unfold mix_observe. cbv zeta. destruct (lookup rid r2c); [apply Y|].
    apply always_bind. apply always_True. intros [z|e]; [|exact T].
    destruct (dist_observe div rid [(dist_o div, z)] []) as [div' [u|e]]; [apply Y|exact T].
Qed.

Lemma unobserve_tidy : forall c rid, tidy c -> tidy (fst (unobserve c rid)).
Proof.
  induction c as [d|cs IH|ix cs r2i IH|ix b cs r2i IHb IH|flex div arr r2c IH] using cgpm_ind_In; intros rid T.
  - cbn. destruct (dist_unobserve d rid). split; exact I.
  - rewrite tidy_prod in T. cbn [unobserve]. unfold prod_unobserve.
    assert (X : tidy (CProd (map fst (map unobserve_one (map (fun c => unobserve c rid) cs))))).
    { apply tidy_prod. intros c H. rewrite !map_map in H. apply in_map_iff in H. destruct H as (c0 & <- & H).
      unfold unobserve_one. specialize (IH c0 H rid (T c0 H)). destruct (unobserve c0 rid) as [c' [p|e]]; exact IH. }
    destruct (map (fun c' => unobserve c' rid) cs) as [|p l] eqn:E; [apply tidy_prod; intros c []|].
    exact X.
  - destruct T as [[] _].
  - cbn [unobserve]. unfold flexarr_unobserve. destruct (lookup rid r2i) as [i|]; [|exact T].
    apply tidy_flex in T. destruct T as (VB & TB & TC).
    assert (A : tidy (fst ((match lookup i (map (fun p => let '(k, c') := p in (k, unobserve c')) cs) with
      Some f => f | None => unobserve b end) rid))).
    { rewrite lookup_dict_map. destruct (lookup i cs) as [c|] eqn:E; cbn; [|apply IHb; auto].
      apply lookup_In in E. apply (IH _ _ E). apply (TC _ _ E). }
    destruct ((match lookup i (map (fun p => let '(k, c') := p in (k, unobserve c')) cs) with
      Some f => f | None => unobserve b end) rid) as [c' r]. cbn [fst] in *.
    apply tidy_flex. split; [exact VB|split; [exact TB|]]. intros k c H. apply dset_In in H.
    destruct H as [[_ ->]|H]; [exact A|apply (TC _ _ H)].
  - assert (TA : tidy arr) by exact T. specialize (IH rid TA). cbn [unobserve]. unfold mix_unobserve.
    destruct (dist_unobserve div rid) as [div' [[oz iz]|e]]; [|exact T].
    destruct (unobserve arr rid) as [arr' [[ox ix]|e]]; cbn [fst] in IH; [|exact IH].
    destruct (dmem rid r2c); exact IH.
Qed.

(** ** Scores and densities of reachable models *)

Lemma logpdf_dens : forall c rid T l, wf c -> unknown c rid -> labelled c T -> NoDup (keys T) -> T <> [] ->
  (forall k, In k (keys T) -> In k (outputs c)) -> logpdf c rid T [] [] = Ok (Fin l) ->
  (0 < dens c T)%R /\ l = ln (dens c T).
Proof.
  intros c rid T l RE U LB ND NT K L. assert (W := RE).
  assert (D1 : dens c [] = 1%R) by (apply dens_none; auto).
  assert (M : logpdf c rid T [] [] = Ok (xlog (dens c (T ++ []) / dens c []))).
  { apply model_density; auto.
    - rewrite app_nil_r. exact LB.
    - unfold disjoint_rows. rewrite app_nil_r. exact ND.
    - rewrite app_nil_r. exact K.
    - apply solid_nil. exact W.
    - rewrite D1. lra. }
  rewrite M, app_nil_r, D1 in L. unfold Rdiv in L. rewrite Rinv_1, Rmult_1_r in L. unfold xlog in L.
  destruct (Rlt_dec 0 (dens c T)) as [P|P]; [|discriminate]. split; [exact P|congruence].
Qed.

Lemma observe_score : forall c rid obs l c', wf c -> tidy c -> unknown c (Some rid) ->
  named c obs -> labelled c obs -> NoDup (keys obs) -> obs <> [] ->
  (forall k, In k (keys obs) -> In k (outputs c)) -> logpdf c (Some rid) obs [] [] = Ok (Fin l) ->
  possible (observe c rid obs []) (fun r => r = (c', Ok tt)) ->
  total_score c' = (total_score c + l)%R.
Proof.
  intros c rid obs l c' RE [F C] U NM LB ND NE K L P. assert (W := RE).
  destruct (logpdf_dens c (Some rid) obs l RE U LB ND NE K L) as [P0 ->].
  destruct (always_possible _ _ _ (observe_adds c W F C rid obs ND U NM) P) as (r & A & ->).
  apply A; auto.
Qed.

(** ** Removing an unknown row *)

Lemma unobserve_unknown : forall c rid, wf c -> unknown c (Some rid) ->
  unobserve c rid = (c, match c with CProd (_ :: _) => Ok ([], []) | _ => Err ValueError end).
Proof.
  intros c rid W. induction W as [d D|cs Wc IH ND|div cs r2i r2c D F SU NE Wc IH O|div b cs r2i r2c D HS Wb IHb NI ND Wc IH O];
    intros U; cbn [unknown] in U.
  - cbn. rewrite leaf_unobserve_unknown by exact U. reflexivity.
  - rewrite each_In in U. cbn [unobserve].
    assert (X : map unobserve_one (map (fun c' => unobserve c' rid) cs) = map (fun c => (c, ([], []))) cs).
    { rewrite map_map. apply map_ext_in. intros c Hc. unfold unobserve_one. rewrite (IH c Hc) by auto.
      cbn [snd fst]. destruct c as [| [|] | | |]; reflexivity. }
    assert (Y : forall (l : list cgpm), mergedl (map (fun _ => @nil (Z * val)) l) = []).
    { induction l as [|a l IHl]; [reflexivity|]. clear - IHl. cbn. unfold mergedl in *. cbn. exact IHl. }
    unfold prod_unobserve. destruct cs as [|c0 cs]; [reflexivity|].
    remember (map (fun c' => unobserve c' rid) (c0 :: cs)) as L eqn:EL. destruct L as [|q L]; [discriminate EL|].
    cbv zeta. rewrite X, !map_map. cbn [fst snd].
    assert (X2 : map (fun x : cgpm => x) (c0 :: cs) = c0 :: cs) by apply map_id. rewrite X2.
    rewrite Y. reflexivity.
  - cbn [unobserve]. unfold mix_unobserve. rewrite leaf_unobserve_unknown by apply U. reflexivity.
  - cbn [unobserve]. unfold mix_unobserve. rewrite leaf_unobserve_unknown by apply U. reflexivity.
Qed.

(** ** Observations on a Product of columns *)

Lemma interd_one : forall (obs : row) o x, NoDup (keys obs) -> lookup o obs = Some x -> interd [o] obs = [(o, x)].
Proof.
  intros obs o x. unfold interd. induction obs as [|[k v] obs IH]; cbn [lookup keys map fst]; intros ND L; [discriminate|].
  inversion ND as [|? ? NI ND']; subst. cbn [filter fst]. destruct (eq_dec o k) as [->|NE].
  - injection L as ->. replace (memb k [k]) with true by (symmetry; apply memb_In; now left). f_equal.
    clear - NI. induction obs as [|[k' v'] obs IH]; [reflexivity|]. cbn [filter fst]. cbn in NI.
    replace (memb k' [k]) with false; [apply IH; tauto|]. symmetry. apply memb_false. cbn. intuition.
  - replace (memb k [o]) with false; [auto|]. symmetry. apply memb_false. cbn. intuition.
Qed.

Lemma columns_observe : forall ds rid obs, (forall d, In d ds -> dinv d) -> NoDup (keys obs) ->
  exists ds' res, observe (CProd (map CDist ds)) rid obs [] = Ret (CProd (map CDist ds'), res) /\
    (res = Ok tt /\ Forall2 (takes rid obs) ds ds' \/
     exists e ds1 ds1' d ds2, res = Err e /\ ds = ds1 ++ d :: ds2 /\ ds' = ds1' ++ d :: ds2 /\
       Forall2 (takes rid obs) ds1 ds1' /\ refuses rid obs d e).
Proof.
  intros ds rid obs D ND. cbn [observe].
  enough (X : exists ds' res, prod_observe (map (fun c' => (c', observe c')) (map CDist ds)) rid obs [] = Ret (map CDist ds', res) /\
    (res = Ok tt /\ Forall2 (takes rid obs) ds ds' \/
     exists e ds1 ds1' d ds2, res = Err e /\ ds = ds1 ++ d :: ds2 /\ ds' = ds1' ++ d :: ds2 /\
       Forall2 (takes rid obs) ds1 ds1' /\ refuses rid obs d e)).
  { destruct X as (ds' & res & E & H). exists ds', res. rewrite E. auto. }
  induction ds as [|d ds IH]; cbn [map prod_observe].
  { exists [], (Ok tt). auto. }
  destruct IH as (ds' & res & E & H); [intros; apply D; now right|].
  cbn [outputs inputs]. destruct (lookup (dist_o d) obs) as [x|] eqn:L.
  - rewrite (interd_one _ _ _ ND L). cbn [observe sbind].
    replace (merged (interd [] obs) (interd [] [])) with (@nil (Z * val)).
    2:{ assert (X : interd [] obs = []) by (apply interd_nil_lookup; intros k []). rewrite X. reflexivity. }
    destruct (dist_observe d rid [(dist_o d, x)] []) as [d' r] eqn:Ed. cbn [snd fst]. destruct r as [[]|e].
    + rewrite E. cbn [sbind fst snd]. exists (d' :: ds'), res. split; [reflexivity|].
      assert (T : takes rid obs d d') by (unfold takes; rewrite L; exact Ed).
      destruct H as [[-> H]|(e & ds1 & ds1' & d0 & ds2 & -> & -> & -> & F & R)]; [left; auto|right].
      exists e, (d :: ds1), (d' :: ds1'), d0, ds2. auto 7.
    + assert (d' = d) as -> by (eapply leaf_rejected; eauto; apply D; now left).
      exists (d :: ds), (Err e). cbn [map]. split.
      { f_equal. f_equal. f_equal. rewrite map_map, map_id. reflexivity. }
      right. exists e, [], [], d, ds. split; [reflexivity|split; [reflexivity|split; [reflexivity|split; [constructor|]]]].
      exists x. auto.
  - assert (X : interd [dist_o d] obs = []).
    { apply interd_nil_lookup. intros k [<-|[]]. exact L. }
    rewrite X. rewrite E. cbn [sbind fst snd]. exists (d :: ds'), res. split; [reflexivity|].
    assert (T : takes rid obs d d) by (unfold takes; rewrite L; reflexivity).
    destruct H as [[-> H]|(e & ds1 & ds1' & d0 & ds2 & -> & -> & -> & F & R)]; [left; auto|right].
    exists e, (d :: ds1), (d :: ds1'), d0, ds2. auto 7.
Qed.

(** If the first child concerned rejects the observation without changing, so does the
    Product. *)
Lemma product_first_rejects : forall cs1 c cs2 rid obs e, wf c ->
  (forall c', In c' cs1 -> interd (outputs c') obs = []) -> interd (outputs c) obs <> [] ->
  observe c rid (interd (outputs c) obs) [] = Ret (c, Err e) ->
  observe (CProd (cs1 ++ c :: cs2)) rid obs [] = Ret (CProd (cs1 ++ c :: cs2), Err e).
Proof.
  intros cs1 c cs2 rid obs e W N1 NE E. cbn [observe].
  enough (X : prod_observe (map (fun c' => (c', observe c')) (cs1 ++ c :: cs2)) rid obs [] = Ret (cs1 ++ c :: cs2, Err e)).
  { rewrite X. reflexivity. }
  induction cs1 as [|c1 cs1 IH]; cbn [app map prod_observe].
  - destruct (interd (outputs c) obs) as [|p l] eqn:EI; [congruence|]. rewrite (wf_inputs c W).
    replace (merged (interd [] obs) (interd [] [])) with (@nil (Z * val)).
    2:{ assert (X : interd [] obs = []) by (apply interd_nil_lookup; intros k []). rewrite X. reflexivity. }
    rewrite E. cbn [sbind snd fst]. rewrite map_map, map_id. reflexivity.
  - rewrite (N1 c1 (or_introl eq_refl)). rewrite IH by (intros; apply N1; now right). reflexivity.
Qed.

Lemma divider_rejects : forall flex div arr r2c rid obs z, dinv div ->
  ~ In rid (keys r2c) -> lookup (dist_o div) obs = Some z ->
  In rid (keys (dist_data div)) \/ ~ in_domain (kind_of div) (dist_data div) z ->
  exists e, observe (CMix flex div arr r2c) rid obs [] = Ret (CMix flex div arr r2c, Err e).
Proof.
  intros flex div arr r2c rid obs z D NI L B. cbn [observe]. unfold mix_observe. cbv zeta.
  apply lookup_None in NI. rewrite NI, L. cbn [sbind].
  destruct (dist_observe div rid [(dist_o div, z)] []) as [div' r] eqn:E. destruct r as [[]|e].
  - exfalso. destruct (leaf_accepted _ _ _ _ D E) as (x & X & NR & DM & _). injection X as <-. tauto.
  - exists e. rewrite (leaf_rejected _ _ _ _ _ D E). reflexivity.
Qed.
