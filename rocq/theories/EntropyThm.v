(** Estimates of entropy and mutual information. (Proofs.) *)
From Coq Require Import List ZArith QArith Qcanon Reals Bool String Permutation Lia Lra.
From Verif Require Import Base Xr Samp Lgamma Prims Cgpm Lib SpecPrims PrimsInv PrimsDens PrimsThm2
  SpecComp CompInv CompDens CompThm SpecSim SimShape SimLaw SimTotal Gibbs Meta MetaThm Ensemble EnsembleThm2 EnsembleThm4 SpecEnsemble Entropy SpecEntropy.
From Verif Require AliasThm.
Import ListNotations.
Local Open Scope Z_scope.

(** ** Samples have positive density *)

Lemma py_index_vz : forall {A} (l : list A) t, 0 <= t < Z.of_nat (List.length l) -> py_index l (vz t) = Ok (Z.to_nat t).
Proof.
  intros A l t H. unfold py_index, vz.
  rewrite is_int_qz, trunc_qz. replace (0 <=? t) with true by (symmetry; apply Z.leb_le; lia).
  replace (t <? Z.of_nat (List.length l)) with true by (symmetry; apply Z.ltb_lt; lia). reflexivity.
Qed.

Lemma rsum_ge : forall l, (forall p, In p l -> (0 <= p)%R) -> forall p, In p l -> (p <= rsum l)%R.
Proof.
  induction l as [|q l IH]; intros H p Hp; [contradiction|]. change (rsum (q :: l)) with (q + rsum l)%R.
  assert (0 <= q)%R by (apply H; now left). destruct Hp as [->|Hp].
  - assert (0 <= rsum l)%R by (apply rsum_nonneg; intros; apply H; now right). lra.
  - assert (p <= rsum l)%R by (apply IH; auto; intros; apply H; now right). lra.
Qed.

Lemma sample_component : forall ix arr t c rid C s, is_array ix arr -> component arr t = Some c ->
  lookup ix s = Some (vz t) -> sample_ok arr rid C s -> sample_ok c rid C s.
Proof.
  intros ix arr t c rid C s A E L. destruct arr as [| |i cs m|i b cs m|]; try contradiction; cbn in A; subst i; cbn [component] in E.
  - cbn [sample_ok]. rewrite L. destruct (0 <=? t) eqn:T; [|discriminate].
    assert (LT : (Z.to_nat t < List.length cs)%nat) by (apply nth_error_Some; congruence).
    assert (P : py_index cs (vz t) = Ok (Z.to_nat t)).
    { apply py_index_vz. apply Z.leb_le in T. lia. }
    rewrite P. rewrite (nth_error_nth (map (fun c' => sample_ok c' rid C s) cs) (Z.to_nat t) False (x := sample_ok c rid C s)); [auto|].
    rewrite nth_error_map, E. reflexivity.
  - cbn [sample_ok]. rewrite L, lookup_dict_map. injection E as <-. destruct (lookup (vz t) cs); auto.
Qed.

(** The cells of a sample given constraints. *)
Definition extends (C s : row) (l : list Z) : Prop := forall k, In k l -> lookup k s <> None -> lookup k C = None.

Lemma lookup_or : forall k (s C : row), lookup k s = None -> lookup k (s ++ C) = lookup k C.
Proof. intros k s C H. rewrite lookup_app, H. reflexivity. Qed.

Lemma dens_part : forall c, wf c -> forall S, dens c (interd (outputs c) S) = dens c S.
Proof.
  intros c W S. apply dens_ext; auto. intros k Hk. rewrite lookup_interd. apply memb_In in Hk. rewrite Hk. reflexivity.
Qed.

Lemma part_app : forall l (s C : row) k, In k l -> lookup k (s ++ interd l C) = lookup k (s ++ C).
Proof. intros l s C k H. rewrite !lookup_app, lookup_interd. apply memb_In in H. rewrite H. reflexivity. Qed.

Lemma part_lookup : forall l (S : row) k, In k l -> lookup k (interd l S) = lookup k S.
Proof. intros l S k H. rewrite lookup_interd. apply memb_In in H. rewrite H. reflexivity. Qed.

Lemma extends_part : forall l C s, extends C s l -> extends (interd l C) s l.
Proof. intros l C s H k Hk Hs. rewrite part_lookup by exact Hk. auto. Qed.

Lemma NoDup_part : forall l (C : row), NoDup (keys C) -> NoDup (keys (interd l C)).
Proof. intros l C. apply NoDup_keys_interd. Qed.

Lemma sample_pos : forall c, wf c -> forall C s, labelled c C -> solid c C -> (0 < dens c C)%R -> NoDup (keys C) ->
  extends C s (outputs c) -> sample_ok c None C s -> (0 < dens c (s ++ C))%R.
Proof.
  assert (STEP : forall c, wf c -> (forall C s, labelled c C -> solid c C -> (0 < dens c C)%R -> NoDup (keys C) ->
      extends C s (outputs c) -> sample_ok c None C s -> (0 < dens c (s ++ C))%R) ->
    forall C s, labelled c C -> solid c C -> (0 < dens c C)%R -> NoDup (keys C) -> extends C s (outputs c) ->
    cells_of (outputs c) s = [] \/ sample_ok c None (cells_of (outputs c) C) s -> (0 < dens c (s ++ C))%R).
  { intros c W IH C s LB SD P ND EX H. rewrite !cells_of_interd in H. destruct H as [H|H].
    - rewrite <- (dens_ext c W C (s ++ C)); [exact P|]. intros k Hk. symmetry. apply lookup_or.
      apply (proj1 (interd_nil_lookup _ _) H k Hk).
    - rewrite <- (dens_ext c W (s ++ interd (outputs c) C) (s ++ C)) by (intros; apply part_app; assumption).
      apply IH; auto.
      + revert LB. apply labelled_out; auto. intros k Hk. symmetry. apply part_lookup. exact Hk.
      + revert SD. apply solid_ext; auto. intros k Hk. symmetry. apply part_lookup. exact Hk.
      + rewrite dens_part; auto.
      + apply NoDup_part. exact ND.
      + apply extends_part. exact EX. }
  assert (MIX : forall flex div arr r2c, wf (CMix flex div arr r2c) ->
    (forall c, In c (components arr) -> forall C s, labelled c C -> solid c C -> (0 < dens c C)%R -> NoDup (keys C) ->
      extends C s (outputs c) -> sample_ok c None C s -> (0 < dens c (s ++ C))%R) ->
    forall C s, labelled (CMix flex div arr r2c) C -> solid (CMix flex div arr r2c) C ->
    (0 < dens (CMix flex div arr r2c) C)%R -> NoDup (keys C) -> extends C s (outputs (CMix flex div arr r2c)) ->
    sample_ok (CMix flex div arr r2c) None C s -> (0 < dens (CMix flex div arr r2c) (s ++ C))%R).
  { intros flex div arr r2c W IH C s LB SD P ND EX (z & Hz & Hx & Hs). cbn [on_record] in Hz.
    destruct Hz as (t & K & -> & SU & Ht & HC).
    destruct (wf_mix _ _ _ _ W) as (D & _ & A & NIx & CO & CE & _).
    destruct (CE t) as [c E]; [right; eauto|]. assert (Ic := comp_In _ _ _ E). destruct (CO c Ic) as [Wc Oc].
    assert (PT : (0 < cell_density div (vz t))%R) by (apply (support_pos div K t D SU); exact Ht).
    assert (LBc : labelled c C) by (apply (labelled_comp arr _ c (proj2 LB) Ic)).
    assert (SDc : solid c C) by (apply (solid_comp arr C c SD Ic)).
    assert (NIc : forall k, In k (outputs c) -> k <> dist_o div) by (intros k Hk ->; rewrite Oc in Hk; contradiction).
    assert (Pc : (0 < dens c C)%R).
    { destruct (lookup (dist_o div) C) as [y|] eqn:LC.
      - subst y. rewrite (dens_mix_some flex div arr r2c W t C LC), (q_comp flex div arr r2c W t c C E) in P.
        destruct (dens_nonneg c Wc C) as [Q|Q]; [exact Q|]. rewrite <- Q, Rmult_0_r in P. lra.
      - destruct HC as [w HC].
        assert (LCk : ~ In (dist_o div) (keys C)) by (apply lookup_None; exact LC).
        rewrite (mixture_density flex div arr r2c None [(dist_o div, vz t)] C) in HC; auto.
        + cbn [app] in HC. unfold xlog in HC. destruct (Rlt_dec _ _) as [Q|Q]; [|discriminate].
          rewrite (dens_mix_some flex div arr r2c W t _ (lookup_cons_eq _ _ _)), (q_comp flex div arr r2c W t c _ E) in Q.
          rewrite (dens_ext c Wc ((dist_o div, vz t) :: C) C) in Q by (intros k Hk; apply lookup_cons_neq; auto).
          destruct (dens_nonneg c Wc C) as [Q'|Q']; [exact Q'|]. rewrite <- Q', Rmult_0_r in Q. unfold Rdiv in Q. lra.
        + apply unknown_none.
        + cbn [app]. apply labelled_add; eauto.
        + unfold disjoint_rows. cbn. constructor; auto. }
    assert (EXc : extends C s (outputs c)).
    { intros k Hk. apply EX. cbn [outputs]. right. rewrite <- Oc. exact Hk. }
    assert (Ps : (0 < dens c (s ++ C))%R).
    { rewrite <- (dens_ext c Wc (((dist_o div, vz t) :: s) ++ C) (s ++ C)).
      2:{ intros k Hk. cbn [app]. apply lookup_cons_neq. auto. }
      apply STEP; auto.
      - intros k Hk Hs'. rewrite lookup_cons_neq in Hs' by auto. auto.
      - rewrite Oc. rewrite !cells_of_interd in *. destruct Hs as [Hs|Hs].
        + left. apply interd_nil_lookup. intros k Hk. rewrite lookup_cons_neq by (intros ->; contradiction).
          apply (proj1 (interd_nil_lookup _ _) Hs k Hk).
        + right. eapply sample_component; eauto. apply lookup_cons_eq. }
    destruct (lookup (dist_o div) (s ++ C)) as [x|] eqn:L.
    - assert (x = vz t).
      { rewrite lookup_app in L. destruct (lookup (dist_o div) s) as [y|] eqn:Ls.
        - injection L as <-. apply Hx. exact eq_refl.
        - rewrite L in HC. auto. }
      subst x. rewrite (dens_mix_some flex div arr r2c W t _ L), (q_comp flex div arr r2c W t c _ E).
      apply Rmult_lt_0_compat; assumption.
    - rewrite (dens_mix_none flex div arr r2c K _ SU L).
      apply Rlt_le_trans with (cell_density div (vz t) * q_of div arr t (s ++ C))%R.
      + rewrite (q_comp flex div arr r2c W t c _ E). apply Rmult_lt_0_compat; assumption.
      + apply (rsum_ge (map (fun z => (cell_density div (vz z) * q_of div arr z (s ++ C))%R) K)).
        * intros p Hp. apply in_map_iff in Hp. destruct Hp as (z' & <- & Hz'). apply Rmult_le_pos; [apply cell_nonneg; exact D|].
          destruct (CE z') as [c' E']; [right; eauto|]. rewrite (q_comp flex div arr r2c W z' c' _ E').
          apply dens_nonneg. apply (CO c'). eapply comp_In; eauto.
        * apply in_map_iff. exists t. auto. }
  induction 1 as [d D|cs Wc IH ND|div cs r2i r2c D F SU NE Wc IH O|div b cs r2i r2c D HS Wb IHb NI ND Wc IH O].
  - intros C s _ _ P _ _ H. cbn [sample_ok] in H. cbn [dens] in *. rewrite lookup_app.
    destruct (lookup (dist_o d) s) as [x|] eqn:L; [|exact P]. destruct (H x eq_refl) as (NN & IN & _).
    destruct x as [|q]; [congruence|]. apply density_pos; auto.
  - intros C s LB SD P NC EX H. cbn [sample_ok labelled solid] in *. rewrite each_In in *. cbn [dens] in *.
    apply rprod_pos_all. intros p Hp. apply in_map_iff in Hp. destruct Hp as (c & <- & Hc). apply STEP; auto.
    + revert P. intros P. apply (rprod_pos _) with (p := dens c C) in P; auto.
      * intros p Hp. apply in_map_iff in Hp. destruct Hp as (c' & <- & Hc'). apply dens_nonneg. auto.
      * apply in_map_iff. eauto.
    + intros k Hk. apply EX. cbn [outputs]. apply in_flat_map. eauto.
  - apply MIX; auto. constructor; auto.
  - apply MIX; auto.
    + constructor; auto.
    + intros c [<-|Hc]; [exact IHb|]. unfold values in Hc. apply in_map_iff in Hc.
      destruct Hc as ([k c'] & <- & Hk). cbn. eauto.
Qed.

(** ** Samples carry proper labels *)

Lemma unlabelled : forall c, wf c -> forall s, (forall k, In k (labels c) -> lookup k s = None) ->
  (forall k, In k (outputs c) -> lookup k s <> Some VNan) -> labelled c s.
Proof.
  assert (MIX : forall flex div arr r2c, wf (CMix flex div arr r2c) ->
    (forall c, In c (components arr) -> forall s, (forall k, In k (labels c) -> lookup k s = None) ->
      (forall k, In k (outputs c) -> lookup k s <> Some VNan) -> labelled c s) ->
    forall s, (forall k, In k (labels (CMix flex div arr r2c)) -> lookup k s = None) ->
    (forall k, In k (outputs (CMix flex div arr r2c)) -> lookup k s <> Some VNan) -> labelled (CMix flex div arr r2c) s).
  { intros flex div arr r2c W IH s H1 H2. destruct (wf_mix _ _ _ _ W) as (D & _ & A & NIx & CO & CE & _).
    split.
    - intros x Hx. rewrite H1 in Hx; [discriminate|]. now left.
    - eapply labelled_arr; eauto. intros c Hc. apply IH; auto.
      + intros k Hk. apply H1. cbn [labels]. right. destruct arr as [| |i cs m|i b cs m|]; try contradiction; cbn [labels components] in *.
        * apply in_flat_map. eauto.
        * apply in_or_app. destruct Hc as [<-|Hc]; [auto|right]. unfold values in Hc. apply in_map_iff in Hc.
          destruct Hc as ([k' c'] & <- & Hk'). apply in_flat_map. exists (k', c'). auto.
      + intros k Hk. apply H2. right. destruct (CO c Hc) as [_ Oc]. rewrite <- Oc. exact Hk. }
  induction 1 as [d D|cs Wc IH ND|div cs r2i r2c D F SU NE Wc IH O|div b cs r2i r2c D HS Wb IHb NI ND Wc IH O].
  - intros s _ H. destruct d; cbn [labelled]; auto. apply H. now left.
  - intros s H1 H2. cbn [labelled]. apply each_In. intros c Hc. apply IH; auto.
    + intros k Hk. apply H1. cbn [labels]. apply in_flat_map. eauto.
    + intros k Hk. apply H2. cbn [outputs]. apply in_flat_map. eauto.
  - apply MIX; auto. constructor; auto.
  - apply MIX; auto.
    + constructor; auto.
    + intros c [<-|Hc]; [exact IHb|]. unfold values in Hc. apply in_map_iff in Hc.
      destruct Hc as ([k c'] & <- & Hk). cbn. eauto.
Qed.

Lemma sample_present : forall c, wf c -> forall C s, sample_ok c None C s ->
  forall k, In k (outputs c) -> lookup k s <> Some VNan.
Proof.
  assert (STEP : forall c C s, (forall C s, sample_ok c None C s -> forall k, In k (outputs c) -> lookup k s <> Some VNan) ->
    cells_of (outputs c) s = [] \/ sample_ok c None C s -> forall k, In k (outputs c) -> lookup k s <> Some VNan).
  { intros c C s IH [H|H] k Hk; [|eapply IH; eauto]. rewrite cells_of_interd in H.
    rewrite (proj1 (interd_nil_lookup _ _) H k Hk). discriminate. }
  assert (MIX : forall flex div arr r2c, wf (CMix flex div arr r2c) ->
    (forall c, In c (components arr) -> forall C s, sample_ok c None C s -> forall k, In k (outputs c) -> lookup k s <> Some VNan) ->
    forall C s, sample_ok (CMix flex div arr r2c) None C s ->
    forall k, In k (outputs (CMix flex div arr r2c)) -> lookup k s <> Some VNan).
  { intros flex div arr r2c W IH C s (z & Hz & Hx & Hs) k Hk. cbn [on_record] in Hz.
    destruct Hz as (t & K & -> & SU & Ht & HC).
    destruct (wf_mix _ _ _ _ W) as (D & _ & A & NIx & CO & CE & _).
    destruct (CE t) as [c E]; [right; eauto|]. assert (Ic := comp_In _ _ _ E). destruct (CO c Ic) as [Wc Oc].
    cbn [outputs] in Hk. destruct Hk as [<-|Hk].
    - intros L. apply Hx in L. discriminate.
    - assert (NE : k <> dist_o div) by (intros ->; contradiction).
      assert (EQ : lookup k ((dist_o div, vz t) :: s) = lookup k s) by (apply lookup_cons_neq; exact NE). rewrite <- EQ.
      apply (STEP c (cells_of (outputs arr) C)); [apply IH; exact Ic| |rewrite Oc; exact Hk].
      rewrite Oc. destruct Hs as [Hs|Hs].
      + left. rewrite cells_of_interd in *. apply interd_nil_lookup. intros k' Hk'.
        rewrite lookup_cons_neq by (intros ->; contradiction). apply (proj1 (interd_nil_lookup _ _) Hs k' Hk').
      + right. eapply sample_component; eauto. apply lookup_cons_eq. }
  induction 1 as [d D|cs Wc IH ND|div cs r2i r2c D F SU NE Wc IH O|div b cs r2i r2c D HS Wb IHb NI ND Wc IH O].
  - intros C s H k [<-|[]] L. destruct (H VNan L) as [NN _]. congruence.
  - intros C s H k Hk. cbn [sample_ok] in H. rewrite each_In in H. cbn [outputs] in Hk. apply in_flat_map in Hk.
    destruct Hk as (c & Hc & Hk). eapply STEP; eauto.
  - apply MIX; auto. constructor; auto.
  - apply MIX; auto.
    + constructor; auto.
    + intros c [<-|Hc]; [exact IHb|]. unfold values in Hc. apply in_map_iff in Hc.
      destruct Hc as ([k c'] & <- & Hk). cbn. eauto.
Qed.

Lemma sample_labelled : forall c, wf c -> forall C s, (forall k, In k (nested c) -> lookup k s = None) ->
  sample_ok c None C s -> labelled c s.
Proof.
  assert (MIX : forall flex div arr r2c, wf (CMix flex div arr r2c) ->
    forall C s, (forall k, In k (labels arr) -> lookup k s = None) ->
    sample_ok (CMix flex div arr r2c) None C s -> labelled (CMix flex div arr r2c) s).
  { intros flex div arr r2c W C s H1 H. assert (NN := sample_present _ W _ _ H). destruct H as (z & Hz & Hx & Hs). cbn [on_record] in Hz.
    destruct Hz as (t & K & -> & SU & Ht & HC).
    destruct (wf_mix _ _ _ _ W) as (D & _ & A & NIx & CO & CE & _). split.
    - intros x L. exists t. split; [auto|]. right. eauto.
    - eapply labelled_arr; eauto. intros c Hc. destruct (CO c Hc) as [Wc Oc]. apply unlabelled; auto.
      + intros k Hk. apply H1. destruct arr as [| |i cs m|i b cs m|]; try contradiction; cbn [labels components] in *.
        * apply in_flat_map. eauto.
        * apply in_or_app. destruct Hc as [<-|Hc]; [auto|right]. unfold values in Hc. apply in_map_iff in Hc.
          destruct Hc as ([k' c'] & <- & Hk'). apply in_flat_map. exists (k', c'). auto.
      + intros k Hk. apply NN. right. rewrite <- Oc. exact Hk. }
  induction 1 as [d D|cs Wc IH ND|div cs r2i r2c D F SU NE Wc IH O|div b cs r2i r2c D HS Wb IHb NI ND Wc IH O].
  - intros C s _ H. destruct d; cbn [labelled]; auto. intros L. destruct (H VNan L) as [NN _]. congruence.
  - intros C s H1 H. cbn [sample_ok labelled] in *. rewrite each_In in *. intros c Hc.
    destruct (H c Hc) as [E|E].
    + rewrite cells_of_interd in E. apply (labelled_out c (Wc c Hc) []); [|apply labelled_nil].
      intros k Hk. rewrite (proj1 (interd_nil_lookup _ _) E k Hk). reflexivity.
    + eapply IH; eauto. intros k Hk. apply H1. cbn [nested]. apply in_flat_map. eauto.
  - intros C s H1. apply MIX; auto. constructor; auto.
  - intros C s H1. apply MIX; auto. constructor; auto.
Qed.

(** ** Estimates *)

Lemma mean_zeros : forall n, numpy_mean (repeat (Fin 0) (S n)) = Fin 0.
Proof.
  intros n. change (xscale (/ INR (List.length (repeat (Fin 0) (S n)))) (xsum (repeat (Fin 0) (S n))) = Fin 0).
  assert (E : forall k, xsum (repeat (Fin 0) k) = Fin 0).
  { induction k; [reflexivity|]. change (xadd (Fin 0) (xsum (repeat (Fin 0) k)) = Fin 0). rewrite IHk. cbn. f_equal. ring. }
  rewrite E. cbn [xscale]. f_equal. ring.
Qed.

Lemma estimate_zeros : forall n, get_estimate (repeat (Fin 0) (S n)) = mkEstimate (Fin 0) (Fin 0).
Proof.
  intros n. unfold get_estimate, numpy_var. rewrite mean_zeros.
  assert (E : map (fun x => xsquare (xsub x (Fin 0))) (repeat (Fin 0) (S n)) = repeat (Fin 0) (S n)).
  { assert (Z : xsquare (xsub (Fin 0) (Fin 0)) = Fin 0) by (cbn; f_equal; ring).
    induction (S n) as [|k IH]; [reflexivity|]. cbn [repeat map]. rewrite IH, Z. reflexivity. }
  rewrite E, mean_zeros. cbn [xscale]. f_equal. f_equal. ring.
Qed.

Lemma same_set_spec : forall a b, same_set a b = true <-> forall k, In k a <-> In k b.
Proof.
  intros a b. unfold same_set. rewrite andb_true_iff, !forallb_forall. split.
  - intros [H1 H2] k. split; intros H; [apply memb_In, H1|apply memb_In, H2]; exact H.
  - intros H. split; intros k Hk; apply memb_In, H; exact Hk.
Qed.

Lemma meets_spec : forall a b, meets a b = true <-> exists k, In k a /\ In k b.
Proof.
  intros a b. unfold meets. rewrite existsb_exists. split; intros (k & H1 & H2); exists k; split; auto; apply memb_In; exact H2.
Qed.

Lemma meets_false : forall a b, (forall k, In k a -> ~ In k b) -> meets a b = false.
Proof.
  intros a b H. destruct (meets a b) eqn:E; [|reflexivity]. apply meets_spec in E. destruct E as (k & H1 & H2). exfalso. eapply H; eauto.
Qed.

(** The query is accepted exactly when every column is known and no two of the four groups
    meet, except that the two groups of targets may coincide. *)
Lemma validate_spec : forall outs t0 t1 C M, validate_query outs t0 t1 C M = Ok tt <->
  (forall k, In k (t0 ++ t1 ++ C ++ M) -> In k outs) /\
  (forall k, In k (t0 ++ t1) -> ~ In k C) /\ (forall k, In k (t0 ++ t1) -> ~ In k M) /\ (forall k, In k C -> ~ In k M) /\
  ((forall k, In k t0 <-> In k t1) \/ (forall k, In k t0 -> ~ In k t1)).
Proof.
  intros outs t0 t1 C M. unfold validate_query.
  destruct (forallb (fun k => memb k outs) (t0 ++ t1 ++ C ++ M)) eqn:E1; cbn [negb].
  2:{ split; [discriminate|]. intros (H & _). assert (forallb (fun k => memb k outs) (t0 ++ t1 ++ C ++ M) = true); [|congruence].
      apply forallb_forall. intros k Hk. apply memb_In. auto. }
  rewrite forallb_forall in E1.
  assert (NM : forall a b, meets a b = false -> forall k, In k a -> ~ In k b).
  { intros a b H k H1 H2. assert (meets a b = true) by (apply meets_spec; eauto). congruence. }
  destruct (meets (t0 ++ t1) C) eqn:E2.
  { split; [discriminate|]. intros (_ & H & _). rewrite meets_false in E2 by exact H. discriminate. }
  destruct (meets (t0 ++ t1) M) eqn:E3.
  { split; [discriminate|]. intros (_ & _ & H & _). rewrite meets_false in E3 by exact H. discriminate. }
  destruct (meets C M) eqn:E4.
  { split; [discriminate|]. intros (_ & _ & _ & H & _). rewrite meets_false in E4 by exact H. discriminate. }
  destruct (same_set t0 t1) eqn:E5; cbn [negb andb].
  { split; [|reflexivity]. intros _. repeat split; eauto using NM; try (intros; apply memb_In, E1; assumption).
    left. apply same_set_spec. exact E5. }
  destruct (meets t0 t1) eqn:E6.
  - split; [discriminate|]. intros (_ & _ & _ & _ & [H|H]).
    + apply same_set_spec in H. congruence.
    + rewrite meets_false in E6 by exact H. discriminate.
  - split; [|reflexivity]. intros _. repeat split; eauto using NM. intros; apply memb_In, E1; assumption.
Qed.

Lemma validate_ok : forall outs t0 t1 C M, (forall k, In k (t0 ++ t1 ++ C ++ M) -> In k outs) ->
  (forall k, In k (t0 ++ t1) -> ~ In k C) -> (forall k, In k (t0 ++ t1) -> ~ In k M) -> (forall k, In k C -> ~ In k M) ->
  ((forall k, In k t0 <-> In k t1) \/ (forall k, In k t0 -> ~ In k t1)) -> validate_query outs t0 t1 C M = Ok tt.
Proof. intros. apply validate_spec. auto. Qed.

Lemma validate_err : forall outs t0 t1 C M, validate_query outs t0 t1 C M = Ok tt \/ validate_query outs t0 t1 C M = Err ValueError.
Proof.
  intros. unfold validate_query. repeat match goal with |- context [if ?b then _ else _] => destruct b; auto end.
Qed.

(** ** The samples of a query *)

Lemma query_samples : forall c ts C n, wf c -> askable c ts C -> (n <> 0)%nat ->
  always (simulate c None ts C [] (Some n)) (fun r => exists l, r = Ok (SMany l) /\ List.length l = n /\
    forall s, In s l -> Permutation (keys s) ts /\ sample_ok c None C s).
Proof.
  intros c ts C n W (NE & NT & ST & NC & SC & LB & SD & P) N0.
  assert (U := unknown_none c).
  assert (H1 : always (simulate c None ts C [] (Some n)) (fails (fun e => e = ValueError /\ dens c C = 0%R))).
  { apply wf_quiet; auto; [intros k Hk; destruct (ST k Hk) as (A & B & _); auto|congruence]. }
  assert (H2 := simulate_shape c W None ts C (Some n) NT (fun k Hk => proj1 (ST k Hk)) ltac:(congruence) (unknown_uc _ _ _ U)).
  generalize (always_and _ _ _ H1 H2). apply always_imp. intros [r|e] [F S].
  - cbn [if_ok] in S. destruct r as [s|l]; [contradiction|]. exists l. split; [reflexivity|exact S].
  - destruct F as [_ F]. lra.
Qed.

Definition cell_of (s : row) (t : Z) : Z * val := (t, match lookup t s with Some x => x | None => VNan end).

Lemma keys_cells : forall s ts, keys (map (cell_of s) ts) = ts.
Proof. intros s ts. unfold keys. rewrite map_map. cbn. apply map_id. Qed.

Lemma pick_ok : forall ts s, NoDup ts -> (forall k, In k ts -> In k (keys s)) -> pick ts s = Ok (map (cell_of s) ts).
Proof.
  intros ts s ND H. unfold pick. rewrite (oseq_map_ok _ (cell_of s)).
  - cbn [omap obind]. rewrite dict_of_NoDup; [reflexivity|]. rewrite keys_cells. exact ND.
  - intros t Ht. unfold dget, cell_of. destruct (lookup t s) as [x|] eqn:L; [reflexivity|].
    apply lookup_None in L. exfalso. auto.
Qed.

Lemma lookup_cells : forall s ts k, NoDup ts -> (forall k, In k ts -> In k (keys s)) ->
  lookup k (map (cell_of s) ts) = if memb k ts then lookup k s else None.
Proof.
  intros s ts k ND H. destruct (memb k ts) eqn:M.
  - apply memb_In in M. assert (L : In (cell_of s k) (map (cell_of s) ts)) by (apply in_map; exact M).
    unfold cell_of in L at 1. destruct (lookup k s) as [x|] eqn:E.
    + apply In_lookup; auto. rewrite keys_cells. exact ND.
    + apply lookup_None in E. exfalso. auto.
  - apply lookup_None. rewrite keys_cells. intros Hk. apply memb_In in Hk. congruence.
Qed.

(** A sub-sample: the log density of some of the cells. *)
Lemma logpdf_cells : forall c C s ts, wf c -> labelled c (s ++ C) -> NoDup (keys s ++ keys C) -> NoDup ts ->
  (forall k, In k ts -> In k (keys s)) -> ts <> [] \/ (exists cs, c = CProd cs) ->
  (forall k, In k (keys s ++ keys C) -> In k (outputs c)) -> solid c C -> (0 < dens c C)%R ->
  logpdf c None (map (cell_of s) ts) C [] = Ok (xlog (dens c (map (cell_of s) ts ++ C) / dens c C)).
Proof.
  intros c C s ts W LB ND NT SUB NE OUT SD P.
  assert (LK := fun k => lookup_cells s ts k NT SUB).
  assert (NDs : NoDup (keys s)) by (eapply AliasThm.NoDup_app_l; eauto).
  assert (DJ : forall k, In k (keys s) -> ~ In k (keys C)) by (intros k H1 H2; eapply NoDup_app_disj; eauto).
  destruct ts as [|t ts].
  - destruct NE as [NE|[cs ->]]; [congruence|]. cbn [map app]. rewrite product_no_targets.
    unfold Rdiv. rewrite Rinv_r by lra. unfold xlog. destruct (Rlt_dec 0 1) as [_|F]; [rewrite ln_1; reflexivity|lra].
  - apply model_density; auto.
    + apply unknown_none.
    + apply (labelled_sub c (s ++ C)); [|exact LB]. intros k x. rewrite !lookup_app, LK. destruct (memb k (t :: ts)); [auto|].
      intros L. destruct (lookup k s) as [y|] eqn:Ls; [|exact L]. exfalso. apply (DJ k).
      * apply lookup_In in Ls. apply (in_map fst) in Ls. exact Ls.
      * apply lookup_In in L. apply (in_map fst) in L. exact L.
    + unfold disjoint_rows. unfold keys. rewrite map_app. fold (keys C). change (map fst (map (cell_of s) (t :: ts))) with (keys (map (cell_of s) (t :: ts))).
      rewrite keys_cells. apply AliasThm.NoDup_app_intro; auto.
      eapply AliasThm.NoDup_app_r; eauto.
    + discriminate.
    + intros k Hk. apply OUT. unfold keys in Hk. rewrite map_app in Hk. apply in_app_or in Hk. apply in_or_app.
      destruct Hk as [Hk|Hk]; [left|right; exact Hk]. change (In k (keys (map (cell_of s) (t :: ts)))) in Hk. rewrite keys_cells in Hk. auto.
Qed.

(** ** Targets in different children of a product *)

Lemma xlog_zero : forall p x y q : R, (0 < q)%R -> (0 < p)%R -> (0 < x)%R -> (0 < y)%R -> (p * q = x * y)%R ->
  xsub (xsub (xlog (p / q)) (xlog (x / q))) (xlog (y / q)) = Fin 0.
Proof.
  intros p x y q Q P X Y E.
  assert (D : forall a, (0 < a)%R -> xlog (a / q) = Fin (ln a - ln q)).
  { intros a A. unfold xlog. destruct (Rlt_dec 0 (a / q)) as [_|F].
    - f_equal. unfold Rdiv. rewrite ln_mult, ln_Rinv; auto with real.
    - exfalso. apply F. apply Rdiv_lt_0_compat; assumption. }
  rewrite !D by assumption. cbn. f_equal.
  assert (L : (ln p + ln q = ln x + ln y)%R) by (rewrite <- !ln_mult by assumption; rewrite E; reflexivity). lra.
Qed.

Lemma apart_child : forall cs t0 t1 c, apart cs t0 t1 -> In c cs ->
  (forall k, In k t0 -> ~ In k (outputs c)) \/ (forall k, In k t1 -> ~ In k (outputs c)).
Proof.
  intros cs t0 t1 c A Hc. destruct (meets t0 (outputs c)) eqn:M.
  - right. apply meets_spec in M. destruct M as (a & H1 & H2). intros b Hb. eapply A; eauto.
  - left. intros k H1 H2. assert (meets t0 (outputs c) = true) by (apply meets_spec; eauto). congruence.
Qed.

Lemma product_mi : forall cs t0 t1 C s, wf (CProd cs) -> askable (CProd cs) (t0 ++ t1) C -> apart cs t0 t1 ->
  Permutation (keys s) (t0 ++ t1) -> sample_ok (CProd cs) None C s ->
  pick t0 s = Ok (map (cell_of s) t0) /\ pick t1 s = Ok (map (cell_of s) t1) /\
  exists a b d, logpdf (CProd cs) None s C [] = Ok a /\ logpdf (CProd cs) None (map (cell_of s) t0) C [] = Ok b /\
    logpdf (CProd cs) None (map (cell_of s) t1) C [] = Ok d /\ xsub (xsub a b) d = Fin 0.
Proof.
  intros cs t0 t1 C s W (NE & NT & ST & NC & SC & LB & SD & P) A PM SO.
  assert (NT0 : NoDup t0) by (eapply AliasThm.NoDup_app_l; eauto).
  assert (NT1 : NoDup t1) by (eapply AliasThm.NoDup_app_r; eauto).
  assert (KS : forall k, In k (keys s) <-> In k (t0 ++ t1)) by (intros k; split; apply Permutation_in; [|apply Permutation_sym]; exact PM).
  assert (S0 : forall k, In k t0 -> In k (keys s)) by (intros; apply KS, in_or_app; auto).
  assert (S1 : forall k, In k t1 -> In k (keys s)) by (intros; apply KS, in_or_app; auto).
  assert (DJ : forall k, In k (keys s) -> ~ In k (keys C)) by (intros k Hk; apply ST, KS, Hk).
  assert (NDs : NoDup (keys s)) by (eapply Permutation_NoDup; [apply Permutation_sym|]; eauto).
  assert (NDa : NoDup (keys s ++ keys C)) by (apply AliasThm.NoDup_app_intro; auto).
  assert (OUT : forall k, In k (keys s ++ keys C) -> In k (outputs (CProd cs))).
  { intros k Hk. apply in_app_or in Hk. destruct Hk as [Hk|Hk]; [apply ST, KS, Hk|apply SC, Hk]. }
  assert (LBs : labelled (CProd cs) (s ++ C)).
  { apply labelled_app; [|exact LB]. apply (sample_labelled _ W C); [|exact SO]. intros k Hk. apply lookup_None. intros Hs.
    apply KS in Hs. apply ST in Hs. tauto. }
  assert (EX : extends C s (outputs (CProd cs))).
  { intros k _ Hs. apply lookup_None. apply DJ. destruct (lookup k s) as [x|] eqn:L; [|congruence]. apply lookup_In in L.
    apply (in_map fst) in L. exact L. }
  assert (Ps := sample_pos _ W C s LB SD P NC EX SO).
  split; [apply pick_ok; auto|]. split; [apply pick_ok; auto|].
  set (s0 := map (cell_of s) t0). set (s1 := map (cell_of s) t1).
  assert (L0 : forall k, lookup k s0 = if memb k t0 then lookup k s else None) by (intros; apply lookup_cells; auto).
  assert (L1 : forall k, lookup k s1 = if memb k t1 then lookup k s else None) by (intros; apply lookup_cells; auto).
  assert (WC : forall c, In c cs -> wf c) by (inversion W; auto).
  assert (CH : forall c, In c cs -> (dens c (s ++ C) * dens c C = dens c (s0 ++ C) * dens c (s1 ++ C) /\
    (dens c (s0 ++ C) = dens c C \/ dens c (s0 ++ C) = dens c (s ++ C)) /\
    (dens c (s1 ++ C) = dens c C \/ dens c (s1 ++ C) = dens c (s ++ C)))%R).
  { intros c Hc. assert (Wc := WC c Hc).
    assert (OFF : forall k, In k (keys s) -> ~ In k t0 -> In k t1).
    { intros k Hk N0. apply KS in Hk. apply in_app_or in Hk. tauto. }
    destruct (apart_child cs t0 t1 c A Hc) as [Q|Q].
    - assert (E0 : dens c (s0 ++ C) = dens c C).
      { apply dens_ext; auto. intros k Hk. rewrite lookup_app, L0. destruct (memb k t0) eqn:M; [|reflexivity].
        apply memb_In in M. exfalso. eapply Q; eauto. }
      assert (E1 : dens c (s1 ++ C) = dens c (s ++ C)).
      { apply dens_ext; auto. intros k Hk. rewrite !lookup_app, L1. destruct (memb k t1) eqn:M; [reflexivity|].
        destruct (lookup k s) as [x|] eqn:L; [|reflexivity]. exfalso. apply lookup_In in L. apply (in_map fst) in L.
        assert (In k t1); [|apply memb_In in H; congruence]. apply OFF; [exact L|]. intros H. eapply Q; eauto. }
      rewrite E0, E1. split; [ring|auto].
    - assert (E1 : dens c (s1 ++ C) = dens c C).
      { apply dens_ext; auto. intros k Hk. rewrite lookup_app, L1. destruct (memb k t1) eqn:M; [|reflexivity].
        apply memb_In in M. exfalso. eapply Q; eauto. }
      assert (E0 : dens c (s0 ++ C) = dens c (s ++ C)).
      { apply dens_ext; auto. intros k Hk. rewrite !lookup_app, L0. destruct (memb k t0) eqn:M; [reflexivity|].
        destruct (lookup k s) as [x|] eqn:L; [|reflexivity]. exfalso. apply lookup_In in L. apply (in_map fst) in L.
        apply (Q k); [|exact Hk]. apply OFF; [exact L|]. intros H. apply memb_In in H. congruence. }
      rewrite E0, E1. split; [ring|auto]. }
  assert (PC : forall S, (0 < dens (CProd cs) S)%R -> forall c, In c cs -> (0 < dens c S)%R).
  { intros S PS c Hc. apply (rprod_pos (map (fun c' => dens c' S) cs)); auto.
    - intros p Hp. apply in_map_iff in Hp. destruct Hp as (c' & <- & Hc'). apply dens_nonneg. auto.
    - apply in_map_iff. eauto. }
  assert (ALL : forall S, (forall c, In c cs -> dens c S = dens c C \/ dens c S = dens c (s ++ C)) -> (0 < dens (CProd cs) S)%R).
  { intros S HS. cbn [dens]. apply rprod_pos_all. intros p Hp. apply in_map_iff in Hp. destruct Hp as (c & <- & Hc).
    destruct (HS c Hc) as [->| ->]; [apply (PC C P c Hc)|apply (PC (s ++ C) Ps c Hc)]. }
  assert (P0 : (0 < dens (CProd cs) (s0 ++ C))%R) by (apply ALL; intros; apply CH; assumption).
  assert (P1 : (0 < dens (CProd cs) (s1 ++ C))%R) by (apply ALL; intros; apply CH; assumption).
  assert (EQ : (dens (CProd cs) (s ++ C) * dens (CProd cs) C = dens (CProd cs) (s0 ++ C) * dens (CProd cs) (s1 ++ C))%R).
  { cbn [dens]. rewrite <- !rprod_mul. f_equal. apply map_ext_in. intros c Hc. apply CH. exact Hc. }
  exists (xlog (dens (CProd cs) (s ++ C) / dens (CProd cs) C)), (xlog (dens (CProd cs) (s0 ++ C) / dens (CProd cs) C)),
    (xlog (dens (CProd cs) (s1 ++ C) / dens (CProd cs) C)).
  split; [|split; [|split]].
  - apply model_density; auto.
    + apply unknown_none.
    + unfold disjoint_rows, keys. rewrite map_app. exact NDa.
    + intros ->. cbn in PM. apply Permutation_nil in PM. auto.
    + intros k Hk. apply OUT. unfold keys in *. rewrite map_app in Hk. exact Hk.
  - apply logpdf_cells; eauto.
  - apply logpdf_cells; eauto.
  - apply xlog_zero; auto.
Qed.

Lemma product_mi_list : forall cs t0 t1 C l, wf (CProd cs) -> askable (CProd cs) (t0 ++ t1) C -> apart cs t0 t1 ->
  (forall s, In s l -> Permutation (keys s) (t0 ++ t1) /\ sample_ok (CProd cs) None C s) ->
  mi_of (CProd cs) t0 t1 C l = Ok (repeat (Fin 0) (List.length l)).
Proof.
  intros cs t0 t1 C l W Q A H. unfold mi_of.
  rewrite (oseq_map_ok _ (fun s => map (cell_of s) t0)) by (intros s Hs; destruct (H s Hs) as [PM SO]; apply (product_mi cs t0 t1 C s W Q A PM SO)).
  cbn [obind]. rewrite (oseq_map_ok _ (fun s => map (cell_of s) t1)) by (intros s Hs; destruct (H s Hs) as [PM SO]; apply (product_mi cs t0 t1 C s W Q A PM SO)).
  cbn [obind]. unfold logps.
  induction l as [|s l IH]; [reflexivity|].
  destruct (H s (or_introl eq_refl)) as [PM SO]. destruct (product_mi _ _ _ _ _ W Q A PM SO) as (_ & _ & a & b & d & Ea & Eb & Ed & Z).
  cbn [map oseq]. rewrite Ea, Eb, Ed. cbn [obind].
  specialize (IH (fun s Hs => H s (or_intror Hs))).
  destruct (oseq (map (fun s => logpdf (CProd cs) None s C []) l)) as [la|]; [|discriminate]. cbn [obind] in *.
  destruct (oseq (map (fun s => logpdf (CProd cs) None s C []) (map (fun s => map (cell_of s) t0) l))) as [lb|]; [|discriminate]. cbn [obind] in *.
  destruct (oseq (map (fun s => logpdf (CProd cs) None s C []) (map (fun s => map (cell_of s) t1) l))) as [ld|]; [|discriminate]. cbn [obind] in *.
  injection IH as IH. cbn [differences repeat List.length]. rewrite Z, IH. reflexivity.
Qed.

Lemma default_pos : forall N, (or_default N <> 0)%nat.
Proof. intros [[|n]|]; cbn; lia. Qed.

Lemma independent_mi : forall cs t0 t1 C M T N, wf (CProd cs) -> askable (CProd cs) (t0 ++ t1) (given_cells C) -> apart cs t0 t1 ->
  M = None \/ M = Some [] ->
  always (mutual_information (CProd cs) t0 t1 C M T N) (fun r => r = Ok (mkEstimate (Fin 0) (Fin 0))).
Proof.
  intros cs t0 t1 C M T N W Q A HM. pose proof Q as (NE & NT & ST & NC & SC & LB & SD & P).
  unfold mutual_information. change (match C with Some C => C | None => [] end) with (given_cells C).
  replace (match M with Some M => M | None => [] end) with (@nil Z) by (destruct HM as [->| ->]; reflexivity).
  assert (DJ : forall k, In k t0 -> ~ In k t1) by (intros k H1 H2; eapply NoDup_app_disj; eauto).
  rewrite validate_ok.
  - unfold estimator. destruct (same_set t0 t1) eqn:SS.
    { exfalso. rewrite same_set_spec in SS. destruct t0 as [|k t0]; [destruct t1 as [|k t1]; [auto|]|].
      - apply (SS k). now left.
      - apply (DJ k); [now left|]. apply SS. now left. }
    unfold sample_mi, sobind. apply always_bind. apply always_bind.
    generalize (query_samples _ _ _ _ W Q (default_pos N)). apply always_imp.
    intros r (l & -> & LL & Hl). cbn [samples_of obind]. assert (EL := product_mi_list _ _ _ _ _ W Q A Hl).
    assert (EL' : mi_of (CProd cs) t0 t1 (given_cells C) l = Ok (repeat (Fin 0) (or_default N))) by (rewrite <- LL; exact EL).
    clear EL. destruct (or_default N) as [|n] eqn:E; [exfalso; eapply default_pos; eauto|].
    change (always (sobind (Ret (mi_of (CProd cs) t0 t1 (given_cells C) l)) (fun v => Ret (Ok (get_estimate v))))
      (fun r => r = Ok (mkEstimate (Fin 0) (Fin 0)))).
    rewrite EL'. unfold sobind. cbn [sbind always]. rewrite estimate_zeros. reflexivity.
  - intros k Hk. rewrite !in_app_iff in Hk. destruct Hk as [Hk|[Hk|[Hk|[]]]]; [apply ST, in_or_app; auto..|]. apply SC. exact Hk.
  - intros k Hk. apply ST. exact Hk.
  - intros k _ [].
  - intros k _ [].
  - right. exact DJ.
Qed.

(** ** The other parts *)

Lemma invalid_query : forall c t0 t1 C M T N,
  ~ ((forall k, In k (t0 ++ t1 ++ keys (given_cells C) ++ match M with Some M => M | None => [] end) -> In k (outputs c)) /\
     (forall k, In k (t0 ++ t1) -> ~ In k (keys (given_cells C))) /\
     (forall k, In k (t0 ++ t1) -> ~ In k (match M with Some M => M | None => [] end)) /\
     (forall k, In k (keys (given_cells C)) -> ~ In k (match M with Some M => M | None => [] end)) /\
     ((forall k, In k t0 <-> In k t1) \/ (forall k, In k t0 -> ~ In k t1))) ->
  mutual_information c t0 t1 C M T N = Ret (Err ValueError).
Proof.
  intros c t0 t1 C M T N H. unfold mutual_information. change (match C with Some C => C | None => [] end) with (given_cells C).
  destruct (validate_err (outputs c) t0 t1 (keys (given_cells C)) (match M with Some M => M | None => [] end)) as [E|E].
  - exfalso. apply H. apply validate_spec. exact E.
  - rewrite E. reflexivity.
Qed.

Lemma marginalize_raises : forall c t0 t1 C m M T N,
  always (mutual_information c t0 t1 C (Some (m :: M)) T N) (fun r => exists e, r = Err e).
Proof.
  intros c t0 t1 C m M T N. unfold mutual_information.
  destruct (validate_query _ _ _ _ _) as [u|e]; [|cbn; eauto].
  unfold sobind at 1. apply always_bind. apply always_True. intros [r|e]; [|cbn; eauto].
  destruct (obind (samples_of r) _) as [Cs|e]; [|cbn; eauto].
  unfold sobind. apply always_bind. apply always_True. intros [x|e]; cbn; eauto.
Qed.

Lemma xadd_comm : forall a b, xadd a b = xadd b a.
Proof. intros [a| | |] [b| | |]; cbn; try reflexivity. f_equal. ring. Qed.

Lemma xsub_swap : forall a b d, xsub (xsub a b) d = xsub (xsub a d) b.
Proof. intros [a| | |] [b| | |] [d| | |]; cbn; try reflexivity. f_equal. ring. Qed.

Lemma differences_swap : forall a b d, differences a b d = differences a d b.
Proof.
  induction a as [|x a IH]; intros [|y b] [|z d]; cbn [differences]; try reflexivity. rewrite IH, xsub_swap. reflexivity.
Qed.

Lemma symmetric_mi : forall c t0 t1 C l v, mi_of c t0 t1 C l = Ok v -> mi_of c t1 t0 C l = Ok v.
Proof.
  intros c t0 t1 C l v. unfold mi_of.
  destruct (oseq (map (pick t0) l)) as [s0|]; [|discriminate]. destruct (oseq (map (pick t1) l)) as [s1|]; [|discriminate].
  cbn [obind]. destruct (logps c C l) as [a|]; [|discriminate]. cbn [obind].
  destruct (logps c C s0) as [b|]; [|discriminate]. destruct (logps c C s1) as [d|]; [|discriminate]. cbn [obind].
  rewrite differences_swap. auto.
Qed.

(** ** Entropy *)

Lemma cell_le_1 : forall d K x, dinv d -> dist_support d = Ok K -> (cell_density d x <= 1)%R.
Proof.
  intros d K x D SU. destruct x as [|q]; [destruct d; cbn; lra|]. cbn [cell_density].
  destruct (density_nonneg d q D) as [P|Z]; [|lra].
  assert (IN : in_domain (kind_of d) (dist_data d) (VQ q)) by (apply density_pos; assumption).
  assert (E : prim_density d q = cell_density d (vz (trunc q))).
  { destruct d as [s|s|s|s|s|s]; cbn in SU; try discriminate.
    - cbn [cell_density vz prim_density]. rewrite trunc_qz. reflexivity.
    - cbn [cell_density vz]. f_equal. apply is_int_spec. unfold prim_density in P.
      destruct (is_int q); [reflexivity|]. cbn in P. lra.
    - cbn [cell_density vz]. f_equal. apply is_int_spec. unfold prim_density in P.
      destruct (is_int q); [reflexivity|]. cbn in P. lra. }
  rewrite E, <- (support_sum d K D SU). apply rsum_ge.
  - intros p Hp. apply in_map_iff in Hp. destruct Hp as (z & <- & _). apply cell_nonneg. exact D.
  - apply in_map_iff. exists (trunc q). split; [reflexivity|]. apply (support_pos d K (trunc q) D SU). rewrite <- E. exact P.
Qed.

Lemma rprod_le : forall {A} (f g : A -> R) l, (forall x, In x l -> (0 <= f x <= g x)%R) -> (0 <= rprod (map f l) <= rprod (map g l))%R.
Proof.
  intros A f g l H. induction l as [|x l IH]; [cbn; lra|].
  change (0 <= f x * rprod (map f l) <= g x * rprod (map g l))%R.
  assert (H1 := H x (or_introl eq_refl)). assert (H2 := IH (fun y Hy => H y (or_intror Hy))).
  split; [apply Rmult_le_pos; lra|]. apply Rmult_le_compat; lra.
Qed.

Lemma rsum_le : forall {A} (f g : A -> R) l, (forall x, In x l -> (f x <= g x)%R) -> (rsum (map f l) <= rsum (map g l))%R.
Proof.
  intros A f g l H. induction l as [|x l IH]; [cbn; lra|].
  change (f x + rsum (map f l) <= g x + rsum (map g l))%R.
  assert (H1 := H x (or_introl eq_refl)). assert (H2 := IH (fun y Hy => H y (or_intror Hy))). lra.
Qed.

(** Naming more discrete cells only lowers the density. *)
Lemma dens_le : forall c, wf c -> forall ts C s, discrete c ts -> (forall k, In k (outputs c) -> lookup k s <> None -> In k ts) ->
  extends C s (outputs c) -> (labelled c (s ++ C)) -> (dens c (s ++ C) <= dens c C)%R.
Proof.
  assert (MIX : forall flex div arr r2c, wf (CMix flex div arr r2c) ->
    (forall c, In c (components arr) -> forall ts C s, discrete c ts -> (forall k, In k (outputs c) -> lookup k s <> None -> In k ts) ->
      extends C s (outputs c) -> labelled c (s ++ C) -> (dens c (s ++ C) <= dens c C)%R) ->
    forall ts C s, discrete (CMix flex div arr r2c) ts ->
    (forall k, In k (outputs (CMix flex div arr r2c)) -> lookup k s <> None -> In k ts) ->
    extends C s (outputs (CMix flex div arr r2c)) -> labelled (CMix flex div arr r2c) (s ++ C) ->
    (dens (CMix flex div arr r2c) (s ++ C) <= dens (CMix flex div arr r2c) C)%R).
  { intros flex div arr r2c W IH ts C s DI SUB EX LB.
    destruct (wf_mix _ _ _ _ W) as (D & (K & SU) & A & NIx & CO & CE & _).
    assert (QL : forall z c, component arr z = Some c -> (0 <= dens c (s ++ C) <= dens c C)%R).
    { intros z c E. assert (Ic := comp_In _ _ _ E). destruct (CO c Ic) as [Wc Oc]. split; [apply dens_nonneg; auto|].
      apply (IH c Ic ts).
      - apply (discrete_comp arr); auto.
      - intros k Hk. apply SUB. right. rewrite <- Oc. exact Hk.
      - intros k Hk. apply EX. right. rewrite <- Oc. exact Hk.
      - apply (labelled_comp arr _ c (proj2 LB) Ic). }
    destruct (lookup (dist_o div) C) as [x|] eqn:LC.
    - assert (Ls : lookup (dist_o div) s = None).
      { destruct (lookup (dist_o div) s) eqn:L; [|reflexivity]. rewrite EX in LC; [discriminate|now left|congruence]. }
      assert (La : lookup (dist_o div) (s ++ C) = Some x) by (rewrite lookup_or by exact Ls; exact LC).
      destruct (proj1 LB x La) as (z & -> & LZ). destruct (CE z LZ) as [c E].
      rewrite (dens_mix_some flex div arr r2c W z _ La), (dens_mix_some flex div arr r2c W z _ LC), !(q_comp flex div arr r2c W z c _ E).
      apply Rmult_le_compat_l; [apply cell_nonneg; exact D|]. eapply QL; eauto.
    - rewrite (dens_mix_none flex div arr r2c K C SU LC).
      assert (TERM : forall z, In z K -> (0 <= cell_density div (vz z) * q_of div arr z (s ++ C) <= cell_density div (vz z) * q_of div arr z C)%R).
      { intros z Hz. destruct (CE z) as [c E]; [right; eauto|]. rewrite !(q_comp flex div arr r2c W z c _ E).
        assert (H1 := QL z c E). assert (H2 := cell_nonneg div (vz z) D). split; [apply Rmult_le_pos; lra|].
        apply Rmult_le_compat_l; lra. }
      destruct (lookup (dist_o div) (s ++ C)) as [x|] eqn:La.
      + destruct (proj1 LB x La) as (z & -> & LZ). destruct (CE z LZ) as [c E].
        rewrite (dens_mix_some flex div arr r2c W z _ La).
        destruct (cell_nonneg div (vz z) D) as [P|Z0].
        * assert (Hz : In z K) by (apply (support_pos div K z D SU); exact P).
          apply Rle_trans with (cell_density div (vz z) * q_of div arr z C)%R; [apply TERM; exact Hz|].
          apply (rsum_ge (map (fun z => (cell_density div (vz z) * q_of div arr z C)%R) K)).
          -- intros p Hp. apply in_map_iff in Hp. destruct Hp as (y & <- & Hy). assert (H := TERM y Hy). lra.
          -- apply in_map_iff. eauto.
        * rewrite <- Z0, Rmult_0_l. apply rsum_nonneg. intros p Hp. apply in_map_iff in Hp. destruct Hp as (y & <- & Hy).
          assert (H := TERM y Hy). lra.
      + rewrite (dens_mix_none flex div arr r2c K _ SU La). apply rsum_le. intros z Hz. apply TERM. exact Hz. }
  induction 1 as [d D|cs Wc IH ND|div cs r2i r2c D F SU NE Wc IH O|div b cs r2i r2c D HS Wb IHb NI ND Wc IH O].
  - intros ts C s DI SUB EX _. cbn [dens]. rewrite lookup_app. destruct (lookup (dist_o d) s) as [x|] eqn:L; [|lra].
    rewrite (EX (dist_o d)); [|now left|congruence]. destruct (DI (SUB (dist_o d) (or_introl eq_refl) ltac:(congruence))) as [K SU].
    eapply cell_le_1; eauto.
  - intros ts C s DI SUB EX LB. cbn [discrete labelled] in *. rewrite each_In in *. cbn [dens].
    apply (rprod_le (fun c => dens c (s ++ C)) (fun c => dens c C)). intros c Hc. split; [apply dens_nonneg; auto|].
    apply (IH c Hc ts); auto.
    + intros k Hk. apply SUB. cbn [outputs]. apply in_flat_map. eauto.
    + intros k Hk. apply EX. cbn [outputs]. apply in_flat_map. eauto.
  - apply MIX; auto. constructor; auto.
  - apply MIX; auto.
    + constructor; auto.
    + intros c [<-|Hc]; [exact IHb|]. unfold values in Hc. apply in_map_iff in Hc.
      destruct Hc as ([k c'] & <- & Hk). cbn. eauto.
Qed.

Definition fin_list (P : R -> Prop) (l : list xr) : Prop := forall x, In x l -> exists r, x = Fin r /\ P r.

Lemma fin_sum : forall l P, fin_list P l -> exists rs, l = map Fin rs /\ Forall P rs.
Proof.
  induction l as [|x l IH]; intros P H; [exists []; auto|]. destruct (H x (or_introl eq_refl)) as (r & -> & Hr).
  destruct (IH P (fun y Hy => H y (or_intror Hy))) as (rs & -> & F). exists (r :: rs). auto.
Qed.

Lemma xsum_fin : forall rs, xsum (map Fin rs) = Fin (rsum rs).
Proof.
  induction rs as [|r rs IH]; [reflexivity|]. change (xadd (Fin r) (xsum (map Fin rs)) = Fin (r + rsum rs)). rewrite IH. reflexivity.
Qed.

Definition rmean (rs : list R) : R := (/ INR (List.length rs) * rsum rs)%R.

Lemma mean_fin : forall rs, rs <> [] -> numpy_mean (map Fin rs) = Fin (rmean rs).
Proof.
  intros rs H. destruct rs as [|r rs]; [congruence|].
  change (xscale (/ INR (List.length (map Fin (r :: rs)))) (xsum (map Fin (r :: rs))) = Fin (rmean (r :: rs))).
  rewrite xsum_fin, map_length. reflexivity.
Qed.

Lemma rmean_nonneg : forall rs, rs <> [] -> (forall r, In r rs -> (0 <= r)%R) -> (0 <= rmean rs)%R.
Proof.
  intros rs H N. unfold rmean. apply Rmult_le_pos; [|apply rsum_nonneg; exact N].
  apply Rlt_le, Rinv_0_lt_compat, lt_0_INR. destruct rs; [congruence|cbn; lia].
Qed.

(** A list of finite values has a finite estimate; the variance is not negative. *)
Lemma estimate_fin : forall rs, rs <> [] -> exists v, get_estimate (map Fin rs) = mkEstimate (Fin (rmean rs)) (Fin v) /\ (0 <= v)%R.
Proof.
  intros rs H. unfold get_estimate, numpy_var. rewrite mean_fin by exact H. rewrite map_length.
  assert (E : map (fun x => xsquare (xsub x (Fin (rmean rs)))) (map Fin rs) = map Fin (map (fun r => (r - rmean rs) * (r - rmean rs))%R rs)).
  { rewrite !map_map. apply map_ext. intros r. cbn. f_equal. }
  rewrite E. set (sq := map (fun r => ((r - rmean rs) * (r - rmean rs))%R) rs).
  assert (NE : sq <> []) by (unfold sq; destruct rs; [congruence|discriminate]).
  rewrite mean_fin by exact NE. cbn [xscale]. eexists. split; [reflexivity|]. apply Rmult_le_pos.
  - apply Rlt_le, Rinv_0_lt_compat, lt_0_INR. destruct rs; [congruence|cbn; lia].
  - apply rmean_nonneg; [exact NE|]. intros r Hr. unfold sq in Hr. apply in_map_iff in Hr. destruct Hr as (x & <- & _).
    apply Rle_0_sqr.
Qed.

Lemma sample_query : forall c ts C s, wf c -> askable c ts C -> Permutation (keys s) ts -> sample_ok c None C s ->
  labelled c (s ++ C) /\ (0 < dens c (s ++ C))%R /\ extends C s (outputs c) /\
  logpdf c None s C [] = Ok (xlog (dens c (s ++ C) / dens c C)).
Proof.
  intros c ts C s W (NE & NT & ST & NC & SC & LB & SD & P) PM SO.
  assert (KS : forall k, In k (keys s) <-> In k ts) by (intros k; split; apply Permutation_in; [|apply Permutation_sym]; exact PM).
  assert (DJ : forall k, In k (keys s) -> ~ In k (keys C)) by (intros k Hk; apply ST, KS, Hk).
  assert (NDs : NoDup (keys s)) by (eapply Permutation_NoDup; [apply Permutation_sym|]; eauto).
  assert (LBs : labelled c (s ++ C)).
  { apply labelled_app; [|exact LB]. apply (sample_labelled _ W C); [|exact SO]. intros k Hk. apply lookup_None. intros Hs.
    apply KS in Hs. apply ST in Hs. tauto. }
  assert (EX : extends C s (outputs c)).
  { intros k _ Hs. apply lookup_None. apply DJ. destruct (lookup k s) as [x|] eqn:L; [|congruence]. apply lookup_In in L.
    apply (in_map fst) in L. exact L. }
  assert (Ps := sample_pos _ W C s LB SD P NC EX SO).
  split; [exact LBs|]. split; [exact Ps|]. split; [exact EX|].
  apply model_density; auto.
  - apply unknown_none.
  - unfold disjoint_rows, keys. rewrite map_app. apply AliasThm.NoDup_app_intro; auto.
  - intros ->. cbn in PM. apply Permutation_nil in PM. auto.
  - intros k Hk. unfold keys in Hk. rewrite map_app in Hk. apply in_app_or in Hk. destruct Hk as [Hk|Hk].
    + apply ST, KS. exact Hk.
    + apply SC. exact Hk.
Qed.

Lemma entropy_estimate : forall c t0 t1 C M T N, wf c -> askable c t0 (given_cells C) -> (forall k, In k t0 <-> In k t1) ->
  M = None \/ M = Some [] ->
  always (mutual_information c t0 t1 C M T N) (fun r => exists h v, r = Ok (mkEstimate (Fin h) (Fin v)) /\ (0 <= v)%R /\
    (discrete c t0 -> (0 <= h)%R)).
Proof.
  intros c t0 t1 C M T N W Q ST01 HM. pose proof Q as (NE & NT & ST & NC & SC & LB & SD & P).
  unfold mutual_information. change (match C with Some C => C | None => [] end) with (given_cells C).
  replace (match M with Some M => M | None => [] end) with (@nil Z) by (destruct HM as [->| ->]; reflexivity).
  rewrite validate_ok.
  - unfold estimator, sample_entropy. rewrite (proj2 (same_set_spec t0 t1)) by exact ST01.
    unfold sobind. apply always_bind. apply always_bind.
    generalize (query_samples _ _ _ _ W Q (default_pos N)). apply always_imp.
    intros r (l & -> & LL & Hl).
    assert (E : exists rs, entropy_of c (given_cells C) l = Ok (map Fin rs) /\ List.length rs = List.length l /\
      (discrete c t0 -> forall r, In r rs -> (0 <= r)%R)).
    { clear LL. induction l as [|s l IH]; [exists []; repeat split; intros; contradiction|].
      destruct (IH (fun s Hs => Hl s (or_intror Hs))) as (rs & E & LE & PR).
      destruct (Hl s (or_introl eq_refl)) as [PM SO].
      destruct (sample_query c t0 _ s W Q PM SO) as (LBs & Ps & EX & LP).
      set (p := (dens c (s ++ given_cells C) / dens c (given_cells C))%R) in *.
      assert (Pp : (0 < p)%R) by (apply Rdiv_lt_0_compat; assumption).
      exists ((- ln p)%R :: rs). split; [|split].
      - unfold entropy_of, logps in *. cbn [map oseq]. rewrite LP.
        destruct (oseq (map (fun s => logpdf c None s (given_cells C) []) l)) as [ls|]; [|discriminate].
        cbn [omap obind] in *. injection E as E. cbn [map]. rewrite E. unfold xlog. destruct (Rlt_dec 0 p); [reflexivity|contradiction].
      - cbn. rewrite LE. reflexivity.
      - intros DI r [<-|Hr]; [|auto]. assert (p <= 1)%R.
        { unfold p. apply Rmult_le_reg_r with (dens c (given_cells C)); [exact P|]. unfold Rdiv. rewrite Rmult_assoc, Rinv_l by lra.
          rewrite Rmult_1_r, Rmult_1_l. apply (dens_le c W t0); auto. intros k _ Hk.
          apply (Permutation_in _ PM). destruct (lookup k s) as [x|] eqn:L; [|congruence]. apply lookup_In in L. apply (in_map fst) in L. exact L. }
        assert (ln p <= 0)%R; [|lra]. rewrite <- ln_1. destruct H as [H|H]; [left; apply ln_increasing; assumption|right; rewrite H; reflexivity]. }
    destruct E as (rs & E & LE & PR).
    change (always (sobind (Ret (entropy_of c (given_cells C) l)) (fun v => Ret (Ok (get_estimate v))))
      (fun r => exists h v, r = Ok (mkEstimate (Fin h) (Fin v)) /\ (0 <= v)%R /\ (discrete c t0 -> (0 <= h)%R))).
    rewrite E. unfold sobind. cbn [sbind always].
    assert (NR : rs <> []).
    { intros ->. cbn in LE. apply (default_pos N). rewrite <- LL. symmetry. exact LE. }
    destruct (estimate_fin rs NR) as (v & EE & PV). exists (rmean rs), v. rewrite EE. split; [reflexivity|]. split; [exact PV|].
    intros DI. apply rmean_nonneg; auto.
  - intros k Hk. rewrite !in_app_iff in Hk. destruct Hk as [Hk|[Hk|[Hk|[]]]]; [apply ST; auto|apply ST, ST01; auto|]. apply SC. exact Hk.
  - intros k Hk. apply in_app_or in Hk. destruct Hk as [Hk|Hk]; [apply ST; exact Hk|apply ST, ST01, Hk].
  - intros k _ [].
  - intros k _ [].
  - left. exact ST01.
Qed.

(** ** Ensembles *)

Lemma evaluate_all : forall {A} e mp (f : nat -> cgpm -> samp (cgpm * out A)) (a : A), whole e ->
  (forall n c, In c (cgpms e) -> always (f n c) (fun r => r = (c, Ok a))) ->
  always (ens_evaluate e mp f) (fun r => r = (e, Ok (repeat a (chains e)))).
Proof.
  intros A e mp f a W H. unfold ens_evaluate. rewrite jobs_whole by exact W. apply always_bind.
  assert (M : always (mapper mp (jobs_from 0 f (cgpms e))) (fun r => r = (cgpms e, Ok (repeat a (List.length (cgpms e)))))).
  { unfold mapper. revert H. generalize 0%nat. generalize (cgpms e). intros cs. destruct mp; cbn [negb].
    - assert (J : forall cs i, (forall n c, In c cs -> always (f n c) (fun r => r = (c, Ok a))) ->
        always (run_jobs (jobs_from i f cs)) (fun l => l = repeat (Ok a) (List.length cs))).
      { induction cs0 as [|c cs0 IH]; intros i H; [reflexivity|]. cbn [jobs_from run_jobs]. apply always_bind.
        generalize (H i c (or_introl eq_refl)). apply always_imp. intros r ->. apply always_bind.
        generalize (IH (S i) (fun n c Hc => H n c (or_intror Hc))). apply always_imp. intros l ->. reflexivity. }
      intros i H. apply always_bind. generalize (J cs i H). apply always_imp. intros l ->. cbn [always].
      f_equal; [apply jobs_chains|]. induction (List.length cs) as [|n IH]; [reflexivity|]. cbn [repeat oseq obind]. rewrite IH. reflexivity.
    - induction cs as [|c cs IH]; intros i H; [reflexivity|]. cbn [jobs_from map_jobs]. apply always_bind.
      generalize (H i c (or_introl eq_refl)). apply always_imp. intros r ->. cbn [fst snd]. apply always_bind.
      generalize (IH (S i) (fun n c Hc => H n c (or_intror Hc))). apply always_imp. intros q ->. reflexivity. }
  generalize M. apply always_imp. intros r ->. cbn [always fst snd]. rewrite whole_skip by exact W. rewrite with_same. unfold whole in W. rewrite W. reflexivity.
Qed.
