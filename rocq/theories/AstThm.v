(** Proofs about the abstract syntax of models. *)
From Coq Require Import List ZArith QArith Qcanon Reals Bool String Lia.
From Verif Require Import Base Xr Samp Lgamma Prims Cgpm Lib SpecPrims PrimsInv SpecComp CompInv CompDens CompThm SimShape PrimsThm2 SpecTable SpecHist Table Gibbs Hist
  Walks SpecWalks WalksThm Trans Views ViewsThm Dsl Ast.
From Verif Require Import SpecViews SpecCrosscat SpecDsl SpecAst.
Import ListNotations.
Local Open Scope Z_scope.

Lemma prim_settings : forall d d', settings d' = settings d -> prim_to_ast d' = prim_to_ast d.
Proof.
  intros d d' E. unfold prim_to_ast. destruct d, d'; try discriminate; cbn in E |- *.
  - unfold crp_new in E. replace (crp_alpha s0) with (crp_alpha s) by congruence. reflexivity.
  - unfold cat_new in E. replace (cat_k s0) with (cat_k s) by congruence. replace (cat_alpha s0) with (cat_alpha s) by congruence. reflexivity.
  - unfold ber_new in E. replace (ber_alpha s0) with (ber_alpha s) by congruence. replace (ber_beta s0) with (ber_beta s) by congruence. reflexivity.
  - replace (poi_a s0) with (poi_a s) by congruence. replace (poi_b s0) with (poi_b s) by congruence. reflexivity.
  - replace (nrm_m s0) with (nrm_m s) by congruence. replace (nrm_r s0) with (nrm_r s) by congruence. replace (nrm_s s0) with (nrm_s s) by congruence. replace (nrm_nu s0) with (nrm_nu s) by congruence. reflexivity.
  - replace (nuc_hypers s0) with (nuc_hypers s) by congruence. reflexivity.
Qed.

Definition same_ast (c c' : cgpm) : Prop := convert_cgpm_to_ast c' = convert_cgpm_to_ast c.

Lemma prod_ast : forall cs cs', Forall2 same_ast cs cs' -> same_ast (CProd cs) (CProd cs').
Proof.
  intros cs cs' F. unfold same_ast. cbn [convert_cgpm_to_ast].
  assert (E : map convert_cgpm_to_ast cs' = map convert_cgpm_to_ast cs) by (induction F as [|c c' cs cs' E F IH]; [reflexivity|]; cbn [map]; rewrite E, IH; reflexivity).
  rewrite E. reflexivity.
Qed.

Lemma F2_same_refl : forall cs, Forall2 same_ast cs cs.
Proof. induction cs; constructor; [reflexivity|assumption]. Qed.

(** Mixtures keep their shape: whatever becomes of the array, its base is the same. *)
Definition same_base (arr arr' : cgpm) : Prop :=
  match arr, arr' with
  | CFlexArr ix b _ _, CFlexArr ix' b' _ _ => ix' = ix /\ b' = b
  | CFlexArr _ _ _ _, _ | _, CFlexArr _ _ _ _ => False
  | _, _ => True
  end.

Lemma same_base_refl : forall a, same_base a a.
Proof. destruct a; cbn; auto. Qed.

Lemma mix_ast : forall f div div' arr arr' r r', settings div' = settings div -> same_base arr arr' -> same_ast (CMix f div arr r) (CMix f div' arr' r').
Proof.
  intros f div div' arr arr' r r' E B. unfold same_ast. destruct f; [|destruct arr, arr'; reflexivity].
  destruct arr, arr'; cbn in B; try contradiction; try reflexivity. destruct B as [-> ->]. cbn [convert_cgpm_to_ast]. rewrite (prim_settings _ _ E). reflexivity.
Qed.

Lemma observe_base : forall arr rid obs ins, always (observe arr rid obs ins) (fun r => same_base arr (fst r)).
Proof.
  intros arr rid obs ins. destruct arr; cbn [observe].
  - destruct (dist_observe d rid obs ins). cbn. exact Logic.I.
  - apply always_bind. apply always_True. intros ra. cbn. exact Logic.I.
  - unfold finarr_observe. destruct (lookup ix ins); [|cbn; auto]. destruct (py_index _ _); [|cbn; auto]. destruct (nth_error _ _); [|cbn; auto].
    apply always_bind, always_True. intros ra. destruct (snd ra); cbn; auto.
  - unfold flexarr_observe. destruct (lookup ix ins); [|cbn; auto]. apply always_bind, always_True. intros ra. destruct (snd ra); cbn; auto.
  - unfold mix_observe. destruct (lookup rid r2c).
    + apply always_bind, always_True. intros ra. cbn. exact Logic.I.
    + apply always_bind, always_True. intros [z|e]; [|cbn; auto]. destruct (dist_observe div rid [(dist_o div, z)] []) as [div' [u|e]]; [|cbn; auto].
      apply always_bind, always_True. intros ra. cbn. exact Logic.I.
Qed.

Lemma observe_ast : forall c rid obs ins, always (observe c rid obs ins) (fun r => same_ast c (fst r)).
Proof.
  intros c. induction c as [d|cs IH|ix cs m IH|ix b cs m IHb IH|f d arr m IH] using cgpm_ind_In; intros rid obs ins.
  - cbn [observe]. assert (L := leaf_settings d rid obs ins). destruct (dist_observe d rid obs ins) as [d' r]. cbn in L |- *. unfold same_ast. cbn. now rewrite (prim_settings _ _ L).
  - cbn [observe]. apply always_bind. apply (always_imp _ (fun r => Forall2 same_ast cs (fst r))); [intros r F; cbn; apply prod_ast; exact F|].
    induction cs as [|c cs IHc]; [cbn; constructor|]. cbn [map prod_observe]. destruct (interd (outputs c) obs) as [|p oc].
    + apply always_bind. eapply always_imp; [|apply IHc; intros; apply IH; now right]. intros r F. cbn. constructor; [reflexivity|exact F].
    + apply always_bind. eapply always_imp; [|apply IH; now left]. intros r E. cbn beta. destruct (snd r).
      * apply always_bind. eapply always_imp; [|apply IHc; intros; apply IH; now right]. intros r' F. cbn. constructor; [exact E|exact F].
      * cbn. constructor; [exact E|]. rewrite map_map. cbn. rewrite map_id. apply F2_same_refl.
  - cbn [observe]. unfold finarr_observe. destruct (lookup ix ins); [|reflexivity]. destruct (py_index _ _); [|reflexivity]. destruct (nth_error _ _); [|reflexivity].
    apply always_bind, always_True. intros ra. destruct (snd ra); reflexivity.
  - cbn [observe]. unfold flexarr_observe. destruct (lookup ix ins); [|reflexivity]. apply always_bind, always_True. intros ra. destruct (snd ra); reflexivity.
  - cbn [observe]. unfold mix_observe. destruct (lookup rid m).
    + unfold mix_observe_x. apply always_bind. eapply always_imp; [|apply observe_base]. intros r B. cbn. apply mix_ast; [reflexivity|exact B].
    + apply always_bind, always_True. intros [z|e]; [|cbn; reflexivity].
      assert (L := leaf_settings d rid [(dist_o d, z)] []). destruct (dist_observe d rid [(dist_o d, z)] []) as [div' [u|e]]; cbn in L.
      * unfold mix_observe_x. apply always_bind. eapply always_imp; [|apply observe_base]. intros r B. cbn. apply mix_ast; [exact L|exact B].
      * cbn. apply mix_ast; [exact L|apply same_base_refl].
Qed.

Lemma unobserve_base : forall arr rid, same_base arr (fst (unobserve arr rid)).
Proof.
  intros arr rid. destruct arr; cbn [unobserve].
  - destruct (dist_unobserve d rid). exact Logic.I.
  - unfold prod_unobserve. destruct (map _ cs); exact Logic.I.
  - unfold finarr_unobserve. destruct (lookup rid r2i); [|exact Logic.I]. destruct (py_index _ _); [|exact Logic.I]. destruct (nth_error _ _) as [f|]; [|exact Logic.I]. destruct (f rid). exact Logic.I.
  - unfold flexarr_unobserve. destruct (lookup rid r2i); [|apply same_base_refl]. destruct (match lookup _ _ with Some f => f | None => _ end rid). split; reflexivity.
  - unfold mix_unobserve. destruct (dist_unobserve div rid) as [div' [[a b]|e]]; [|exact Logic.I]. destruct (unobserve arr rid) as [arr' [[a' b']|e]]; [|exact Logic.I].
    destruct (dmem rid r2c); exact Logic.I.
Qed.

Lemma unobserve_ast : forall c rid, same_ast c (fst (unobserve c rid)).
Proof.
  intros c. induction c as [d|cs IH|ix cs m IH|ix b cs m IHb IH|f d arr m IH] using cgpm_ind_In; intros rid.
  - cbn [unobserve]. assert (L := leaf_settings_un d rid). destruct (dist_unobserve d rid) as [d' r]. cbn in L |- *. unfold same_ast. cbn. now rewrite (prim_settings _ _ L).
  - cbn [unobserve]. assert (F : Forall2 same_ast cs (map fst (map unobserve_one (map (fun c' => unobserve c' rid) cs)))).
    { rewrite !map_map. induction cs as [|c cs IHc]; cbn [map]; constructor; [|apply IHc; intros; apply IH; now right].
      assert (E := IH c (or_introl eq_refl) rid). unfold unobserve_one. destruct (snd (unobserve c rid)); exact E. }
    revert F. generalize (map (fun c' => unobserve c' rid) cs). intros [|r l] F; unfold prod_unobserve; cbn [fst]; apply prod_ast; exact F.
  - cbn [unobserve]. unfold finarr_unobserve. destruct (lookup rid m); [|reflexivity]. destruct (py_index _ _); [|reflexivity]. destruct (nth_error _ _) as [f|]; [|reflexivity]. destruct (f rid). reflexivity.
  - cbn [unobserve]. unfold flexarr_unobserve. destruct (lookup rid m); [|reflexivity]. destruct (match lookup _ _ with Some f => f | None => _ end rid). reflexivity.
  - cbn [unobserve]. unfold mix_unobserve. assert (L := leaf_settings_un d rid). assert (B := unobserve_base arr rid). destruct (dist_unobserve d rid) as [div' [[x y]|e]]; cbn in L.
    + destruct (unobserve arr rid) as [arr' [[x' y']|e]]; cbn in B; [destruct (dmem rid m)|]; cbn [fst]; apply mix_ast; assumption.
    + cbn [fst]. apply mix_ast; [exact L|apply same_base_refl].
Qed.

(** ** When there is none *)

Lemma all_some_None : forall {A} (l : list (option A)), all_some l = None <-> In None l.
Proof.
  intros A l. induction l as [|[a|] l IH]; cbn [all_some In].
  - split; [discriminate|tauto].
  - destruct (all_some l); split; intros H; try discriminate; try (right; apply IH; reflexivity); try reflexivity.
    destruct H as [H|H]; [discriminate|]. apply IH in H. discriminate.
  - split; auto.
Qed.

Lemma foreign_None : forall c, foreign c -> convert_cgpm_to_ast c = None.
Proof.
  intros c F. induction F as [| | |cs c Hc F IH|div ix base cs r2i r2c F IH]; try reflexivity.
  - cbn [convert_cgpm_to_ast]. assert (E : all_some (map convert_cgpm_to_ast cs) = None) by (apply all_some_None; rewrite <- IH; apply in_map; exact Hc). rewrite E. reflexivity.
  - cbn [convert_cgpm_to_ast]. rewrite IH. reflexivity.
Qed.

Lemma None_foreign : forall c, wf c -> convert_cgpm_to_ast c = None -> foreign c.
Proof.
  assert (G : forall c, (wf c -> convert_cgpm_to_ast c = None -> foreign c) /\
    match c with CFlexArr _ b _ _ => wf b -> convert_cgpm_to_ast b = None -> foreign b | _ => True end); [|intros c; apply G].
  intros c. induction c as [d|cs IH|ix cs m IH|ix b cs m IHb IH|f d arr m IH] using cgpm_ind_In; (split; [intros W E|try exact Logic.I]).
  - discriminate.
  - inversion W; subst. cbn [convert_cgpm_to_ast] in E. destruct (all_some (map convert_cgpm_to_ast cs)) eqn:EA; [discriminate|].
    apply all_some_None in EA. apply in_map_iff in EA. destruct EA as (c & Ec & Hc). apply (foreign_child cs c Hc). apply IH; auto.
  - constructor.
  - constructor.
  - apply IHb.
  - inversion W; subst; [constructor|]. apply foreign_base. cbn [convert_cgpm_to_ast] in E. apply (proj2 IH); [assumption|].
    destruct (convert_cgpm_to_ast base); [discriminate|reflexivity].
Qed.

(** ** The same as that of CrossCat models *)

Lemma nameless_prim : forall d, nameless (convert_primitive_to_ast d) = prim_to_ast d.
Proof. intros d. unfold nameless, convert_primitive_to_ast, prim_to_ast. cbn [ast_name ast_distargs ast_hypers]. destruct (dist_distargs d); reflexivity. Qed.

Lemma all_some_prims : forall ds, all_some (map convert_cgpm_to_ast (map CDist ds)) = Some (map prim_to_ast ds).
Proof. induction ds as [|d ds IH]; [reflexivity|]. cbn [map all_some convert_cgpm_to_ast]. rewrite IH. reflexivity. Qed.

Lemma product_prims : forall ds, convert_product_to_ast (CProd (map CDist ds)) = Ok (map convert_primitive_to_ast ds).
Proof. intros ds. cbn [convert_product_to_ast]. induction ds as [|d ds IH]; [reflexivity|]. cbn [map oseq]. rewrite IH. reflexivity. Qed.

Lemma crosscat_ast : forall X, crosscat X -> exists ast, convert_crosscat_to_ast (CProd X) = Ok ast /\ convert_cgpm_to_ast (CProd X) = Some (TList (map nameless_view ast)).
Proof.
  intros X [G _]. assert (SH : forall m, In m X -> sheet m) by (intros m Hm; apply (G m Hm)). clear G. cbn [convert_crosscat_to_ast convert_cgpm_to_ast].
  induction X as [|m X IH]; [exists []; split; reflexivity|]. destruct IH as (ast & E1 & E2); [intros; apply SH; now right|].
  destruct (SH m (or_introl eq_refl)) as [s bs cs r2i r2c _ _ _]. cbn [map oseq all_some convert_view_to_ast convert_cgpm_to_ast]. rewrite product_prims. cbn [obind]. rewrite all_some_prims, E1.
  destruct (all_some (map convert_cgpm_to_ast X)) as [l|]; [|discriminate]. eexists. split; [reflexivity|]. cbn [map]. unfold nameless_view at 1. cbn [fst snd]. rewrite nameless_prim, map_map.
  rewrite (map_ext _ _ nameless_prim). congruence.
Qed.

(** ** It determines a model without data *)

Lemma prim_determined : forall d d', d = settings d -> d' = settings d' -> (forall s, d <> DNuc s) -> dist_o d = dist_o d' -> prim_to_ast d = prim_to_ast d' -> d = d'.
Proof.
  intros d d' E E' NU O P. rewrite E, E'. unfold prim_to_ast in P.
  destruct d as [s|s|s|s|s|s]; [| | | | |destruct (NU s); reflexivity]; destruct d' as [t|t|t|t|t|t]; try (cbn in P; discriminate P);
    cbn [dist_name dist_distargs dist_get_hypers dist_o settings] in *; f_equal.
  - replace (crp_alpha t) with (crp_alpha s) by congruence. now rewrite O.
  - assert (K : cat_k s = cat_k t) by (apply qz_inj; congruence). replace (cat_alpha t) with (cat_alpha s) by congruence. now rewrite O, K.
  - replace (ber_alpha t) with (ber_alpha s) by congruence. replace (ber_beta t) with (ber_beta s) by congruence. now rewrite O.
  - replace (poi_a t) with (poi_a s) by congruence. replace (poi_b t) with (poi_b s) by congruence. now rewrite O.
  - replace (nrm_m t) with (nrm_m s) by congruence. replace (nrm_r t) with (nrm_r s) by congruence. replace (nrm_s t) with (nrm_s s) by congruence. replace (nrm_nu t) with (nrm_nu s) by congruence. now rewrite O.
Qed.

Lemma prims_determined : forall ds ds', (forall d, In d ds \/ In d ds' -> d = settings d /\ forall s, d <> DNuc s) -> map dist_o ds = map dist_o ds' ->
  map prim_to_ast ds = map prim_to_ast ds' -> ds = ds'.
Proof.
  induction ds as [|d ds IH]; intros [|d' ds'] H O P; try discriminate; [reflexivity|]. cbn [map] in O, P. f_equal.
  - destruct (H d (or_introl (or_introl eq_refl))) as [E NU]. destruct (H d' (or_intror (or_introl eq_refl))) as [E' _]. apply prim_determined; auto; congruence.
  - apply IH; [|congruence|congruence]. intros x [Hx|Hx]; apply H; [left|right]; now right.
Qed.

Lemma outputs_prims : forall ds, flat_map outputs (map CDist ds) = map dist_o ds.
Proof. induction ds as [|d ds IH]; [reflexivity|]. cbn. now rewrite IH. Qed.

Lemma unused_determined : forall m m', unused m -> unused m' -> outputs m = outputs m' -> convert_cgpm_to_ast m = convert_cgpm_to_ast m' -> m = m'.
Proof.
  intros m m' (ix & a & bs & -> & H) (ix' & a' & bs' & -> & H') O E. unfold new_flexmix, new_flexarr in *. cbn [convert_cgpm_to_ast dist_o crp_new crp_o outputs] in *.
  rewrite !all_some_prims in E. rewrite !outputs_prims in O.
  assert (ix = ix') as <- by congruence. assert (a = a') as <- by (unfold prim_to_ast in E; cbn in E; congruence).
  assert (bs = bs') as <-; [|reflexivity]. apply prims_determined; [|congruence|congruence].
  intros d [Hd|Hd]; [destruct (H d Hd) as (R & D & K & NU)|destruct (H' d Hd) as (R & D & K & NU)]; (split; [apply empty_settings; [apply reachable_dinv; exact R|exact D|exact K]|exact NU]).
Qed.

Lemma unused_some : forall m, unused m -> exists t, convert_cgpm_to_ast m = Some t.
Proof. intros m (ix & a & bs & -> & _). unfold new_flexmix, new_flexarr. cbn [convert_cgpm_to_ast]. rewrite all_some_prims. eauto. Qed.

Lemma models_determined : forall X X', (forall m, In m X \/ In m X' -> unused m) -> map outputs X = map outputs X' ->
  convert_cgpm_to_ast (CProd X) = convert_cgpm_to_ast (CProd X') -> X = X'.
Proof.
  induction X as [|m X IH]; intros [|m' X'] H O E; try discriminate; [reflexivity|]. cbn [map] in O.
  destruct (unused_some m (H m (or_introl (or_introl eq_refl)))) as [t Et]. destruct (unused_some m' (H m' (or_intror (or_introl eq_refl)))) as [t' Et'].
  cbn [convert_cgpm_to_ast map all_some] in E. rewrite Et, Et' in E.
  assert (S1 : exists l, all_some (map convert_cgpm_to_ast X) = Some l).
  { destruct (all_some (map convert_cgpm_to_ast X)) eqn:EA; [eauto|]. exfalso. apply all_some_None in EA. apply in_map_iff in EA. destruct EA as (x & Ex & Hx).
    destruct (unused_some x) as [tx Etx]; [apply H; left; now right|congruence]. }
  assert (S2 : exists l, all_some (map convert_cgpm_to_ast X') = Some l).
  { destruct (all_some (map convert_cgpm_to_ast X')) eqn:EA; [eauto|]. exfalso. apply all_some_None in EA. apply in_map_iff in EA. destruct EA as (x & Ex & Hx).
    destruct (unused_some x) as [tx Etx]; [apply H; right; now right|congruence]. }
  destruct S1 as [l El], S2 as [l' El']. rewrite El, El' in E. f_equal.
  - apply unused_determined; [apply H; left; now left|apply H; right; now left|congruence|congruence].
  - apply IH; [intros x [Hx|Hx]; apply H; [left|right]; now right|congruence|]. cbn [convert_cgpm_to_ast]. rewrite El, El'. congruence.
Qed.
