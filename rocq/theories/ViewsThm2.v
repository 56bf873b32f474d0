From Coq Require Import List ZArith QArith Qcanon Reals Bool String Permutation Lia Lra.
From Verif Require Import Base Xr Samp Lgamma Prims Cgpm Lib SpecPrims PrimsInv PrimsDens PrimsThm2
  SpecComp CompInv CompDens CompThm SpecBook Book SpecTable SpecSim SimShape SimTotal SimLaw Trans SpecHist Table Gibbs Hist Meta MetaThm
  Walks SpecWalks WalksThm PropPrims PropWalks Views SpecViews ViewsThm.
Import ListNotations.
Local Open Scope Z_scope.

Lemma NoDup_app_intro : forall {A} (l l' : list A), NoDup l -> NoDup l' -> (forall x, In x l -> ~ In x l') -> NoDup (l ++ l').
Proof.
  induction l as [|a l IH]; intros l' N N' D; [exact N'|]. inversion N; subst. cbn. constructor.
  - intros HI. apply in_app_or in HI. destruct HI as [HI|HI]; [auto|]. apply (D a); [now left|exact HI].
  - apply IH; auto. intros x Hx. apply D. now right.
Qed.

(** ** The data of a column *)

Definition triples (o : Z) (ds : list dist) : list (Z * Z * val) :=
  flat_map (fun d => map (fun p : Z * val => let (r, x) := p in (r, o, x)) (dist_data d)) ds.

Lemma In_triples : forall o ds r o' x, In (r, o', x) (triples o ds) <-> o' = o /\ exists d, In d ds /\ In (r, x) (dist_data d).
Proof.
  intros. unfold triples. rewrite in_flat_map. split.
  - intros (d & Hd & H). apply in_map_iff in H. destruct H as ([r' x'] & E & H). injection E as <- <- <-. eauto.
  - intros (-> & d & Hd & H). exists d. split; [exact Hd|]. apply in_map_iff. exists (r, x). auto.
Qed.

Lemma fst_triples : forall o ds, map fst (triples o ds) = map (fun r => (r, o)) (flat_map (fun d => keys (dist_data d)) ds).
Proof.
  intros o ds. unfold triples, keys. induction ds as [|d ds IH]; [reflexivity|]. cbn [flat_map]. rewrite !map_app, IH. f_equal.
  rewrite !map_map. apply map_ext. intros [r x]. reflexivity.
Qed.

Lemma dinv_keys : forall d, dinv d -> NoDup (keys (dist_data d)).
Proof. intros d D. apply D. Qed.

Lemma view_modelling : forall s bs cs r2i r2c o, wf (mkview s bs cs r2i r2c) -> shaped bs cs -> In o (map dist_o bs) ->
  modelling (mkview s bs cs r2i r2c) o =
  flat_map (fun p : val * cgpm => filter (fun d => dist_o d =? o) (leaves (snd p))) cs ++ filter (fun d => dist_o d =? o) bs.
Proof.
  intros s bs cs r2i r2c o W (NB & B & C) Ho. destruct (view_parts _ _ _ _ _ W) as (_ & _ & _ & NI & _).
  unfold modelling, mkview. cbn [prims]. cbn [filter]. rewrite (proj2 (Z.eqb_neq (dist_o (DCrp s)) o)) by (intros E; apply NI; rewrite <- E in Ho; exact Ho).
  rewrite filter_app. f_equal.
  - rewrite filter_flat_map. clear - C. induction cs as [|[k c] cs IH]; [reflexivity|]. cbn [flat_map snd].
    rewrite IH by (intros; eapply C; right; eassumption). f_equal. destruct (C k c (or_introl eq_refl)) as (ds & -> & _).
    rewrite leaves_prod. apply (modelling_prims ds o).
  - apply (modelling_prims bs o).
Qed.

Lemma column_data : forall m o, good m -> In o (columns_of m) ->
  exists K, kind_at m o = Some K /\ K <> KTable /\
  (forall d, In d (modelling m o) -> dist_o d = o /\ dinv d /\ kind_of d = K) /\
  (exists b, In b (modelling m o) /\ dist_data b = []) /\
  (forall r x, (exists d, In d (modelling m o) /\ In (r, x) (dist_data d)) <-> cell m r o = Some x) /\
  NoDup (flat_map (fun d => keys (dist_data d)) (modelling m o)).
Proof.
  intros m o G Ho. assert (W := good_wf m G). destruct G as (_ & Sh & Co).
  destruct (sheet_inv m Sh) as (s & bs & cs & r2i & r2c & -> & NB & B & C).
  assert (SH : shaped bs cs) by (split; [exact NB|split; assumption]). assert (KW := proj1 (consistent_parts _ _ _ _ _ SH) Co).
  destruct (view_parts _ _ _ _ _ W) as (D & Db & NDb & NI & NDk & Dc). destruct KW as (N1 & N2 & A3 & A4 & A5 & A6).
  assert (Ho' : In o (map dist_o bs)) by (rewrite <- outputs_prod; exact Ho).
  rewrite (view_modelling s bs cs r2i r2c o W SH Ho').
  apply in_map_iff in Ho'. destruct Ho' as (b & Eb & Hb).
  assert (INC : forall k c d, In (k, c) cs -> In d (leaves c) -> In d (cols bs cs k)).
  { intros k c d Hc Hd. unfold cols. rewrite (In_lookup _ _ _ NDk Hc). exact Hd. }
  assert (MD : forall d, In d (flat_map (fun p : val * cgpm => filter (fun d => dist_o d =? o) (leaves (snd p))) cs ++ filter (fun d => dist_o d =? o) bs) ->
    dist_o d = o /\ dinv d /\ kind_of d = kind_of b /\
    (dist_data d = [] \/ exists k, In d (cols bs cs k) /\ (forall r, In r (keys (dist_data d)) -> lookup r r2c = Some k))).
  { intros d Hd. apply in_app_or in Hd. destruct Hd as [Hd|Hd].
    - apply in_flat_map in Hd. destruct Hd as ([k c] & Hc & Hd). cbn [snd] in Hd. apply filter_In in Hd. destruct Hd as [Hd E]. apply Z.eqb_eq in E.
      assert (Hk : In d (cols bs cs k)) by (eapply INC; eauto).
      split; [exact E|]. split; [apply (proj1 (cols_good s bs cs r2i r2c W B C k) d Hk)|]. split.
      + assert (X := kind_column s bs cs r2i r2c k d W SH Hk). rewrite E, <- Eb in X. rewrite (kind_at_base _ _ _ _ _ b) in X by auto. congruence.
      + right. exists k. split; [exact Hk|]. intros r Hr. eapply A6; [exact Hk|exact Hr].
    - apply filter_In in Hd. destruct Hd as [Hd E]. apply Z.eqb_eq in E. split; [exact E|]. split; [apply Db; exact Hd|].
      split; [|left; apply B; exact Hd]. f_equal. assert (X := find_unique bs d NDb Hd). assert (Y := find_unique bs b NDb Hb).
      rewrite E in X. rewrite Eb in Y. congruence. }
  exists (kind_of b). split; [rewrite <- Eb; apply kind_at_base; auto|]. split; [apply B; exact Hb|]. split; [|split; [|split]].
  - intros d Hd. destruct (MD d Hd) as (E & I1 & I2 & _). auto.
  - exists b. split; [|apply B; exact Hb]. apply in_or_app. right. apply filter_In. split; [exact Hb|apply Z.eqb_eq; exact Eb].
  - intros r x. rewrite (cell_parts s bs cs r2i r2c r o SH). split.
    + intros (d & Hd & Hx). destruct (MD d Hd) as (E & I1 & _ & [Z0|(k & Hk & Hr)]); [rewrite Z0 in Hx; destruct Hx|]. rewrite (Hr r) by (apply (in_map fst) in Hx; exact Hx).
      destruct (cols_good s bs cs r2i r2c W B C k) as (GD & GN & GO). rewrite <- E. rewrite in_column_Some; [|rewrite GO; exact NDb|exact Hk].
      apply In_lookup; [|exact Hx]. apply dinv_keys. exact I1.
    + destruct (lookup r r2c) as [k|]; [|discriminate]. unfold in_column. destruct (find _ _) as [d|] eqn:F; [|discriminate].
      apply find_some in F. destruct F as [Hd E]. intros L. apply lookup_In in L. exists d. split; [|exact L].
      unfold cols in Hd. destruct (lookup k cs) as [c|] eqn:LC.
      * apply in_or_app. left. apply in_flat_map. exists (k, c). split; [apply lookup_In; exact LC|]. cbn [snd]. apply filter_In. auto.
      * exfalso. rewrite (proj2 (B d Hd)) in L. destruct L.
  - rewrite flat_map_app. apply NoDup_app_intro.
    + assert (NDk' : NoDup (keys cs)) by exact NDk.
      assert (INC' : forall k c d, In (k, c) cs -> In d (leaves c) -> In d (cols bs cs k)) by exact INC. 
      assert (SUB : forall k c, In (k, c) cs -> exists d, filter (fun d => dist_o d =? o) (leaves c) = [d] /\ dinv d /\ forall r, In r (keys (dist_data d)) -> lookup r r2c = Some k).
      { intros k c Hc. destruct (C _ _ Hc) as (ds & -> & A). rewrite leaves_prod in *.
        assert (NDs : NoDup (map dist_o ds)) by (rewrite (alike_o _ _ A); exact NDb).
        assert (Hs : In o (map dist_o ds)) by (rewrite (alike_o _ _ A), <- Eb; now apply in_map).
        destruct (find_column ds o Hs) as (d & F & Ed). exists d. split; [apply one_column; assumption|].
        assert (Hd : In d (cols bs cs k)). { eapply INC; [exact Hc|]. rewrite leaves_prod. apply find_some in F. apply F. }
        split; [apply (proj1 (cols_good s bs cs r2i r2c W B C k) d Hd)|]. intros r Hr. eapply A6; eauto. }
      clear - NDk' SUB. induction cs as [|[k c] cs IH]; [constructor|]. cbn [keys map fst] in NDk'. inversion NDk' as [|? ? N ND']; subst.
      cbn [flat_map snd]. rewrite flat_map_app. destruct (SUB k c (or_introl eq_refl)) as (d & Ed & Dd & Hd). rewrite Ed. apply NoDup_app_intro.
      * cbn [flat_map]. rewrite app_nil_r. apply dinv_keys. exact Dd.
      * apply IH; [exact ND'|]. intros k' c' Hc'. apply SUB. now right.
      * intros r Hr Hr'. cbn [flat_map] in Hr. rewrite app_nil_r in Hr. apply in_flat_map in Hr'. destruct Hr' as (d' & Hd' & Hr').
        apply in_flat_map in Hd'. destruct Hd' as ([k' c'] & Hc' & Hd'). cbn [snd] in Hd'. destruct (SUB k' c' (or_intror Hc')) as (d2 & E2 & _ & H2).
        rewrite E2 in Hd'. destruct Hd' as [<-|[]]. assert (k = k') by (specialize (Hd r Hr); specialize (H2 r Hr'); congruence). subst k'.
        apply N. apply (in_map fst) in Hc'. exact Hc'.
    + assert (X : forall d, In d (filter (fun d => dist_o d =? o) bs) -> dist_data d = []) by (intros d Hd; apply filter_In in Hd; apply B; apply Hd).
      clear - X. revert X. generalize (filter (fun d => dist_o d =? o) bs). induction l as [|d l IH]; intros X; [constructor|].
      cbn [flat_map]. rewrite (X d (or_introl eq_refl)). apply IH. intros; apply X; now right.
    + intros r _ Hr. apply in_flat_map in Hr. destruct Hr as (d & Hd & Hr). apply filter_In in Hd. rewrite (proj2 (B d (proj1 Hd))) in Hr. destruct Hr.
Qed.

(** ** Removing columns from a view *)

(** A well-kept view, except that it may have no column. *)
Definition plain (m : cgpm) : Prop :=
  exists s bs cs r2i r2c, m = mkview s bs cs r2i r2c /\ (forall d, In d bs -> kind_of d <> KTable /\ dist_data d = []) /\
    (forall k c, In (k, c) cs -> exists ds, c = CProd (map CDist ds) /\ alike bs ds) /\ kept_well s bs cs r2i r2c.

Lemma good_plain : forall m, good m -> grown m /\ plain m.
Proof.
  intros m (G & Sh & Co). split; [exact G|]. destruct (sheet_inv m Sh) as (s & bs & cs & r2i & r2c & -> & NB & B & C).
  exists s, bs, cs, r2i, r2c. repeat (split; [assumption||reflexivity|]). apply consistent_parts; [split; [exact NB|split; assumption]|exact Co].
Qed.

Lemma plain_good : forall m, grown m -> plain m -> columns_of m <> [] -> good m.
Proof.
  intros m G (s & bs & cs & r2i & r2c & -> & B & C & K) N. 
  assert (SH : shaped bs cs). { split; [|split; assumption]. intros ->. apply N. reflexivity. }
  split; [exact G|]. split; [apply (proj2 (sheet_shaped s bs cs r2i r2c) SH)|apply (proj2 (consistent_parts s bs cs r2i r2c SH) K)].
Qed.

Definition narrowed (outs : list Z) (m m' : cgpm) : Prop :=
  grown m' /\ plain m' /\ label_of m' = label_of m /\ divider m' = divider m /\ columns_of m' = without outs (columns_of m) /\
  (forall r, seat m' r = seat m r) /\
  (forall r v, ~ In v outs -> cell m' r v = cell m r v) /\
  (forall v, ~ In v outs -> kind_at m' v = kind_at m v).

Lemma plain_outputs : forall m, plain m -> outputs m = label_of m :: columns_of m.
Proof. intros m (s & bs & cs & r2i & r2c & -> & _). reflexivity. Qed.

Lemma cols_trim : forall o bs (cs : dict val cgpm) k, (forall k c, In (k, c) cs -> exists ds, c = CProd (map CDist ds) /\ alike bs ds) ->
  cols (filter (fun d => negb (dist_o d =? o)) bs) (map (fun p => let '(k, c') := p in (k, trim o c')) cs) k =
  filter (fun d => negb (dist_o d =? o)) (cols bs cs k).
Proof.
  intros o bs cs k C. unfold cols. rewrite lookup_trim. destruct (lookup k cs) as [c|] eqn:L; [|reflexivity].
  destruct (C _ _ (lookup_In _ _ _ L)) as (ds & -> & _). rewrite leaves_trim, leaves_prod. reflexivity.
Qed.

Lemma alike_filter : forall o bs ds, alike bs ds -> alike (filter (fun d => negb (dist_o d =? o)) bs) (filter (fun d => negb (dist_o d =? o)) ds).
Proof.
  unfold alike. induction bs as [|b bs IH]; intros [|d ds] E; try discriminate; [reflexivity|]. cbn [map] in E. injection E as E1 E2 E3.
  cbn [filter]. rewrite E1. destruct (negb (dist_o b =? o)); cbn [map]; [rewrite E1, E2; f_equal|]; apply IH; exact E3.
Qed.

Lemma remove_one : forall m o, grown m -> plain m -> o <> label_of m -> exists m', remove_cgpm m o = Ok m' /\ narrowed [o] m m'.
Proof.
  intros m o G (s & bs & cs & r2i & r2c & -> & B & C & K) N. destruct (grown_sound _ G) as [W M].
  cbn [label_of mkview dist_o] in N.
  assert (Cu : cuts o [o] (mkview s bs cs r2i r2c)).
  { unfold mkview. cbn [cuts dist_o]. split; [split; [exact N|intros [X|[]]; congruence]|]. split; [apply prims_cuts|].
    apply each_In. intros [k c] Hk. destruct (C k c Hk) as (ds & -> & _). apply prims_cuts. }
  assert (E := remove_ok o [o] _ W M Cu). 
  set (bs' := filter (fun d => negb (dist_o d =? o)) bs). set (cs' := map (fun p => let '(k, c') := p in (k, trim o c')) cs).
  assert (ET : trim o (mkview s bs cs r2i r2c) = mkview s bs' cs' r2i r2c).
  { unfold mkview. cbn [trim]. change (CProd (filter (fun c' => negb (memb o (outputs c'))) (map CDist bs))) with (trim o (CProd (map CDist bs))).
    rewrite trim_prims. reflexivity. }
  rewrite ET in E. exists (mkview s bs' cs' r2i r2c). split; [exact E|].
  assert (C' : forall k c, In (k, c) cs' -> exists ds, c = CProd (map CDist ds) /\ alike bs' ds).
  { intros k c Hc. unfold cs' in Hc. apply in_map_iff in Hc. destruct Hc as ([k0 c0] & E0 & Hc). injection E0 as <- <-.
    destruct (C _ _ Hc) as (ds & -> & A). exists (filter (fun d => negb (dist_o d =? o)) ds). split; [apply trim_prims|]. apply alike_filter. exact A. }
  assert (CI : forall m2 bs2 cs2, (forall k c, In (k, c) cs2 -> exists ds, c = CProd (map CDist ds) /\ alike bs2 ds) -> m2 = mkview s bs2 cs2 r2i r2c ->
     forall r v, cell m2 r v = match lookup r r2c with Some k => in_column (cols bs2 cs2 k) r v | None => None end).
  { intros m2 bs2 cs2 H -> r v. unfold mkview. cbn [cell]. destruct (lookup r r2c) as [k|]; [|reflexivity]. rewrite component_cols by exact H. rewrite leaves_prod. reflexivity. }
  split; [eapply gr_remove; eassumption|]. split; [|split; [reflexivity|split; [reflexivity|split; [|split; [reflexivity|split]]]]].
  - exists s, bs', cs', r2i, r2c. split; [reflexivity|]. split; [|split; [exact C'|]].
    + intros d Hd. apply filter_In in Hd. apply B. apply Hd.
    + destruct K as (A1 & A2 & A3 & A4 & A5 & A6). repeat (split; [assumption|]). intros r k d Hd Hr. unfold bs', cs' in Hd. rewrite cols_trim in Hd by exact C.
      apply filter_In in Hd. eapply A6; [apply Hd|exact Hr].
  - change (outputs (CProd (map CDist bs')) = without [o] (outputs (CProd (map CDist bs)))). rewrite !outputs_prod. unfold bs', without.
    clear. induction bs as [|b bs IH]; [reflexivity|]. cbn [filter map existsb]. rewrite orb_false_r.
    destruct (negb (dist_o b =? o)); cbn [map]; rewrite IH; reflexivity.
  - intros r v Hv. rewrite (CI _ bs' cs' C' eq_refl), (CI _ bs cs C eq_refl). destruct (lookup r r2c) as [k|]; [|reflexivity].
    unfold bs', cs'. rewrite cols_trim by exact C. apply in_column_trim. intros ->. apply Hv. now left.
  - intros v Hv. unfold mkview. cbn [kind_at]. rewrite !leaves_prod. unfold bs'. rewrite find_trim; [reflexivity|]. intros ->. apply Hv. now left.
Qed.

Lemma without_without : forall a b l, without a (without b l) = without (b ++ a) l.
Proof.
  intros a b l. unfold without. induction l as [|x l IH]; [reflexivity|]. cbn [filter]. rewrite existsb_app, negb_orb.
  destruct (negb (existsb (Z.eqb x) b)); cbn [filter andb]; rewrite IH; reflexivity.
Qed.

Lemma remove_all_ok : forall outs m, grown m -> plain m -> ~ In (label_of m) outs -> exists m', remove_all outs m = Ok m' /\ narrowed outs m m'.
Proof.
  unfold remove_all. induction outs as [|o outs IH]; intros m G P N.
  - exists m. split; [reflexivity|]. split; [exact G|]. split; [exact P|]. repeat split; auto.
    unfold without. cbn [existsb negb]. symmetry. apply filter_all. reflexivity.
  - destruct (remove_one m o G P) as (m1 & E & N1); [intros ->; apply N; now left|].
    destruct N1 as (G1 & P1 & L1 & D1 & C1 & S1 & X1 & K1).
    destruct (IH m1 G1 P1) as (m' & E' & N2); [rewrite L1; intros Y; apply N; now right|].
    destruct N2 as (G2 & P2 & L2 & D2 & C2 & S2 & X2 & K2).
    exists m'. split; [cbn [fold_left obind]; rewrite E; exact E'|]. split; [exact G2|]. split; [exact P2|].
    split; [congruence|]. split; [congruence|]. split; [rewrite C2, C1, without_without; reflexivity|].
    split; [intros; rewrite S2; apply S1|]. split.
    + intros r v Hv. rewrite X2 by (intros Y; apply Hv; now right). apply X1. intros [Y|[]]; apply Hv; now left.
    + intros v Hv. rewrite K2 by (intros Y; apply Hv; now right). apply K1. intros [Y|[]]; apply Hv; now left.
Qed.

(** ** The CrossCat model *)

Lemma sheet_not_prod : forall m, sheet m -> flatten_products [m] = [m].
Proof. intros m Sh. destruct Sh. reflexivity. Qed.

Lemma flatten_views : forall X, (forall m, In m X -> sheet m) -> flatten_products X = X.
Proof.
  induction X as [|m X IH]; intros H; [reflexivity|]. change (m :: X) with ([m] ++ X). rewrite flatten_app.
  rewrite sheet_not_prod by (apply H; now left). f_equal. apply IH. intros; apply H; now right.
Qed.

Lemma crosscat_views : forall X m, crosscat X -> In m X -> good m.
Proof. intros X m C H. apply C. exact H. Qed.

Lemma crosscat_product : forall X, crosscat X -> new_product X = Ok (CProd X).
Proof.
  intros X C. rewrite product_again; [|intros c Hc; apply good_wf, (crosscat_views X c C Hc)|apply C].
  rewrite flatten_views; [reflexivity|]. intros m Hm. apply (crosscat_views X m C Hm).
Qed.

Lemma crosscat_grown : forall X, crosscat X -> grown (CProd X).
Proof.
  intros X C. apply gr_product with X; [|apply crosscat_product; exact C]. intros c Hc. apply (crosscat_views X c C Hc).
Qed.

Lemma crosscat_wf : forall X, crosscat X -> wf (CProd X).
Proof. intros X C. apply (grown_sound _ (crosscat_grown X C)). Qed.

Lemma crosscat_sub : forall l v r, crosscat (l ++ v :: r) -> crosscat (l ++ r).
Proof.
  intros l v r [H ND]. split.
  - intros m Hm. apply H. apply in_app_or in Hm. apply in_or_app. destruct Hm; [now left|right; now right].
  - rewrite flat_map_app in *. cbn [flat_map] in ND. apply (Permutation_NoDup (Permutation_app_swap_app (flat_map outputs l) (outputs v) (flat_map outputs r))) in ND.
    apply NoDup_app_parts in ND. apply ND.
Qed.

Lemma crosscat_remove : forall l v r, crosscat (l ++ v :: r) -> remove_cgpm (CProd (l ++ v :: r)) (label_of v) = Ok (CProd (l ++ r)).
Proof.
  intros l v r C. apply C33_remove_product; [apply crosscat_grown; exact C|].
  assert (G : good v) by (apply (crosscat_views _ v C); apply in_or_app; right; now left).
  rewrite sheet_outputs by apply G. now left.
Qed.

Lemma crosscat_snoc : forall Y q, crosscat Y -> good q -> NoDup (flat_map outputs Y ++ outputs q) -> crosscat (Y ++ [q]).
Proof.
  intros Y q [H ND] G N. split.
  - intros m Hm. apply in_app_or in Hm. destruct Hm as [Hm|[<-|[]]]; [apply H; exact Hm|exact G].
  - rewrite flat_map_app. cbn [flat_map]. rewrite app_nil_r. exact N.
Qed.

Lemma crosscat_add : forall Y q, crosscat (Y ++ [q]) -> add_cgpm (CProd Y) q = Ok (CProd (Y ++ [q])).
Proof. intros Y q C. cbn [add_cgpm]. apply crosscat_product. exact C. Qed.

Lemma crosscat_perm : forall X Y, Permutation X Y -> crosscat X -> crosscat Y.
Proof.
  intros X Y P [H ND]. split.
  - intros m Hm. apply H. apply (Permutation_in _ (Permutation_sym P)). exact Hm.
  - apply (Permutation_NoDup (l := flat_map outputs X)); [|exact ND]. apply Permutation_flat_map. exact P.
Qed.

Lemma crosscat_names : forall X, (forall m, In m X -> sheet m) ->
  Permutation (flat_map outputs X) (map label_of X ++ flat_map columns_of X).
Proof.
  induction X as [|m X IH]; intros H; [constructor|]. cbn [flat_map map]. rewrite sheet_outputs by (apply H; now left).
  cbn [app]. constructor. rewrite (Permutation_app_swap_app (map label_of X) (columns_of m)). apply Permutation_app_head. apply IH. intros; apply H; now right.
Qed.

(** A column is in one view only. *)
Lemma one_view : forall l m r m' o, crosscat (l ++ m :: r) -> In o (outputs m) -> In m' (l ++ r) -> ~ In o (outputs m').
Proof.
  intros l m r m' o [_ ND] Ho Hm Ho'. rewrite flat_map_app in ND. cbn [flat_map] in ND. apply in_app_or in Hm. destruct Hm as [Hm|Hm].
  - apply (NoDup_app_disj _ _ ND o); [apply in_flat_map; eauto|]. apply in_or_app. now left.
  - apply NoDup_app_parts in ND. destruct ND as [_ ND]. apply (NoDup_app_disj _ _ ND o Ho). apply in_flat_map. eauto.
Qed.

Lemma column_output : forall m o, sheet m -> In o (columns_of m) -> In o (outputs m).
Proof. intros m o Sh H. rewrite sheet_outputs by exact Sh. now right. Qed.

Lemma holds_column : forall m r o x, good m -> cell m r o = Some x -> In o (columns_of m).
Proof.
  intros m r o x G E. destruct (in_dec Z.eq_dec o (columns_of m)) as [Y|Y]; [exact Y|].
  rewrite cell_outside in E; [discriminate|apply good_wf; exact G|apply G|exact Y].
Qed.

Lemma kind_at_column : forall m o K, good m -> kind_at m o = Some K -> In o (columns_of m).
Proof.
  intros m o K (_ & Sh & _) E. destruct (sheet_inv m Sh) as (s & bs & cs & r2i & r2c & -> & _). unfold mkview in E. cbn [kind_at] in E.
  rewrite leaves_prod in E. destruct (find _ bs) as [d|] eqn:F; [|discriminate]. apply find_some in F. destruct F as [Hd Ed]. apply Z.eqb_eq in Ed.
  change (In o (outputs (CProd (map CDist bs)))). rewrite outputs_prod, <- Ed. now apply in_map.
Qed.

(** ** Finding the view of the columns *)

Lemma enum_from_app : forall {A} (l r : list A) i, enum_from i (l ++ r) = enum_from i l ++ enum_from (i + List.length l) r.
Proof.
  induction l as [|a l IH]; intros r i; cbn [app enum_from List.length]; [rewrite Nat.add_0_r; reflexivity|]. rewrite IH. replace (S i + List.length l)%nat with (i + S (List.length l))%nat by lia. reflexivity.
Qed.

Lemma enum_none : forall o l i, (forall m, In m l -> ~ In o (outputs m)) -> filter (fun p : nat * cgpm => memb o (outputs (snd p))) (enum_from i l) = [].
Proof.
  induction l as [|m l IH]; intros i H; [reflexivity|]. cbn [enum_from filter snd]. rewrite (proj2 (memb_false _ _) (H m (or_introl eq_refl))).
  apply IH. intros; apply H; now right.
Qed.

Lemma index_one : forall l m r o, crosscat (l ++ m :: r) -> In o (outputs m) ->
  map fst (filter (fun p : nat * cgpm => memb o (outputs (snd p))) (enum_from 0 (l ++ m :: r))) = [List.length l].
Proof.
  intros l m r o C Ho. rewrite enum_from_app, filter_app. cbn [enum_from filter snd]. rewrite (proj2 (memb_In _ _) Ho).
  rewrite !enum_none; [reflexivity| |]; intros m' Hm'; apply (one_view l m r m' o C Ho); apply in_or_app; auto.
Qed.

Lemma index_ok : forall l m r outs, crosscat (l ++ m :: r) -> outs <> [] -> (forall o, In o outs -> In o (outputs m)) ->
  get_cgpm_current_view_index (CProd (l ++ m :: r)) outs = Ok (List.length l).
Proof.
  intros l m r outs C NE H. unfold get_cgpm_current_view_index. cbn [views_of].
  assert (E : flat_map (fun o => map fst (filter (fun p : nat * cgpm => memb o (outputs (snd p))) (enum_from 0 (l ++ m :: r)))) outs = map (fun _ => List.length l) outs).
  { clear NE. induction outs as [|o outs IH]; [reflexivity|]. cbn [flat_map map]. rewrite (index_one l m r o C) by (apply H; now left).
    rewrite IH by (intros; apply H; now right). reflexivity. }
  rewrite E. destruct outs as [|o outs]; [congruence|]. cbn [map].
  replace (forallb _ _) with true; [reflexivity|]. symmetry. apply forallb_forall. intros i [<-|Hi]; [apply Nat.eqb_refl|].
  apply in_map_iff in Hi. destruct Hi as (_ & <- & _). apply Nat.eqb_refl.
Qed.

Lemma modelling_view : forall l m r o, crosscat (l ++ m :: r) -> In o (outputs m) -> modelling (CProd (l ++ m :: r)) o = modelling m o.
Proof.
  intros l m r o C Ho. rewrite modelling_prod, flat_map_app. cbn [flat_map].
  assert (X : forall L, (forall m', In m' L -> In m' (l ++ r)) -> flat_map (fun c => modelling c o) L = []).
  { induction L as [|a L IH]; intros H; [reflexivity|]. cbn [flat_map]. rewrite IH by (intros; apply H; now right). rewrite app_nil_r.
    apply modelling_none; [|apply (one_view l m r a o C Ho), H; now left]. apply good_wf, (crosscat_views _ _ C).
    assert (Y := H a (or_introl eq_refl)). apply in_app_or in Y. apply in_or_app. destruct Y; [now left|right; now right]. }
  rewrite !X, app_nil_r; [reflexivity| |]; intros; apply in_or_app; auto.
Qed.

(** The bases and the data of the columns [outs] of the view [m]. *)
Definition cells_of (m : cgpm) (outs : list Z) : list (Z * Z * val) := flat_map (fun o => triples o (modelling m o)) outs.

Lemma cells_of_ok : forall m outs r o x, good m -> (forall o, In o outs -> In o (columns_of m)) ->
  (In (r, o, x) (cells_of m outs) <-> In o outs /\ cell m r o = Some x).
Proof.
  intros m outs r o x G H. unfold cells_of. rewrite in_flat_map. split.
  - intros (o' & Ho & Ht). apply In_triples in Ht. destruct Ht as (-> & Hd). split; [exact Ho|].
    destruct (column_data m o' G (H _ Ho)) as (K & _ & _ & _ & _ & X & _). apply X. exact Hd.
  - intros (Ho & E). exists o. split; [exact Ho|]. apply In_triples. split; [reflexivity|].
    destruct (column_data m o G (H _ Ho)) as (K & _ & _ & _ & _ & X & _). apply X. exact E.
Qed.

Lemma cells_of_NoDup : forall m outs, good m -> (forall o, In o outs -> In o (columns_of m)) -> NoDup outs -> NoDup (map fst (cells_of m outs)).
Proof.
  intros m outs G H ND. unfold cells_of. induction outs as [|o outs IH]; [constructor|]. cbn [flat_map]. rewrite map_app.
  inversion ND as [|? ? N ND']; subst. apply NoDup_app_intro.
  - rewrite fst_triples. destruct (column_data m o G (H _ (or_introl eq_refl))) as (K & _ & _ & _ & _ & _ & X). revert X.
    generalize (flat_map (fun d => keys (dist_data d)) (modelling m o)). clear. induction l as [|a l IH]; intros ND; [constructor|].
    inversion ND as [|? ? N ND']; subst. cbn [map]. constructor; [|apply IH; exact ND']. intros Y. apply in_map_iff in Y.
    destruct Y as (b & E & Hb). injection E as ->. contradiction.
  - apply IH; [intros; apply H; now right|exact ND'].
  - intros p Hp Hp'. apply in_map_iff in Hp, Hp'. destruct Hp as ([[r1 o1] x1] & <- & Hp), Hp' as ([[r2 o2] x2] & E2 & Hp'). cbn [fst] in E2.
    injection E2 as <- <-. apply In_triples in Hp. destruct Hp as [-> _]. apply in_flat_map in Hp'. destruct Hp' as (o' & Ho' & Hp').
    apply In_triples in Hp'. destruct Hp' as [E _]. subst o'. contradiction.
Qed.

Lemma dataset_ok : forall l m r o, crosscat (l ++ m :: r) -> In o (columns_of m) ->
  get_dataset (CProd (l ++ m :: r)) o = Ok (entries (triples o (modelling m o))).
Proof.
  intros l m r o C Ho. assert (G : good m) by (apply (crosscat_views _ m C); apply in_or_app; right; now left).
  assert (Ho' := column_output m o (proj1 (proj2 G)) Ho).
  unfold get_dataset. rewrite find_ok; [|apply crosscat_wf; exact C|cbn [outputs]; apply in_flat_map; exists m; split; [apply in_or_app; right; now left|exact Ho']].
  rewrite (modelling_view l m r o C Ho'). cbn [obind]. apply f_equal. destruct (column_data m o G Ho) as (K & _ & _ & X & _).
  unfold entries, triples. revert X. generalize (modelling m o). induction l0 as [|d l0 IH]; intros X; [reflexivity|]. cbn [flat_map]. rewrite map_app.
  apply (f_equal2 (@app (Z * row))); [|apply IH; intros; apply X; now right]. rewrite map_map. apply map_ext. intros [r' x]. rewrite (proj1 (X d (or_introl eq_refl))). reflexivity.
Qed.

(** What get_cgpm_base returns: the column without any data. *)
Definition blank (m : cgpm) (o : Z) (d : dist) : Prop :=
  reachable d /\ dist_data d = [] /\ kind_of d <> KTable /\ dist_o d = o /\ kind_at m o = Some (kind_of d).

Lemma base_ok : forall l m r o, crosscat (l ++ m :: r) -> In o (columns_of m) ->
  exists d, get_cgpm_base (CProd (l ++ m :: r)) o = Ok d /\ blank m o d.
Proof.
  intros l m r o C Ho. assert (G : good m) by (apply (crosscat_views _ m C); apply in_or_app; right; now left).
  assert (Ho' := column_output m o (proj1 (proj2 G)) Ho).
  unfold get_cgpm_base. rewrite find_ok; [|apply crosscat_wf; exact C|cbn [outputs]; apply in_flat_map; exists m; split; [apply in_or_app; right; now left|exact Ho']].
  rewrite (modelling_view l m r o C Ho'). cbn [obind]. destruct (column_data m o G Ho) as (K & KA & KT & X & (b & Hb & Eb) & _).
  destruct (filter _ (modelling m o)) as [|d ds] eqn:F.
  - exfalso. assert (Y : In b (filter (fun d => match dist_data d with [] => true | _ => false end) (modelling m o))) by (apply filter_In; rewrite Eb; auto).
    rewrite F in Y. destruct Y.
  - exists d. split; [reflexivity|]. assert (Y : In d (filter (fun d => match dist_data d with [] => true | _ => false end) (modelling m o))) by (rewrite F; now left).
    apply filter_In in Y. destruct Y as [Hd Z0]. destruct (X d Hd) as (X1 & X2 & X3). assert (ED : dist_data d = []) by (destruct (dist_data d); [reflexivity|discriminate]).
    split; [apply empty_reachable; auto; congruence|]. repeat split; auto; congruence.
Qed.

Lemma bases_ok : forall l m r outs, crosscat (l ++ m :: r) -> (forall o, In o outs -> In o (columns_of m)) ->
  exists D, oseq (map (get_cgpm_base (CProd (l ++ m :: r))) outs) = Ok D /\ Forall2 (blank m) outs D.
Proof.
  intros l m r outs C. induction outs as [|o outs IH]; intros H; [exists []; split; [reflexivity|constructor]|].
  destruct (base_ok l m r o C (H _ (or_introl eq_refl))) as (d & E & B). destruct IH as (D & E' & F); [intros; apply H; now right|].
  exists (d :: D). split; [cbn [map oseq]; rewrite E; cbn [obind]; rewrite E'; reflexivity|constructor; assumption].
Qed.

Lemma datasets_ok : forall l m r outs, crosscat (l ++ m :: r) -> (forall o, In o outs -> In o (columns_of m)) ->
  exists L, oseq (map (get_dataset (CProd (l ++ m :: r))) outs) = Ok L /\ List.concat L = entries (cells_of m outs).
Proof.
  intros l m r outs C. induction outs as [|o outs IH]; intros H; [exists []; split; reflexivity|].
  destruct IH as (D & E' & F); [intros; apply H; now right|].
  eexists. split; [cbn [map oseq]; rewrite (dataset_ok l m r o C (H _ (or_introl eq_refl))); cbn [obind]; rewrite E'; reflexivity|].
  cbn [List.concat]. rewrite F. unfold cells_of, entries. cbn [flat_map]. rewrite map_app. reflexivity.
Qed.

Lemma blanks : forall m outs D, good m -> (forall o, In o outs -> In o (columns_of m)) -> NoDup outs -> Forall2 (blank m) outs D ->
  map dist_o D = outs /\ (forall d, In d D -> reachable d /\ dist_data d = [] /\ kind_of d <> KTable /\ kind_at m (dist_o d) = Some (kind_of d)) /\
  suits D (cells_of m outs).
Proof.
  intros m outs D G H ND F.
  assert (E : map dist_o D = outs).
  { clear - F. induction F as [|o d outs D (_ & _ & _ & E & _) F IH]; [reflexivity|]. cbn [map]. rewrite E, IH. reflexivity. }
  assert (X : forall d, In d D -> reachable d /\ dist_data d = [] /\ kind_of d <> KTable /\ kind_at m (dist_o d) = Some (kind_of d)).
  { clear - F. induction F as [|o d outs D (B1 & B2 & B3 & E & B4) F IH]; intros x Hx; [destruct Hx|]. destruct Hx as [<-|Hx]; [subst o; auto|apply IH; exact Hx]. }
  split; [exact E|]. split; [exact X|]. split; [|apply cells_of_NoDup; assumption].
  intros r o x Ht. apply cells_of_ok in Ht; auto. destruct Ht as [Ho Ec]. rewrite <- E in Ho. apply in_map_iff in Ho. destruct Ho as (d & <- & Hd).
  exists d. split; [exact Hd|]. split; [reflexivity|]. destruct (X d Hd) as (_ & _ & _ & KA).
  assert (Hc := holds_column m r _ x G Ec). destruct (column_data m (dist_o d) G Hc) as (K & KA' & _ & Xd & _ & Y & _).
  apply Y in Ec. destruct Ec as (b & Hb & Hx). destruct (Xd b Hb) as (_ & Db & Kb). assert (EK : kind_of b = kind_of d) by congruence.
  rewrite <- EK. apply (leaf_typed b r x Db); [rewrite EK; apply X; exact Hd|]. apply In_lookup; [apply dinv_keys; exact Db|exact Hx].
Qed.
