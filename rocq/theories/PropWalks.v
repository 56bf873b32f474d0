(** Properties C33-C35: adding, removing and finding columns. Statements use the model of the
    API (Cgpm.v, Walks.v) and the specification (SpecComp.v, SpecTable.v, SpecWalks.v). *)
From Coq Require Import List ZArith QArith Qcanon Reals Bool String Permutation Lia Lra.
From Verif Require Import Base Xr Samp Lgamma Prims Cgpm Lib SpecPrims PrimsInv SpecComp CompInv CompDens CompThm
  PropPrims DemoComp SpecBook SpecTable Meta MetaThm PropTable Walks SpecWalks WalksThm.
Import ListNotations.
Local Open Scope Z_scope.

Lemma demo_sheet : sheet demo_view.
Proof. exact (proj1 (proj2 demo_view_good)). Qed.

(** ** C33 *)

(** remove_cgpm gives a model with the columns that are left. Of every column but the removed
    ones it has the same primitives (data, hyperparameters, statistics), in every component
    and in the base; of the removed ones it has none. Queries about the other columns have the
    same answers: those for a new row always, those for recorded rows if no finite mixture is
    rebuilt (for which see C35). *)
Theorem C33_remove : forall c o D, grown c -> cuts o D c -> exists c',
  remove_cgpm c o = Ok c' /\
  outputs c' = without D (outputs c) /\
  (forall v, ~ In v D -> modelling c' v = modelling c v) /\
  (forall v, In v D -> modelling c' v = []) /\
  (forall rid T C ins, rid = None \/ steady c -> avoids D T -> avoids D C -> avoids D ins ->
     logpdf c' rid T C ins = logpdf c rid T C ins) /\
  grown c'.
Proof.
  intros c o D G Cu. destruct (grown_sound c G) as [W M]. assert (E := remove_ok o D c W M Cu).
  assert (SH := trim_shrunk o D c W M Cu). exists (trim o c). split; [exact E|].
  split; [apply shrunk_outputs; exact SH|]. assert (MO := shrunk_modelling D c (trim o c) SH W).
  split; [|split; [|split]].
  - intros v Hv. rewrite MO, (proj2 (inb_false v D) Hv). reflexivity.
  - intros v Hv. rewrite MO, (proj2 (inb_true v D) Hv). reflexivity.
  - intros rid T C ins R0 HT HC HI. apply (shrunk_logpdf D c (trim o c) SH); assumption.
  - exact (gr_remove c o D _ G Cu E).
Qed.
Print Assumptions C33_remove.


Example C33_remove_case : grown demo_view /\ cuts 1 [1] demo_view /\ steady demo_view /\
  modelling demo_view 1 <> [] /\ grown demo_finite /\ cuts 2 [2] demo_finite.
Proof.
  split; [exact (creachable_grown _ (proj1 demo_view_reachable))|]. split; [vm_compute; intuition congruence|]. split; [vm_compute; tauto|].
  split; [vm_compute; discriminate|]. split; [exact (creachable_grown _ (proj1 demo_finite_reachable))|]. vm_compute; intuition congruence.
Qed.

(** From a Product exactly the child that has the column goes; without such a child nothing
    happens. *)
Theorem C33_remove_product : forall l c r o, grown (CProd (l ++ c :: r)) -> In o (outputs c) ->
  remove_cgpm (CProd (l ++ c :: r)) o = Ok (CProd (l ++ r)).
Proof.
  intros l c r o G V. destruct (grown_sound _ G) as [W M].
  assert (ND : NoDup (flat_map outputs (l ++ c :: r))) by (inversion W; assumption).
  assert (X : forall c', In c' (l ++ r) -> ~ In o (outputs c')).
  { intros c' Hc' Y. rewrite flat_map_app in ND. cbn [flat_map] in ND. apply in_app_or in Hc'. destruct Hc' as [Hc'|Hc'].
    - apply (NoDup_app_disj _ _ ND o); [apply in_flat_map; eauto|]. apply in_or_app. now left.
    - apply NoDup_app_parts in ND. destruct ND as [_ ND]. apply (NoDup_app_disj _ _ ND o V). apply in_flat_map. eauto. }
  assert (Cu : cuts o (outputs c) (CProd (l ++ c :: r))).
  { cbn [cuts]. apply each_In. intros c' Hc'. destruct (in_dec Z.eq_dec o (outputs c')) as [Y|Y].
    - split; [intros _|contradiction]. apply in_app_or in Hc'. destruct Hc' as [Hc'|[<-|Hc']]; [exfalso|reflexivity|exfalso];
        (apply (X c'); [apply in_or_app; auto|exact Y]).
    - split; [contradiction|]. intros _ v Hv Hv'. assert (N : c' <> c) by congruence.
      rewrite flat_map_app in ND. cbn [flat_map] in ND. apply in_app_or in Hc'. destruct Hc' as [Hc'|[E|Hc']]; [|congruence|].
      + apply (NoDup_app_disj _ _ ND v); [apply in_flat_map; eauto|]. apply in_or_app. now left.
      + apply NoDup_app_parts in ND. destruct ND as [_ ND]. apply (NoDup_app_disj _ _ ND v Hv'). apply in_flat_map. eauto. }
  rewrite (remove_ok o _ _ W M Cu). cbn [trim]. rewrite filter_app. cbn [filter].
  rewrite (proj2 (memb_In o (outputs c)) V). cbn [negb]. rewrite <- filter_app, filter_all; [reflexivity|].
  intros c' Hc'. apply negb_true_iff, memb_false. auto.
Qed.
Print Assumptions C33_remove_product.

Theorem C33_remove_absent : forall cs o, grown (CProd cs) -> ~ In o (outputs (CProd cs)) ->
  remove_cgpm (CProd cs) o = Ok (CProd cs).
Proof.
  intros cs o G N. destruct (grown_sound _ G) as [W M].
  assert (X : forall c', In c' cs -> ~ In o (outputs c')) by (intros c' Hc' Y; apply N; cbn [outputs]; apply in_flat_map; eauto).
  rewrite (remove_ok o [] _ W M); [|cbn [cuts]; apply each_In; intros c' Hc'; split; [intros Y; exfalso; apply (X c' Hc' Y)|intros _ v _ []]].
  cbn [trim]. rewrite filter_all; [reflexivity|]. intros c' Hc'. apply negb_true_iff, memb_false. auto.
Qed.
Print Assumptions C33_remove_absent.

Example C33_remove_product_case : grown demo_base /\ demo_base = CProd ([] ++ CDist cat1 :: [CDist ber2]) /\ In 1 (outputs (CDist cat1)) /\
  ~ In 5 (outputs demo_base).
Proof. split; [exact (creachable_grown _ base_reachable)|]. split; [reflexivity|]. cbn. intuition lia. Qed.

(** Removing a column from a view leaves every other cell, every cluster and every column
    type as it was. *)
Theorem C33_remove_view : forall m o, grown m -> sheet m -> In o (columns_of m) -> exists m',
  remove_cgpm m o = Ok m' /\ label_of m' = label_of m /\ divider m' = divider m /\
  columns_of m' = without [o] (columns_of m) /\
  (forall r, seat m' r = seat m r) /\
  (forall r v, v <> o -> cell m' r v = cell m r v) /\
  (forall r, cell m' r o = None) /\
  (forall v, v <> o -> kind_at m' v = kind_at m v).
Proof.
  intros m o G Sh V. destruct (grown_sound _ G) as [W M].
  assert (Cu := sheet_cuts m o W Sh V). assert (E := remove_ok o [o] m W M Cu). exists (trim o m). split; [exact E|].
  destruct Sh as [s bs cs r2i r2c NE Hb Hc].
  cbn [trim]. change (CProd (filter (fun c' => negb (memb o (outputs c'))) (map CDist bs))) with (trim o (CProd (map CDist bs))).
  cbn [label_of divider columns_of seat cell kind_at component_at].
  split; [reflexivity|]. split; [reflexivity|]. split; [|split; [|split; [|split]]].
  - inversion W as [| | |div0 b0 cs0 r1 r2 Dd HS Wb NI NDk Wc OO]; subst. destruct M as [_ M]. rewrite maps_flex in M.
    apply (shrunk_outputs _ _ _ (trim_shrunk o [o] _ Wb (proj1 (proj2 M)) (prims_cuts o bs))).
  - reflexivity.
  - intros r v Nv. destruct (lookup r r2c) as [k|]; [|reflexivity]. rewrite lookup_trim.
    destruct (lookup k cs) as [c|] eqn:L.
    + destruct (Hc k c (lookup_In _ _ _ L)) as (ds & -> & _). rewrite leaves_trim, leaves_prims. apply in_column_trim. exact Nv.
    + rewrite leaves_trim, leaves_prims. apply in_column_trim. exact Nv.
  - intros r. destruct (lookup r r2c) as [k|]; [|reflexivity]. rewrite lookup_trim.
    destruct (lookup k cs) as [c|] eqn:L.
    + destruct (Hc k c (lookup_In _ _ _ L)) as (ds & -> & _). rewrite leaves_trim. apply in_column_gone.
    + rewrite leaves_trim. apply in_column_gone.
  - intros v Nv. rewrite leaves_trim, leaves_prims, find_trim by exact Nv. reflexivity.
Qed.
Print Assumptions C33_remove_view.

(** add_cgpm appends the columns. Every column there was keeps its primitives, every new one
    is modelled, in each Product below the mixtures, by the primitive it comes with. Queries
    about the old columns have the same answers. *)
Theorem C33_add : forall c new, grown c -> grown new -> open c -> NoDup (outputs c ++ outputs new) -> exists c',
  add_cgpm c new = Ok c' /\
  outputs c' = outputs c ++ outputs new /\
  (forall v, ~ In v (outputs new) -> modelling c' v = modelling c v) /\
  (forall v, In v (outputs new) -> exists n, (0 < n)%nat /\ modelling c' v = List.concat (repeat (modelling new v) n)) /\
  (forall rid T C ins, rid = None \/ steady c -> avoids (outputs new) T -> avoids (outputs new) C -> avoids (outputs new) ins ->
     logpdf c' rid T C ins = logpdf c rid T C ins) /\
  grown c'.
Proof.
  intros c new G Gn Op ND. destruct (grown_sound c G) as [W M], (grown_sound new Gn) as [Wn Mn].
  assert (E := add_ok new c W M Wn Mn Op ND). assert (SH := grow_shrunk new c W M Wn Mn Op ND).
  destruct (grow_wf new c W M Wn Mn Op ND) as [Wg Mg].
  exists (grow new c). split; [exact E|]. split; [apply grow_outputs; assumption|]. split; [|split; [|split]].
  - intros v Hv. assert (X := shrunk_modelling _ _ _ SH Wg v). rewrite (proj2 (inb_false _ _) Hv) in X. symmetry. exact X.
  - intros v Hv. apply grow_modelling; auto. intros Y. apply (NoDup_app_disj _ _ ND v Y Hv).
  - intros rid T C ins R0 HT HC HI. symmetry. apply (shrunk_logpdf _ _ _ SH); auto.
    destruct R0 as [R0|R0]; [now left|right]. apply steady_grow; assumption.
  - exact (gr_add c new _ G Gn ND E).
Qed.
Print Assumptions C33_add.

(** A new column of a view is empty in every row, and nothing else changes. *)
Theorem C33_add_view : forall m d, grown m -> sheet m -> reachable d -> dist_data d = [] -> kind_of d <> KTable ->
  ~ In (dist_o d) (outputs m) -> exists m',
  add_cgpm m (CDist d) = Ok m' /\ sheet m' /\ label_of m' = label_of m /\ divider m' = divider m /\
  columns_of m' = columns_of m ++ [dist_o d] /\
  (forall r, seat m' r = seat m r) /\
  (forall r v, v <> dist_o d -> cell m' r v = cell m r v) /\
  (forall r, cell m' r (dist_o d) = None) /\
  (forall v, v <> dist_o d -> kind_at m' v = kind_at m v) /\ kind_at m' (dist_o d) = Some (kind_of d).
Proof.
  intros m d G Sh Rd E0 K N. destruct (grown_sound _ G) as [W M].
  assert (Op := sheet_open m Sh).
  assert (ND : NoDup (outputs m ++ outputs (CDist d))).
  { apply WalksThm.NoDup_snoc; [apply wf_outputs_NoDup; exact W|exact N]. }
  assert (Wd : wf (CDist d)) by (constructor; apply reachable_dinv; exact Rd).
  assert (E := add_ok (CDist d) m W M Wd Logic.I Op ND). exists (grow (CDist d) m). split; [exact E|].
  assert (GO := grow_outputs (CDist d) m W Op).
  assert (WO := W).
  destruct Sh as [s bs cs r2i r2c NE Hb Hc].
  cbn [grow]. change (CProd (map CDist bs ++ parts (CDist d))) with (grow (CDist d) (CProd (map CDist bs))).
  cbn [label_of divider columns_of seat cell kind_at component_at].
  inversion WO as [| | |div0 b0 cs0 r1 r2 Dd HS Wb NI NDk Wc OO]; subst.
  assert (Nd : forall ds, alike bs ds -> ~ In (dist_o d) (map dist_o ds)).
  { intros ds A X. apply N. change (In (dist_o d) (crp_o s :: outputs (CProd (map CDist bs)))). right. rewrite outputs_prims.
    replace (map dist_o bs) with (map dist_o ds); [exact X|]. apply alike_columns in A. exact A. }
  assert (EP : forall ds, grow (CDist d) (CProd (map CDist ds)) = CProd (map CDist (ds ++ [d]))).
  { intros ds. cbn [grow parts]. rewrite map_app. reflexivity. }
  split; [|split; [|split; [|split; [|split; [|split; [|split; [|split]]]]]]].
  - rewrite EP. constructor.
    + destruct bs; discriminate.
    + intros x Hx. apply in_app_or in Hx. destruct Hx as [Hx|[<-|[]]]; auto.
    + intros k c Hk. apply in_map_iff in Hk. destruct Hk as ([k0 c0] & E2 & Hk). injection E2 as <- <-.
      destruct (Hc k0 c0 Hk) as (ds & -> & A). exists (ds ++ [d]). split; [apply EP|]. unfold alike in *. rewrite !map_app, A. reflexivity.
  - reflexivity.
  - reflexivity.
  - change (outputs (grow (CDist d) (CProd (map CDist bs))) = outputs (CProd (map CDist bs)) ++ [dist_o d]).
    rewrite EP, !outputs_prims, map_app. reflexivity.
  - reflexivity.
  - intros r v Nv. destruct (lookup r r2c) as [k|]; [|reflexivity]. rewrite lookup_grow.
    destruct (lookup k cs) as [c|] eqn:L.
    + destruct (Hc k c (lookup_In _ _ _ L)) as (ds & -> & _). rewrite EP, !leaves_prims. apply in_column_snoc. exact Nv.
    + rewrite EP, !leaves_prims. apply in_column_snoc. exact Nv.
  - intros r. destruct (lookup r r2c) as [k|]; [|reflexivity]. rewrite lookup_grow.
    destruct (lookup k cs) as [c|] eqn:L.
    + destruct (Hc k c (lookup_In _ _ _ L)) as (ds & -> & A). rewrite EP, !leaves_prims. unfold in_column.
      rewrite find_new by (apply Nd; exact A). rewrite E0. reflexivity.
    + rewrite EP, !leaves_prims. unfold in_column. rewrite find_new by (apply Nd; reflexivity). rewrite E0. reflexivity.
  - intros v Nv. rewrite EP, !leaves_prims, find_snoc by exact Nv. reflexivity.
  - rewrite EP, !leaves_prims, find_new by (apply Nd; reflexivity). reflexivity.
Qed.
Print Assumptions C33_add_view.

(** Removing what was added (anything but a Product, whose children would be added one by
    one) gives back the model: exactly, if no finite mixture is rebuilt; otherwise up to the
    row assignments the finite mixtures have lost. *)
Theorem C33_remove_after_add : forall c new o, grown c -> grown new -> open c -> (forall l, new <> CProd l) ->
  NoDup (outputs c ++ outputs new) -> In o (outputs new) -> exists c1 c2,
  add_cgpm c new = Ok c1 /\ remove_cgpm c1 o = Ok c2 /\
  (steady c -> c2 = c) /\ c2 = forget c /\ outputs c2 = outputs c /\ prims c2 = prims c /\
  (forall T C ins, logpdf c2 None T C ins = logpdf c None T C ins).
Proof.
  intros c new o G Gn Op P ND V. destruct (grown_sound c G) as [W M], (grown_sound new Gn) as [Wn Mn].
  assert (Pn : is_prod new = false) by (destruct new; try reflexivity; exfalso; apply (P cs); reflexivity).
  destruct (grow_wf new c W M Wn Mn Op ND) as [Wg Mg].
  exists (grow new c), (forget c). split; [apply add_ok; assumption|]. split.
  - rewrite (remove_ok o (outputs new) _ Wg Mg (grow_cuts new o c W Op Pn V ND)).
    rewrite trim_grow; auto. intros Y. apply (NoDup_app_disj _ _ ND o Y V).
  - split; [apply forget_steady|]. split; [reflexivity|]. split; [apply forget_outputs|]. split; [apply forget_prims|].
    intros T C ins. apply (shrunk_logpdf [] c (forget c) (shrunk_forget c W Op)); [now left| | |]; intros k [].
Qed.
Print Assumptions C33_remove_after_add.

Example C33_add_case : grown demo_view /\ sheet demo_view /\ In 1 (columns_of demo_view) /\ open demo_view /\ steady demo_view /\
  grown demo_finite /\ open demo_finite /\ reachable (DBer (ber_new 4 1%Qc half)) /\ ~ In 4 (outputs demo_view) /\
  NoDup (outputs demo_finite ++ [4]).
Proof.
  split; [exact (creachable_grown _ (proj1 demo_view_reachable))|]. split; [exact demo_sheet|]. split; [vm_compute; tauto|].
  split; [vm_compute; tauto|]. split; [vm_compute; tauto|]. split; [exact (creachable_grown _ (proj1 demo_finite_reachable))|].
  split; [vm_compute; tauto|]. split; [exists (DBer (ber_new 4 1%Qc half)), []; split; [apply fresh_ber; [exact one_pos|exact half_pos]|reflexivity]|].
  split; [vm_compute; intuition lia|]. vm_compute. repeat constructor; cbn; intuition lia.
Qed.

(** The row divider of a mixture is not looked at when a column is added: one with the
    divider's own label is accepted, and the label then occurs twice among the outputs. *)
Theorem C33_label_refuted : exists m d m', creachable m /\ reachable d /\ sheet m /\ dist_o d = label_of m /\
  add_cgpm m (CDist d) = Ok m' /\ ~ NoDup (outputs m').
Proof.
  exists demo_view, (DBer (ber_new 9 1%Qc half)). eexists. split; [exact (proj1 demo_view_reachable)|].
  split; [exists (DBer (ber_new 9 1%Qc half)), []; split; [apply fresh_ber; [exact one_pos|exact half_pos]|reflexivity]|].
  split; [exact demo_sheet|]. split; [reflexivity|]. split; [vm_compute; reflexivity|].
  vm_compute. intros ND. inversion ND as [|x l N _]; subst. apply N. right. right. now left.
Qed.
Print Assumptions C33_label_refuted.

(** ** C34 *)

(** get_cgpms_by_output_index returns every primitive of the model that has the column, in
    every component and in the base, however the model is nested. *)
Theorem C34_complete : forall c o, grown c -> In o (outputs c) ->
  get_cgpms_by_output_index c o = Ok (modelling c o) /\
  forall d, In d (modelling c o) <-> In d (prims c) /\ dist_o d = o.
Proof.
  intros c o G V. destruct (grown_sound c G) as [W M]. split; [apply find_ok; assumption|].
  intros d. unfold modelling. rewrite filter_In, Z.eqb_eq. reflexivity.
Qed.
Print Assumptions C34_complete.

(** In a view these are one per cluster, with the data of the cluster, and that of the base. *)
Theorem C34_view : forall m o, grown m -> sheet m -> In o (columns_of m) -> exists ds b,
  get_cgpms_by_output_index m o = Ok (map snd ds ++ [b]) /\
  (forall k d, lookup k ds = Some d -> dist_o d = o) /\ dist_o b = o /\ Some (kind_of b) = kind_at m o /\
  forall r k, seat m r = Some k -> cell m r o = lookup r (dist_data (match lookup k ds with Some d => d | None => b end)).
Proof.
  intros m o G Sh V. destruct (grown_sound _ G) as [W M].
  destruct Sh as [s bs cs r2i r2c NE Hb Hc]. cbn [columns_of outputs] in V. cbn [kind_at seat cell component_at].
  inversion W as [| | |div0 b0 cs0 r1 r2 Dd HS Wb NI NDk Wc OO]; subst.
  assert (V' : In o (map dist_o bs)) by (rewrite <- outputs_prims; exact V).
  assert (NDb : NoDup (map dist_o bs)) by (rewrite <- outputs_prims; apply (wf_outputs_NoDup _ Wb)).
  destruct (find_column bs o V') as (b & Fb & Eb).
  assert (Y : exists ds, flat_map (fun p => modelling (snd p) o) cs = map snd ds /\ keys ds = keys cs /\
    forall k c, lookup k cs = Some c -> exists d, lookup k ds = Some d /\ find (fun d => dist_o d =? o) (leaves c) = Some d).
  { clear - Hc V' NDb. induction cs as [|[k c] cs IH]; [exists []; split; [reflexivity|split; [reflexivity|discriminate]]|].
    destruct IH as (ds & E1 & E2 & E3); [intros; eapply Hc; right; eassumption|].
    destruct (Hc k c (or_introl eq_refl)) as (l & -> & A). apply alike_columns in A.
    destruct (find_column l o) as (d & Fd & Ed); [rewrite A; exact V'|].
    exists ((k, d) :: ds). split; [|split].
    - cbn [flat_map map snd]. rewrite E1, modelling_prims, (one_column l o d) by (first [rewrite A; exact NDb|exact Fd]). reflexivity.
    - cbn. unfold keys in E2. rewrite E2. reflexivity.
    - intros k' c'. cbn [lookup]. destruct (eq_dec k' k); [|apply E3]. intros [= <-]. exists d. split; [reflexivity|]. rewrite leaves_prims. exact Fd. }
  destruct Y as (ds & E1 & E2 & E3). exists ds, b.
  assert (Ne : (crp_o s =? o) = false) by (apply Z.eqb_neq; intros <-; apply NI; exact V).
  split; [|split; [|split; [exact Eb|split]]].
  - rewrite find_ok by (first [exact W | cbn [outputs]; right; exact V]). f_equal. rewrite modelling_flex. cbn [dist_o]. rewrite Ne. cbn [app].
    rewrite E1, modelling_prims, (one_column bs o b NDb Fb). reflexivity.
  - intros k d L. assert (Hk : In k (keys cs)) by (rewrite <- E2; eapply lookup_Some_keys; exact L).
    destruct (lookup k cs) as [c|] eqn:Lc; [|apply lookup_None in Lc; contradiction].
    destruct (E3 k c Lc) as (d' & L' & F). rewrite L in L'. injection L' as <-. apply find_some in F. apply Z.eqb_eq, F.
  - rewrite leaves_prims, Fb. reflexivity.
  - intros r k L. rewrite L. unfold in_column. destruct (lookup k cs) as [c|] eqn:Lc.
    + destruct (E3 k c Lc) as (d & -> & ->). reflexivity.
    + assert (L' : lookup k ds = None) by (apply lookup_None; rewrite E2; apply lookup_None; exact Lc).
      rewrite L', leaves_prims, Fb. reflexivity.
Qed.
Print Assumptions C34_view.

Example C34_case : grown demo_view /\ sheet demo_view /\ In 2 (columns_of demo_view) /\ List.length (modelling demo_view 2) = 3%nat /\
  grown demo_nested /\ In 1 (outputs demo_nested) /\ (1 < List.length (modelling demo_nested 1))%nat.
Proof.
  split; [exact (creachable_grown _ (proj1 demo_view_reachable))|]. split; [exact demo_sheet|]. split; [vm_compute; tauto|]. split; [vm_compute; reflexivity|].
  split; [exact (creachable_grown _ demo_nested_reachable)|]. split; [vm_compute; tauto|]. vm_compute. lia.
Qed.

(** ** C35 *)

(** A flexible mixture keeps its row divider, the component of every row, and the rows its
    array knows. *)
Theorem C35_flexible : forall div arr r2c o D new,
  (grown (CMix true div arr r2c) -> cuts o D (CMix true div arr r2c) ->
   exists arr', remove_cgpm (CMix true div arr r2c) o = Ok (CMix true div arr' r2c) /\ row_index arr' = row_index arr) /\
  (grown (CMix true div arr r2c) -> grown new -> open arr -> NoDup (outputs (CMix true div arr r2c) ++ outputs new) ->
   exists arr', add_cgpm (CMix true div arr r2c) new = Ok (CMix true div arr' r2c) /\ row_index arr' = row_index arr).
Proof.
  intros div arr r2c o D new. split; intros G.
  - intros Cu. destruct (grown_sound _ G) as [W M]. exists (trim o arr). split; [apply (remove_ok o D _ W M Cu)|].
    inversion W; subst; reflexivity.
  - intros Gn Op ND. destruct (grown_sound _ G) as [W M], (grown_sound new Gn) as [Wn Mn]. exists (grow new arr).
    split; [apply (add_ok new _ W M Wn Mn Op ND)|]. inversion W; subst; reflexivity.
Qed.
Print Assumptions C35_flexible.

(** A finite mixture does not: in the result no row has a component, although the row divider
    is the same, so observing a recorded row raises and so does unobserving any row. *)
Theorem C35_finite_refuted : forall div arr r2c o D new,
  (grown (CMix false div arr r2c) -> cuts o D (CMix false div arr r2c) ->
   exists arr', remove_cgpm (CMix false div arr r2c) o = Ok (CMix false div arr' [])) /\
  (grown (CMix false div arr r2c) -> grown new -> open arr -> NoDup (outputs (CMix false div arr r2c) ++ outputs new) ->
   exists arr', add_cgpm (CMix false div arr r2c) new = Ok (CMix false div arr' [])) /\
  forall arr' r, (forall obs ins x, lookup r (dist_data div) = Some x ->
     always (observe (CMix false div arr' []) r obs ins) (fun p => fst p = CMix false div arr' [] /\ exists e, snd p = Err e)) /\
   exists e, snd (unobserve (CMix false div arr' []) r) = Err e.
Proof.
  intros div arr r2c o D new. split; [|split].
  - intros G Cu. destruct (grown_sound _ G) as [W M]. exists (trim o arr). apply (remove_ok o D _ W M Cu).
  - intros G Gn Op ND. destruct (grown_sound _ G) as [W M], (grown_sound new Gn) as [Wn Mn]. exists (grow new arr).
    apply (add_ok new _ W M Wn Mn Op ND).
  - intros arr' r. split; [|apply forgotten_unobserve]. intros obs ins x L. eapply forgotten_observe. exact L.
Qed.
Print Assumptions C35_finite_refuted.

(** A recorded row of a finite mixture that is lost by adding a column; unobserving it raises
    KeyError, having taken it out of the row divider. *)
Example C35_case : exists m m', m = state_of (observe demo_finite 0 [(8, vz 1); (1, vz 1); (2, vz 0)] []) /\
  grown m /\ cuts 2 [2] m /\ seat m 0 = Some (vz 1) /\
  remove_cgpm m 2 = Ok m' /\ seat m' 0 = None /\ divider m' = divider m /\
  snd (unobserve m' 0) = Err KeyError /\ (forall d, divider (fst (unobserve m' 0)) = Some d -> lookup 0 (dist_data d) = None) /\
  grown demo_view /\ cuts 1 [1] demo_view /\ seat demo_view 0 = Some (vz 0).
Proof.
  eexists. eexists. split; [reflexivity|]. split; [apply creachable_grown, step_reachable; [apply demo_finite_reachable|vm_compute; reflexivity]|].
  split; [vm_compute; intuition congruence|]. split; [vm_compute; reflexivity|]. split; [vm_compute; reflexivity|].
  split; [reflexivity|]. split; [reflexivity|]. split; [vm_compute; reflexivity|].
  split; [intros d H; vm_compute in H; injection H as <-; reflexivity|].
  split; [exact (creachable_grown _ (proj1 demo_view_reachable))|]. split; [vm_compute; intuition congruence|]. vm_compute. reflexivity.
Qed.
