(** Proofs about dependence constraints: the sampler keeps the columns of every view. *)
From Coq Require Import List ZArith QArith Qcanon Reals Bool String Permutation Lia Sorted.
From Coq Require Import Relations.Relation_Operators.
From Verif Require Import Base Xr Samp Lgamma Prims Cgpm Lib SpecPrims PrimsInv SpecComp CompInv CompDens CompThm SimShape
  SpecTable SpecHist Table Gibbs Hist Walks SpecWalks WalksThm Trans Views ViewsThm ViewsThm2 ViewsThm3 ViewsThm4 ViewsThm5
  Hypers SpecHypers HypersThm Progress SpecProgress Crosscat HypersThm2 PropHypers CrosscatThm CrosscatThm2 CrosscatThm3.
From Verif Require Import SpecViews SpecCrosscat Meta Cpp SpecCpp Depend SpecDepend.
Import ListNotations.
Local Open Scope Z_scope.

Definition mixed (m : cgpm) : Prop := match m with CMix _ _ _ _ => True | _ => False end.
Definition still (m m' : cgpm) : Prop := wf m' /\ outputs m' = outputs m /\ mixed m'.
Definition stays (X : list cgpm) (c : cgpm) : Prop := exists X', c = CProd X' /\ Forall2 still X X'.

Lemma mixed_columns : forall m, mixed m -> columns_of m = tl (outputs m).
Proof. intros [] []. reflexivity. Qed.

Lemma still_refl : forall m, wf m -> mixed m -> still m m.
Proof. intros m W M. split; [exact W|]. split; [reflexivity|exact M]. Qed.

Lemma still_trans : forall a b d, still a b -> still b d -> still a d.
Proof. intros a b d (A1 & A2 & A3) (B1 & B2 & B3). split; [exact B1|]. split; [congruence|exact B3]. Qed.

Lemma stays_refl : forall X, crosscat X -> stays X (CProd X).
Proof.
  intros X C. exists X. split; [reflexivity|]. apply F2_same. intros m Hm. assert (G := crosscat_views X m C Hm).
  apply still_refl; [apply good_wf; exact G|]. destruct G as (_ & S & _). destruct S. exact Logic.I.
Qed.

Lemma observe_mixed : forall m rid obs ins, mixed m -> always (observe m rid obs ins) (fun r => mixed (fst r)).
Proof.
  intros [| | | |f div arr r2c] rid obs ins []. cbn [observe]. unfold mix_observe.
  assert (Y : forall div r2c z, always (mix_observe_x f div arr (observe arr) r2c rid obs ins z) (fun r => mixed (fst r))).
  { intros d q z. unfold mix_observe_x. apply always_bind. apply always_True. intros a. exact Logic.I. }
  destruct (lookup rid r2c); [apply Y|]. apply always_bind. apply always_True. intros [z|e]; [|exact Logic.I].
  destruct (dist_observe div rid [(dist_o div, z)] []) as [div' [u|e]]; [apply Y|exact Logic.I].
Qed.

Lemma observe_still : forall m rid obs ins, wf m -> mixed m -> always (observe m rid obs ins) (fun r => still m (fst r)).
Proof.
  intros m rid obs ins W M. generalize (always_and _ _ _ (observe_wf m W rid obs ins) (observe_mixed m rid obs ins M)). apply always_imp.
  intros r ((A & B) & D). split; auto.
Qed.

Lemma unobserve_still : forall m rid, wf m -> mixed m -> still m (fst (unobserve m rid)).
Proof.
  intros m rid W M. destruct (unobserve_wf m W rid) as [A B]. split; [exact A|]. split; [exact B|].
  destruct m as [| | | |f div arr r2c]; try destruct M. cbn [unobserve]. unfold mix_unobserve.
  destruct (dist_unobserve div rid) as [d' [[a b]|e]]; [|exact Logic.I]. destruct (unobserve arr rid) as [arr' [[a' b']|e]]; [|exact Logic.I].
  destruct (dmem rid r2c); exact Logic.I.
Qed.

Lemma rows_still : forall m r, wf m -> mixed m -> always (transition_rows m r) (fun p => still m (fst p)).
Proof.
  intros m r W M. unfold transition_rows. destruct m as [| | | |f div arr r2c] eqn:Em; try destruct M. rewrite <- Em in *.
  assert (MM : mixed m) by (rewrite Em; exact Logic.I). assert (U := unobserve_still m r W MM).
  destruct (unobserve m r) as [c1 [[obs ins]|e]]; cbn [fst] in U; [|exact U]. destruct c1 as [| | | |f1 div1 arr1 r2c1] eqn:E1; try exact U. rewrite <- E1 in *.
  destruct (do zs <- dist_support div1; _) as [[zs ws]|e]; [|exact U]. apply always_bind. apply always_True. intros [i|e]; [|exact U].
  eapply always_imp; [|apply observe_still; apply U]. intros p Hp. exact (still_trans _ _ _ U Hp).
Qed.

Lemma rows_each_still : forall rids m, wf m -> mixed m -> always (rows_each m rids) (fun p => still m (fst p)).
Proof.
  induction rids as [|r rids IH]; intros m W M; cbn [rows_each]; [apply still_refl; assumption|]. apply always_bind.
  eapply always_imp; [|apply (rows_still m r W M)]. intros p Hp. destruct (snd p); [|exact Hp].
  destruct Hp as (P1 & P2 & P3). eapply always_imp; [|exact (IH (fst p) P1 P3)]. intros q Hq. apply (still_trans m (fst p)); [split; auto|exact Hq].
Qed.

Lemma reseat_still : forall m r0 r1, wf m -> mixed m -> always (set_rowid_component m r0 r1) (fun p => still m (fst p)).
Proof.
  intros m r0 r1 W M. unfold set_rowid_component. destruct m as [| | | |f div arr r2c] eqn:Em; try destruct M. rewrite <- Em in *.
  assert (MM : mixed m) by (rewrite Em; exact Logic.I). assert (U := unobserve_still m r0 W MM). assert (RF := still_refl m W MM). destruct r1 as [r1|].
  - destruct (int_is r0 r1); [exact RF|]. destruct (lookup r1 (dist_data div)) as [z|]; [|exact RF].
    destruct (unobserve m r0) as [c1 [[obs ins]|e]]; cbn [fst] in U; [|exact U].
    eapply always_imp; [|apply observe_still; apply U]. intros p Hp. exact (still_trans _ _ _ U Hp).
  - destruct f; [|exact RF]. destruct (unobserve m r0) as [c1 [[obs ins]|e]]; cbn [fst] in U.
    + destruct c1 as [| | | |f1 div1 arr1 r2c1] eqn:E1; try exact U. rewrite <- E1 in *. destruct (dist_support div1); [|exact U].
      eapply always_imp; [|apply observe_still; apply U]. intros p Hp. exact (still_trans _ _ _ U Hp).
    + destruct c1; exact U.
Qed.

Lemma retuned_still : forall m m', wf m -> mixed m -> rts m m' -> still m m'.
Proof.
  intros m m' W M T. revert W M. induction T as [a b T|a|a b d T1 IH1 T2 IH2]; intros W M.
  - destruct (proj1 (retuned_kept a b T) W) as [A B]. split; [exact A|]. split; [exact B|]. destruct a; try destruct M. inversion T; exact Logic.I.
  - apply still_refl; assumption.
  - assert (S1 := IH1 W M). eapply still_trans; [exact S1|]. apply IH2; apply S1.
Qed.

Lemma F2_in_r : forall {A B} (R : A -> B -> Prop) l l' y, Forall2 R l l' -> In y l' -> exists x, In x l /\ R x y.
Proof. intros A B R l l' y F. induction F; intros []; [subst; eexists; split; [now left|eassumption]|]. destruct (IHF H0) as (z & Z1 & Z2). exists z. split; [now right|exact Z2]. Qed.

Lemma stays_rts : forall X c c', stays X c -> rts c c' -> stays X c'.
Proof.
  intros X c c' (Y & -> & F) T. destruct (rts_prod Y c' T) as (W & -> & FW). exists W. split; [reflexivity|]. clear T. revert W FW.
  induction F as [|m m' l l' Sm F IH]; intros W FW; inversion FW; subst; constructor; [|apply IH; assumption].
  eapply still_trans; [exact Sm|]. apply retuned_still; [apply Sm|apply Sm|assumption].
Qed.

Lemma put_stays : forall X c o ds ds', stays X c -> get_cgpms_by_output_index c o = Ok ds -> Forall2 adjusted ds ds' -> stays X (fst (put_column o c ds')).
Proof.
  intros X c o ds ds' K E A. destruct (puts_all o c ds E ds' [] A) as (c' & P1 & P2 & _). rewrite app_nil_r in P1. rewrite P1. cbn [fst]. exact (stays_rts X c c' K P2).
Qed.

Lemma hypers_each_stays : forall X cols c, stays X c -> always (hypers_each c cols) (fun r => stays X (fst r)).
Proof.
  intros X. induction cols as [|[o g] cols IH]; intros c K; cbn [hypers_each]; [exact K|].
  destruct g as [gs|e]; cbn [obind]; [|exact K]. destruct (get_cgpms_by_output_index c o) as [ds|e] eqn:E; cbn [obind]; [|exact K].
  apply always_bind. eapply always_imp; [|apply transition_hypers_adjusted]. intros r A.
  assert (K' := put_stays X c o ds (fst r) K E A). destruct (snd r); [apply IH; exact K'|exact K'].
Qed.

Lemma hypers_distributions_stays : forall X g c outs, stays X c -> always (transition_hypers_distributions g c outs) (fun r => stays X (fst r)).
Proof.
  intros X g c outs K. unfold transition_hypers_distributions. destruct (oseq _); [|exact K]. apply any_order_always. intros os _. now apply hypers_each_stays.
Qed.

Lemma hypers_row_divide_stays : forall X g c outs, stays X c -> always (transition_hypers_row_divide g c outs) (fun r => stays X (fst r)).
Proof.
  intros X g c outs K. unfold transition_hypers_row_divide.
  match goal with |- always (match ?x with Ok _ => _ | Err _ => _ end) _ => destruct x end; [|exact K]. apply any_order_always. intros os _. now apply hypers_each_stays.
Qed.

Lemma replaced_stays : forall X Y i v v', Forall2 still X Y -> item Y i = Ok v -> still v v' -> stays X (CProd (set_nth i v' Y)).
Proof.
  intros X Y i v v' F E Sv. destruct (item_Ok Y i v E) as (a & b & EY & _ & ES). exists (set_nth i v' Y). split; [reflexivity|]. rewrite ES. subst Y.
  apply Forall2_app_inv_r in F. destruct F as (a' & b' & Fa & Fb & ->). apply Forall2_app; [exact Fa|]. inversion Fb; subst. constructor; [|assumption]. eapply still_trans; eauto.
Qed.

Lemma stays_item : forall X Y i v, Forall2 still X Y -> item Y i = Ok v -> wf v /\ mixed v.
Proof.
  intros X Y i v F E. destruct (item_Ok Y i v E) as (a & b & EY & _). destruct (F2_in_r still X Y v F) as (x & _ & A & _ & B); [rewrite EY; apply in_elt|]. auto.
Qed.

Lemma views_rows_stays : forall X is c rowids, stays X c -> always (views_rows c is rowids) (fun r => stays X (fst r)).
Proof.
  intros X. induction is as [|i is IH]; intros c rowids K; cbn [views_rows]; [exact K|].
  assert (K0 := K). destruct K as (Y & -> & F). cbn [views_of]. destruct (item Y i) as [v|e] eqn:E; cbn [obind]; [|exact K0].
  destruct (get_rowids_transition v rowids) as [rs|e]; cbn [obind]; [|exact K0]. destruct (stays_item X Y i v F E) as [Wv Mv].
  apply any_order_always. intros rids _. apply always_bind. eapply always_imp; [|apply (rows_each_still rids v Wv Mv)]. intros p Hp.
  assert (K' := replaced_stays X Y i v (fst p) F E Hp). destruct (snd p); [apply IH; exact K'|exact K'].
Qed.

Lemma views_reseat_stays : forall X is c r0 r1, stays X c -> always (views_reseat c is r0 r1) (fun r => stays X (fst r)).
Proof.
  intros X. induction is as [|i is IH]; intros c r0 r1 K; cbn [views_reseat]; [exact K|].
  assert (K0 := K). destruct K as (Y & -> & F). cbn [views_of]. destruct (item Y i) as [v|e] eqn:E; [|exact K0].
  destruct (stays_item X Y i v F E) as [Wv Mv]. apply always_bind. eapply always_imp; [|apply (reseat_still v r0 r1 Wv Mv)]. intros p Hp.
  assert (K' := replaced_stays X Y i v (fst p) F E Hp). destruct (snd p); [apply IH; exact K'|exact K'].
Qed.

Lemma row_assignments_stays : forall X c outs rowids, stays X c -> always (transition_row_assignments c outs rowids) (fun r => stays X (fst r)).
Proof.
  intros X c outs rowids K. unfold transition_row_assignments. destruct (view_indexes c outs); [|exact K]. apply any_order_always. intros is _. now apply views_rows_stays.
Qed.

Lemma run_kernels_stays : forall X fuel clock g c N T outs rowids names, constrained g = true -> stays X c ->
  always (run_kernels fuel clock g c N T outs rowids names) (fun r => stays X (fst r)).
Proof.
  intros X fuel clock g c N T outs rowids names EC K. unfold run_kernels. destruct (oseq (map (kernel_lookup g outs rowids) names)) as [ks|e] eqn:E; [|exact K].
  apply generic_keeps; [|exact K]. intros k s Hk Hs. destruct (oseq_map_In _ _ _ _ E Hk) as (nm & _ & En). unfold kernel_lookup in En.
  destruct (String.eqb nm "hypers_distributions"); [injection En as <-; now apply hypers_distributions_stays|].
  destruct (String.eqb nm "hypers_row_divide"); [injection En as <-; now apply hypers_row_divide_stays|].
  destruct (String.eqb nm "hypers_column_divide"); [injection En as <-; exact Hs|].
  destruct (String.eqb nm "row_assignments"); [injection En as <-; now apply row_assignments_stays|].
  destruct (String.eqb nm "view_assignments"); [|discriminate]. injection En as <-. rewrite EC. exact Hs.
Qed.

Lemma transition_stays_aux : forall X fuel clock g c N T kernels outs rowids, constrained g = true -> stays X c ->
  always (transition fuel clock g c N T kernels outs rowids) (fun r => stays X (fst r)).
Proof.
  intros X fuel clock g c N T kernels outs rowids EC K. unfold transition. destruct kernels as [names|]; [now apply run_kernels_stays|].
  apply any_order_always. intros os _. now apply run_kernels_stays.
Qed.

Lemma reseat_all_stays : forall X c outs r0 r1, stays X c -> always (set_rowid_component_all c outs r0 r1) (fun r => stays X (fst r)).
Proof.
  intros X c outs r0 r1 K. unfold set_rowid_component_all. destruct (view_indexes c outs); [|exact K]. apply any_order_always. intros is _. now apply views_reseat_stays.
Qed.

Lemma set_hypers_stays : forall X c o h, stays X c -> stays X (fst (set_hypers_distribution c o h)).
Proof.
  intros X c o h K. unfold set_hypers_distribution. destruct (get_cgpms_by_output_index c o) as [ds|e] eqn:E; [|exact K].
  assert (A := set_hypers_adjusted ds h). destruct (set_hypers ds h) as [ds' r]. cbn [fst] in *. exact (put_stays X c o ds ds' K E A).
Qed.

Lemma observe_stays : forall X c rid obs ins, stays X c -> always (observe c rid obs ins) (fun r => stays X (fst r)).
Proof.
  intros X c rid obs ins (Y & -> & F). cbn [observe]. apply always_bind.
  assert (Z : always (prod_observe (map (fun c' => (c', observe c')) Y) rid obs ins) (fun r => Forall2 still X (fst r))); [|eapply always_imp; [|exact Z]].
  - clear - F. induction F as [|m m' X Y Sm F IH]; cbn [map prod_observe]; [constructor|]. destruct (interd (outputs m') obs).
    + apply always_bind. eapply always_imp; [|exact IH]. cbn. intros r Hr. constructor; assumption.
    + apply always_bind. eapply always_imp; [|apply observe_still; apply Sm]. intros [c' [u|e]] Hc; cbn [fst snd] in *.
      * apply always_bind. eapply always_imp; [|exact IH]. cbn. intros r Hr. constructor; [eapply still_trans; eauto|exact Hr].
      * cbn. constructor; [eapply still_trans; eauto|]. rewrite map_map. cbn. rewrite map_id. exact F.
  - intros r Hr. cbn. exists (fst r). auto.
Qed.

Lemma unobserve_stays : forall X c rid, stays X c -> stays X (fst (unobserve c rid)).
Proof.
  intros X c rid (Y & -> & F). cbn [unobserve]. unfold prod_unobserve. destruct (map (fun c' => unobserve c' rid) Y) as [|r rs] eqn:E.
  - destruct Y; [|discriminate]. exists []. auto.
  - rewrite <- E. clear E r rs. cbn [fst]. eexists. split; [reflexivity|]. rewrite !map_map.
    induction F as [|m m' X Y Sm F IH]; cbn [map]; constructor; [|exact IH]. eapply still_trans; [exact Sm|].
    assert (U := unobserve_still m' rid (proj1 Sm) (proj2 (proj2 Sm))). unfold unobserve_one. destruct (snd (unobserve m' rid)); exact U.
Qed.

Lemma call_stays : forall X g c c', constrained g = true -> stays X c -> sampler_call g c c' -> stays X c'.
Proof.
  intros X g c c' EC K H.
  assert (Z : forall (m : samp (cgpm * out unit)), always m (fun r => stays X (fst r)) -> possible m (fun p => fst p = c') -> stays X c').
  { intros m A P. destruct (always_possible m _ _ A P) as (a & Ha & <-). exact Ha. }
  destruct H as [fuel clock N T kernels outs rowids P|outs P|outs P|outs rowids P|outs P|o h ->|o h ->|outs r0 r1 P|o0 o1 P|rid obs ins P|rid ->].
  - apply (Z _ (transition_stays_aux X fuel clock g c N T kernels outs rowids EC K) P).
  - apply (Z _ (hypers_distributions_stays X g c outs K) P).
  - apply (Z _ (hypers_row_divide_stays X g c outs K) P).
  - apply (Z _ (row_assignments_stays X c outs rowids K) P).
  - rewrite EC in P. cbn in P. rewrite <- P. exact K.
  - apply set_hypers_stays. exact K.
  - unfold set_hypers_row_divide. destruct (do i <- get_cgpm_current_view_index c [o]; _) as [l|e]; [apply set_hypers_stays|]; exact K.
  - apply (Z _ (reseat_all_stays X c outs r0 r1 K) P).
  - rewrite EC in P. cbn in P. rewrite <- P. exact K.
  - apply (Z _ (observe_stays X c rid obs ins K) P).
  - apply unobserve_stays. exact K.
Qed.

Lemma calls_stay : forall X g c, crosscat X -> constrained g = true -> sampler_calls g (CProd X) c -> stays X c.
Proof. intros X g c C EC H. induction H as [|c1 c2 _ IH H]; [apply stays_refl; exact C|]. exact (call_stays X g c1 c2 EC IH H). Qed.

Lemma stays_together : forall X X' v w, (forall m, In m X -> mixed m) -> Forall2 still X X' -> (together X' v w <-> together X v w).
Proof.
  intros X X' v w M F. unfold together. induction F as [|m m' l l' Sm F IH]; [tauto|].
  assert (EC : columns_of m' = columns_of m). { rewrite !mixed_columns; [|apply M; now left|apply Sm]. now rewrite (proj1 (proj2 Sm)). }
  specialize (IH (fun x Hx => M x (or_intror Hx))). split.
  - intros (x & [<-|Hx] & Hv & Hw); [exists m; rewrite EC in *; cbn; auto|]. destruct (proj1 IH (ex_intro _ x (conj Hx (conj Hv Hw)))) as (y & Y1 & Y2). exists y. cbn. auto.
  - intros (x & [<-|Hx] & Hv & Hw); [exists m'; rewrite EC; cbn; auto|]. destruct (proj2 IH (ex_intro _ x (conj Hx (conj Hv Hw)))) as (y & Y1 & Y2). exists y. cbn. auto.
Qed.

Lemma crosscat_mixed : forall X m, crosscat X -> In m X -> mixed m.
Proof. intros X m C Hm. destruct (crosscat_views X m C Hm) as (_ & S & _). destruct S. exact Logic.I. Qed.

Lemma stays_columns : forall X X', (forall m, In m X -> mixed m) -> Forall2 still X X' -> map columns_of X' = map columns_of X.
Proof.
  intros X X' M F. induction F as [|m m' l l' Sm F IH]; [reflexivity|]. cbn [map]. rewrite IH by (intros; apply M; now right). f_equal.
  rewrite !mixed_columns; [|apply M; now left|apply Sm]. now rewrite (proj1 (proj2 Sm)).
Qed.
