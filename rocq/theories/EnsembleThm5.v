(** Ensembles: all chains hold the same table. *)
From Coq Require Import List ZArith QArith Qcanon Reals Bool String Permutation Lia Lra.
From Verif Require Import Base Xr Samp Lgamma Prims Cgpm Lib SpecPrims PrimsInv SpecComp CompInv CompThm SimShape SpecBook Book
  SpecTable Trans SpecHist Table Gibbs Hist Walks SpecWalks WalksThm Views ViewsThm ViewsThm2 Ensemble
  SampleThm3 EnsembleThm2 EnsembleThm4.
From Verif Require Import SpecViews SpecCrosscat SpecEnsemble.
Import ListNotations.
Local Open Scope Z_scope.

(** ** One view *)

(** [m'] is the same view with the cells [P], in the same columns. *)
Definition recell (m m' : cgpm) (P : Z -> Z -> val -> Prop) : Prop :=
  good m' /\ same_columns m m' /\ forall r v x, cell m' r v = Some x <-> In v (columns_of m) /\ P r v x.

Lemma view_taken : forall m rid obs m', good m -> happens m (EObserve rid obs) m' ->
  recell m m' (fun r v x => cell m r v = Some x \/ r = rid /\ lookup v obs = Some x).
Proof.
  intros m rid obs m' G H. assert (G0 := G). destruct G0 as (GR & Sh & K).
  set (t0 := fun r => match seat m r with Some k => Some (k, fun o => cell m r o) | None => None end).
  assert (NS : forall r o, seat m r = None -> cell m r o = None).
  { intros r o E. destruct m; try reflexivity. cbn [cell seat] in *. rewrite E. reflexivity. }
  assert (R : records m t0).
  { intros r. unfold t0. split; [destruct (seat m r); reflexivity|]. intros o Ho.
    destruct (seat m r) as [k|] eqn:E; [reflexivity|]. apply NS. exact E. }
  destruct (step_refines m _ m' t0 (grown_wf m GR) Sh K R H) as (Sh' & K' & SC & t' & TS & R').
  assert (G' : good m') by (split; [apply (happens_stable grown grown_stable m _ m' GR H)|split; assumption]).
  split; [exact G'|]. split; [exact SC|]. assert (CC : columns_of m' = columns_of m) by apply SC.
  intros r v x. split.
  - intros E. assert (Hv : In v (columns_of m)) by (rewrite <- CC; apply (holds_column m' r v x G' E)). split; [exact Hv|].
    destruct (R' r) as [_ R1]. rewrite R1 in E by (rewrite CC; exact Hv).
    assert (Z0 : forall q f, t0 r = Some (q, f) -> f v = Some x -> cell m r v = Some x).
    { unfold t0. intros q f E0. destruct (seat m r) as [k0|]; [|discriminate]. injection E0 as <- <-. auto. }
    inversion TS as [? ? k old T0 NO EV ET|? ? z T0 LZ EV ET| | | | | |]; subst; unfold put in E; destruct (eq_dec r rid) as [->|NE].
    + destruct (lookup v obs) as [y|] eqn:L; [right; split; [reflexivity|congruence]|left; apply (Z0 k old T0 E)].
    + left. destruct (t0 r) as [[k' f]|] eqn:T; [|discriminate]. apply (Z0 k' f eq_refl E).
    + right. auto.
    + left. destruct (t0 r) as [[k' f]|] eqn:T; [|discriminate]. apply (Z0 k' f eq_refl E).
  - intros [Hv D]. destruct (R' r) as [_ R1]. rewrite R1 by (rewrite CC; exact Hv).
    assert (Z1 : cell m r v = Some x -> exists k, t0 r = Some (k, fun o => cell m r o)).
    { intros E. unfold t0. destruct (seat m r) as [k|] eqn:SE; [eauto|]. rewrite NS in E by exact SE. discriminate. }
    inversion TS as [? ? k old T0 NO EV ET|? ? z T0 LZ EV ET| | | | | |]; subst; unfold put; destruct (eq_dec r rid) as [->|NE].
    + destruct D as [E|[_ L]]; [|rewrite L; reflexivity]. destruct (Z1 E) as (k' & T). rewrite T in T0. injection T0 as <- <-.
      destruct (lookup v obs) as [y|] eqn:L; [|exact E]. rewrite (NO v y Hv L) in E. discriminate.
    + destruct D as [E|[F _]]; [|contradiction]. destruct (Z1 E) as (k' & T). rewrite T. exact E.
    + destruct D as [E|[_ L]]; [|exact L]. destruct (Z1 E) as (k' & T). congruence.
    + destruct D as [E|[F _]]; [|contradiction]. destruct (Z1 E) as (k' & T). rewrite T. exact E.
Qed.

Lemma view_same : forall m (P : Z -> Z -> val -> Prop), good m -> (forall r v x, In v (columns_of m) -> (cell m r v = Some x <-> P r v x)) -> recell m m P.
Proof.
  intros m P G H. split; [exact G|]. split; [split; [|split]; reflexivity|]. intros r v x. split.
  - intros E. assert (Hv := holds_column m r v x G E). split; [exact Hv|]. apply H; assumption.
  - intros [Hv Q]. apply H; assumption.
Qed.

Lemma view_removed : forall m rid, good m -> recell m (fst (unobserve m rid)) (fun r v x => r <> rid /\ cell m r v = Some x).
Proof.
  intros m rid G. assert (G0 := G). destruct G0 as (GR & Sh & K).
  destruct (seat m rid) as [k|] eqn:SE.
  - destruct (view_unobserve m rid (grown_wf m GR) Sh K) as (m' & rw & EU & (W' & Sh' & K' & SC & OS & SN) & _); [congruence|].
    assert (GR' : grown m').
    { apply (happens_stable grown grown_stable m (EUnobserve rid rw) m' GR). exists []. exact EU. }
    assert (G' : good m') by (split; [exact GR'|split; assumption]).
    rewrite EU. cbn [fst]. split; [exact G'|]. split; [exact SC|]. intros r v x.
    assert (CC : columns_of m' = columns_of m) by apply SC. split.
    + intros E. assert (Hv : In v (columns_of m)) by (rewrite <- CC; apply (holds_column m' r v x G' E)). split; [exact Hv|].
      assert (NE : r <> rid).
      { intros ->. clear - SN E. destruct m'; cbn [cell seat] in *; [discriminate..|]. rewrite SN in E. discriminate. }
      split; [exact NE|]. rewrite <- (proj2 (OS r NE)). exact E.
    + intros [_ [NE E]]. rewrite (proj2 (OS r NE)). exact E.
  - assert (EU : unobserve m rid = (m, Err ValueError)).
    { destruct m as [| | | |fl dv arr r2c]; try contradiction. cbn [unobserve]. unfold mix_unobserve. rewrite leaf_unobserve_unknown; [reflexivity|]. destruct K as (_ & _ & K3 & _). cbn [seat] in SE.
      intros Hin. rewrite <- K3 in SE. apply lookup_None in SE. contradiction. }
    rewrite EU. cbn [fst]. apply view_same; [exact G|]. intros r v x Hv. split; [|tauto].
    intros E. split; [|exact E]. intros ->. destruct m; cbn [cell seat] in *; [discriminate..|]. rewrite SE in E. discriminate.
Qed.

(** ** One model *)

Lemma prod_observed : forall X rid obs ins r, (forall m, In m X -> good m) -> NoDup (keys obs) ->
  (forall m y, In m X -> lookup (label_of m) obs = Some y -> exists z, y = vz z) ->
  possible (prod_observe (map (fun c => (c, observe c)) X) rid obs ins) (fun q => q = r) -> snd r = Ok tt ->
  Forall2 (fun m m' => recell m m' (fun r v x => cell m r v = Some x \/ r = rid /\ lookup v obs = Some x)) X (fst r).
Proof.
  induction X as [|m X IH]; intros rid obs ins r G ND LB H E; cbn [map prod_observe] in H.
  - cbn in H. subst r. constructor.
  - assert (Gm := G m (or_introl eq_refl)).
    assert (IN : inputs m = []) by (apply wf_inputs, grown_wf; apply Gm).
    assert (LV : forall v, In v (columns_of m) -> lookup v (interd (outputs m) obs) = lookup v obs).
    { intros v Hv. rewrite lookup_interd. assert (Y : memb v (outputs m) = true); [|rewrite Y; reflexivity].
      apply memb_In. rewrite (sheet_outputs m (proj1 (proj2 Gm))). now right. }
    destruct (interd (outputs m) obs) as [|p oc] eqn:EI.
    + rewrite <- possible_bind in H. apply possible_some in H as (q & H & Er). cbn in Er. subst r. cbn [fst snd] in *.
      constructor; [|apply (IH rid obs ins q); auto; intros; [apply G; now right|eapply LB; [right; eassumption|eassumption]]].
      apply view_same; [exact Gm|]. intros r v x Hv. split; [auto|]. intros [D|[_ D]]; [exact D|]. rewrite <- (LV v Hv) in D. discriminate.
    + assert (Z0 : merged (interd [] obs) (interd [] ins) = []).
      { assert (Y : forall d : row, interd [] d = []) by (intros d; unfold interd; induction d as [|a d IHd]; [reflexivity|exact IHd]). rewrite !Y. reflexivity. }
      rewrite IN, Z0 in H. rewrite <- possible_bind in H. apply possible_some in H as ([m' [u|e]] & H1 & H2); cbn [fst snd] in H2.
      2:{ cbn in H2. subst r. discriminate. }
      rewrite <- possible_bind in H2. apply possible_some in H2 as (q & H2 & Er). cbn in Er. subst r. cbn [fst snd] in *.
      constructor; [|apply (IH rid obs ins q); auto; intros; [apply G; now right|eapply LB; [right; eassumption|eassumption]]].
      assert (HP : happens m (EObserve rid (p :: oc)) m').
      { split; [rewrite <- EI; apply NoDup_keys_interd; exact ND|]. split.
        - intros y L. rewrite <- EI, lookup_interd in L. destruct (memb (label_of m) (outputs m)); [|discriminate]. apply (LB m y (or_introl eq_refl) L).
        - destruct u. exact H1. }
      destruct (view_taken m rid _ m' Gm HP) as (A & B & C). split; [exact A|]. split; [exact B|]. intros r v x. rewrite C.
      split; intros [Hv D]; (split; [exact Hv|]); [rewrite <- (LV v Hv)|rewrite (LV v Hv)]; exact D.
Qed.

Lemma recell_model : forall X X' P, crosscat X -> Forall2 (fun m m' => recell m m' (P m)) X X' ->
  crosscat X' /\ flat_map columns_of X' = flat_map columns_of X /\ (forall v k, typed X' v k <-> typed X v k) /\
  forall r v x, holds X' r v x <-> exists m, In m X /\ In v (columns_of m) /\ P m r v x.
Proof.
  intros X X' P [G ND] F. split; [|split; [|split]].
  - split.
    + intros m' Hm. destruct (F2_in_r _ _ _ F m' Hm) as (m & _ & H). apply H.
    + assert (E : flat_map outputs X' = flat_map outputs X); [|rewrite E; exact ND]. clear ND.
      induction F as [|m m' X X' H F IH]; [reflexivity|]. cbn [flat_map]. rewrite IH by (intros; apply G; now right). f_equal.
      destruct H as (Gm' & (A & B & _) & _). rewrite (sheet_outputs m (proj1 (proj2 (G m (or_introl eq_refl))))), (sheet_outputs m' (proj1 (proj2 Gm'))). congruence.
  - clear ND G. induction F as [|m m' X X' H F IH]; [reflexivity|]. cbn [flat_map]. rewrite IH. f_equal. apply H.
  - intros v k. split; intros (m & Hm & E).
    + destruct (F2_in_r _ _ _ F m Hm) as (m0 & H0 & (_ & (_ & _ & H) & _)). exists m0. split; [exact H0|]. rewrite <- H. exact E.
    + destruct (F2_in_l _ _ _ F m Hm) as (m0 & H0 & (_ & (_ & _ & H) & _)). exists m0. split; [exact H0|]. rewrite H. exact E.
  - intros r v x. split.
    + intros (m' & Hm & E). destruct (F2_in_r _ _ _ F m' Hm) as (m & H0 & (_ & _ & H)). apply H in E. exists m. tauto.
    + intros (m & Hm & Hv & Q). destruct (F2_in_l _ _ _ F m Hm) as (m' & H0 & (_ & _ & H)). exists m'. split; [exact H0|]. apply H. auto.
Qed.

Lemma columns_outputs : forall m v, good m -> In v (columns_of m) -> In v (outputs m).
Proof. intros m v G H. rewrite (sheet_outputs m (proj1 (proj2 G))). now right. Qed.

Lemma label_not_column : forall X m v, crosscat X -> In m X -> In v (flat_map columns_of X) -> v <> label_of m.
Proof.
  intros X m v [G ND] Hm Hv ->. apply in_flat_map in Hv as (m' & Hm' & Hv).
  assert (O1 : In (label_of m) (outputs m)) by (rewrite (sheet_outputs m (proj1 (proj2 (G m Hm)))); now left).
  assert (O2 := columns_outputs m' _ (G m' Hm') Hv).
  assert (E : m = m').
  { clear G Hv. apply in_split in Hm as (a & b & ->). rewrite flat_map_app in ND. cbn [flat_map] in ND.
    apply in_app_or in Hm' as [H|[H|H]]; [|exact H|].
    - exfalso. apply (NoDup_app_disj _ _ ND (label_of m)); [apply in_flat_map; eauto|]. apply in_or_app. now left.
    - exfalso. assert (ND' : NoDup (outputs m ++ flat_map outputs b)) by (clear - ND; induction (flat_map outputs a) as [|z l IH]; [exact ND|apply IH; inversion ND; assumption]).
      apply (NoDup_app_disj _ _ ND' (label_of m)); [exact O1|]. apply in_flat_map. eauto. }
  subst m'. apply (label_outside m (good_wf m (G m Hm)) (proj1 (proj2 (G m Hm))) Hv).
Qed.

Lemma showing_observe : forall outs ks F c c' rid obs ins, showing outs ks F c -> about outs obs ->
  possible (observe c rid obs ins) (fun q => q = (c', Ok tt)) ->
  showing outs ks (with_cells rid obs F) c' /\ forall v, In v (keys obs) -> F rid v = None \/ exists x, lookup v obs = Some x /\ F rid v = Some x.
Proof.
  intros outs ks F c c' rid obs ins (X & -> & CX & PX & TX & HX) [ND IC] H.
  change (observe (CProd X)) with (fun rid obs i => sbind (prod_observe (map (fun c' => (c', observe c')) X) rid obs i) (fun r => Ret (CProd (fst r), snd r))) in H.
  cbv beta in H. rewrite <- possible_bind in H. apply possible_some in H as ([X' u] & H & E). cbn in E. injection E as <- ->.
  assert (F2 := prod_observed X rid obs ins (X', Ok tt) (proj1 CX) ND).
  cbn [fst snd] in F2. specialize (F2 ltac:(intros m y Hm L; exfalso; apply (label_not_column X m (label_of m) CX Hm); [|reflexivity];
    apply (Permutation_in _ (Permutation_sym PX)); apply IC; apply lookup_In in L; apply (in_map fst) in L; exact L) H eq_refl).
  destruct (recell_model X X' (fun m r v x => cell m r v = Some x \/ r = rid /\ lookup v obs = Some x) CX F2) as (C' & EC & ET & EH).
  assert (HC : forall r v x, holds X' r v x <-> F r v = Some x \/ r = rid /\ lookup v obs = Some x).
  { intros r v x. rewrite EH. rewrite <- HX. split.
    - intros (m & Hm & _ & [D|D]); [left; exists m; auto|right; exact D].
    - intros [(m & Hm & D)|[-> D]]; [exists m; split; [exact Hm|]; split; [apply (holds_column m r v x); [apply CX; exact Hm|exact D]|auto]|].
      assert (Hv : In v (flat_map columns_of X)).
      { apply (Permutation_in _ (Permutation_sym PX)). apply IC. apply lookup_In in D. apply (in_map fst) in D. exact D. }
      apply in_flat_map in Hv as (m & Hm & Hv). exists m. auto. }
  assert (UQ : forall v x y, lookup v obs = Some x -> F rid v = Some y -> x = y).
  { intros v x y L Fv. assert (H1 : holds X' rid v x) by (apply HC; auto). assert (H2 : holds X' rid v y) by (apply HC; auto).
    destruct H1 as (m1 & I1 & E1), H2 as (m2 & I2 & E2).
    assert (m1 = m2); [|subst; congruence].
    assert (K1 := holds_column m1 rid v x (proj1 C' m1 I1) E1). assert (K2 := holds_column m2 rid v y (proj1 C' m2 I2) E2).
    apply (columns_outputs m1 v (proj1 C' m1 I1)) in K1. apply (columns_outputs m2 v (proj1 C' m2 I2)) in K2.
    clear - C' I1 I2 K1 K2. destruct C' as [_ ND]. induction X' as [|m X' IH]; [destruct I1|]. cbn [flat_map] in ND.
    assert (D := NoDup_app_disj _ _ ND). destruct I1 as [->|I1], I2 as [->|I2]; [reflexivity| | |].
    - exfalso. apply (D v K1). apply in_flat_map. eauto.
    - exfalso. apply (D v K2). apply in_flat_map. eauto.
    - apply IH; auto. clear - ND. induction (outputs m) as [|z l IH]; [exact ND|apply IH; inversion ND; assumption]. }
  split.
  - exists X'. split; [reflexivity|]. split; [exact C'|]. split; [rewrite EC; exact PX|]. split.
    + eapply F2_imp; [|exact TX]. intros v k T. apply ET. exact T.
    + intros r v x. rewrite HC. unfold with_cells. destruct (Z.eq_dec r rid) as [->|NE].
      * destruct (lookup v obs) as [y|] eqn:L; split.
        -- intros [Fv|[_ E]]; [f_equal; apply (UQ v y x L Fv)|exact E].
        -- intros E. right. auto.
        -- intros [Fv|[_ E]]; [exact Fv|discriminate].
        -- auto.
      * split; [intros [Fv|[E _]]; [exact Fv|contradiction]|auto].
  - intros v Hv. destruct (F rid v) as [y|] eqn:E; [right|left; reflexivity]. 
    destruct (lookup v obs) as [x|] eqn:L; [|apply lookup_None in L; contradiction]. exists x. split; [reflexivity|]. rewrite (UQ v x y L E). reflexivity.
Qed.

Lemma showing_unobserve : forall outs ks F c rid, showing outs ks F c -> showing outs ks (without_row rid F) (fst (unobserve c rid)).
Proof.
  intros outs ks F c rid (X & -> & CX & PX & TX & HX).
  assert (E : fst (unobserve (CProd X) rid) = CProd (map (fun m => fst (unobserve m rid)) X)).
  { change (unobserve (CProd X) rid) with (prod_unobserve (map (fun c' => unobserve c' rid) X)). unfold prod_unobserve.
    destruct X as [|m X]; [reflexivity|]. cbn [map fst]. f_equal. f_equal; [unfold unobserve_one; destruct (snd (unobserve m rid)); reflexivity|].
    rewrite !map_map. apply map_ext. intros a. unfold unobserve_one. destruct (snd (unobserve a rid)); reflexivity. }
  rewrite E.
  assert (F2 : Forall2 (fun m m' => recell m m' (fun r v x => r <> rid /\ cell m r v = Some x)) X (map (fun m => fst (unobserve m rid)) X)).
  { destruct CX as [G _]. clear - G. induction X as [|m X IH]; [constructor|]. cbn [map]. constructor; [apply view_removed; apply G; now left|].
    apply IH. intros; apply G; now right. }
  destruct (recell_model X _ (fun m r v x => r <> rid /\ cell m r v = Some x) CX F2) as (C' & EC & ET & EH).
  eexists. split; [reflexivity|]. split; [exact C'|]. split; [rewrite EC; exact PX|]. split.
  - eapply F2_imp; [|exact TX]. intros v k T. apply ET. exact T.
  - intros r v x. rewrite EH. unfold without_row. destruct (Z.eq_dec r rid) as [->|NE].
    + split; [intros (m & _ & _ & N & _); contradiction|discriminate].
    + rewrite <- HX. split.
      * intros (m & Hm & _ & _ & D). exists m. auto.
      * intros (m & Hm & D). exists m. split; [exact Hm|]. split; [apply (holds_column m r v x); [apply CX; exact Hm|exact D]|auto].
Qed.

Lemma showing_same_data : forall outs ks F X X', showing outs ks F (CProd X) -> same_data X X' -> showing outs ks F (CProd X').
Proof.
  intros outs ks F X X' (Y & E & CX & PX & TX & HX) (C' & P' & H' & T'). injection E as <-. exists X'. split; [reflexivity|]. split; [exact C'|].
  split; [eapply Permutation_trans; [exact P'|exact PX]|]. split.
  - eapply F2_imp; [|exact TX]. intros v k T. apply T'. exact T.
  - intros r v x. rewrite H'. apply HX.
Qed.

(** ** Histories of an ensemble *)

Definition chains_show (outs : list Z) (ks : list kind) (F : sheet_of) (e : ensemble) : Prop :=
  whole e /\ ens_outputs e = outs /\ forall c, In c (cgpms e) -> showing outs ks F c.

Lemma step_shows : forall outs ks F F' e e' mp f, chains_show outs ks F e ->
  (forall c s c', In c (cgpms e) -> showing outs ks F c -> can f c s c' -> showing outs ks F' c') ->
  possible (ens_modify e mp f) (fun r => r = (e', Ok tt)) -> chains_show outs ks F' e'.
Proof.
  intros outs ks F F' e e' mp f (W & EO & SH) ST H. apply ens_modify_ok in H as [SB FA]; [|exact W]. split; [apply (whole_after e e' _ W SB FA)|].
  split; [destruct SB as (_ & -> & _); exact EO|]. intros c' Hc. destruct (F2_in_r _ _ _ FA c' Hc) as (c & Hc0 & s & C). apply (ST c s c'); auto.
Qed.

Lemma observe_shows : forall outs ks F e e' mp rid obs ins, chains_show outs ks F e -> about outs obs -> as_dict ins <> None ->
  possible (ens_modify e mp (modify call_observe [AInt rid; ADict obs; ins])) (fun r => r = (e', Ok tt)) ->
  chains_show outs ks (with_cells rid obs F) e'.
Proof.
  intros outs ks F e e' mp rid obs ins C A AI H. apply (step_shows outs ks F (with_cells rid obs F) e e' mp _ C) in H; [exact H|].
  intros c s c' IC SH CM. apply can_modify in CM as [-> (a & CM)]. unfold can in CM. cbn [call_observe] in CM. destruct (as_dict ins) as [i|]; [|congruence].
  destruct a. apply (showing_observe outs ks F c c' rid obs i SH A CM).
Qed.

Lemma unobserve_shows : forall outs ks F e e' mp rid, chains_show outs ks F e ->
  possible (ens_modify e mp (modify call_unobserve [AInt rid])) (fun r => r = (e', Ok tt)) -> chains_show outs ks (without_row rid F) e'.
Proof.
  intros outs ks F e e' mp rid C H. apply (step_shows outs ks F (without_row rid F) e e' mp _ C) in H; [exact H|].
  intros c s c' IC SH CM. apply can_modify in CM as [-> (a & CM)]. unfold can in CM. cbn in CM.
  assert (E := showing_unobserve outs ks F c rid SH). rewrite CM in E. exact E.
Qed.

Lemma observe_bulk_shows : forall outs ks L F e e', (forall p, In p L -> about outs (snd p)) -> chains_show outs ks F e ->
  possible (ens_calls (map (fun p d => ens_modify d false (modify call_observe [AInt (fst p); ADict (snd p); ANone])) L) e) (fun r => r = (e', Ok tt)) ->
  chains_show outs ks (fold_left apply_change (map (fun p => Recorded (fst p) (snd p)) L) F) e'.
Proof.
  intros outs ks. induction L as [|[rid obs] L IH]; intros F e e' A C H; cbn [map ens_calls fold_left] in *.
  - cbn in H. injection H as <-. exact C.
  - rewrite <- possible_bind in H. apply possible_some in H as ([e1 [u|x]] & H1 & H2); cbn [fst snd] in H2; [|discriminate].
    destruct u. apply (IH _ e1 e'); [intros p Hp; apply A; now right| |exact H2].
    apply (observe_shows outs ks F e e1 false rid obs ANone C); [apply (A (rid, obs)); now left|discriminate|exact H1].
Qed.

Lemma unobserve_bulk_shows : forall outs ks L F e e', chains_show outs ks F e ->
  possible (ens_calls (map (fun r d => ens_modify d false (modify call_unobserve [AInt r])) L) e) (fun r => r = (e', Ok tt)) ->
  chains_show outs ks (fold_left apply_change (map Removed L) F) e'.
Proof.
  intros outs ks. induction L as [|rid L IH]; intros F e e' C H; cbn [map ens_calls fold_left] in *.
  - cbn in H. injection H as <-. exact C.
  - rewrite <- possible_bind in H. apply possible_some in H as ([e1 [u|x]] & H1 & H2); cbn [fst snd] in H2; [|discriminate].
    destruct u. apply (IH _ e1 e'); [|exact H2]. apply (unobserve_shows outs ks F e e1 false rid C H1).
Qed.

Lemma observe_calls : forall rowids observations, List.length observations = List.length rowids ->
  make_args_list [Some (map AInt rowids); Some (map ADict observations); None] =
  Ok (map (fun p => [AInt (fst p); ADict (snd p); ANone]) (combine rowids observations)).
Proof.
  intros rowids observations L. etransitivity; [apply (observe_args rowids observations None L); discriminate|]. f_equal.
  assert (E : List.length (combine rowids observations) = List.length rowids) by (rewrite combine_length; lia).
  rewrite <- E. rewrite <- (enum_map (fun p => [AInt (fst p); ADict (snd p); ANone]) (combine rowids observations) 0). reflexivity.
Qed.

Lemma history_shows : forall outs ks F e0 l e, chains_show outs ks F e0 -> ens_history e0 l e -> chains_show outs ks (fold_left apply_change l F) e.
Proof.
  intros outs ks F e0 l e C H. assert (EO : ens_outputs e0 = outs) by apply C.
  induction H as [|l e e' mp rid obs H IH A P|l e e' mp rowids observations H IH L A P|l e e' mp rid H IH P|l e e' mp rowids H IH P|l e e' mp program H IH K P]; rewrite ?fold_left_app; cbn [fold_left apply_change].
  - exact C.
  - rewrite EO in A. apply (observe_shows outs ks _ e e' mp rid obs ANone IH A); [discriminate|exact P].
  - unfold ens_observe_bulk in P. assert (E := observe_calls rowids observations L).
    apply (bulk_successive call_observe _ _ e mp false e' (proj1 IH) E) in P.
    rewrite map_map in P. apply (observe_bulk_shows outs ks (combine rowids observations) _ e e'); [|exact IH|exact P].
    intros [r obs] Hp. rewrite EO in A. apply A. apply (in_combine_r _ _ _ _ Hp).
  - apply (unobserve_shows outs ks _ e e' mp rid IH P).
  - unfold ens_unobserve_bulk in P. apply (bulk_successive call_unobserve _ _ e mp false e' (proj1 IH) (unobserve_args rowids)) in P.
    rewrite map_map in P. apply (unobserve_bulk_shows outs ks rowids _ e e' IH P).
  - apply (step_shows outs ks _ _ e e' mp program IH); [|exact P]. intros c s c' IC SH CM. apply (K outs ks _ c s c' IC SH CM).
Qed.
