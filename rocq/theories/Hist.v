(** Histories of calls on a view refine histories of the table. *)
From Coq Require Import List ZArith QArith Qcanon Reals Bool String Permutation Sorting.Sorted Lia Lra.
From Verif Require Import Base Xr Samp Lgamma Prims Cgpm Lib SpecPrims PrimsInv PrimsDens PrimsThm PrimsThm2
  SpecComp CompInv CompDens CompThm SimShape SimLaw SpecBook Book SpecTable Trans SpecHist Table Gibbs SpecWalks.
Import ListNotations.
Local Open Scope Z_scope.

(** ** Changes of hyperparameters *)

Definition tuned (d d' : dist) : Prop := dist_o d' = dist_o d /\ kind_of d' = kind_of d /\ dist_data d' = dist_data d.

Lemma tuned_refl : forall d, tuned d d.
Proof. intros d. repeat split. Qed.

Lemma tuned_refls : forall ds, Forall2 tuned ds ds.
Proof. induction ds; constructor; auto using tuned_refl. Qed.

Lemma retuned_leaf : forall d d', retuned (CDist d) (CDist d') -> tuned d d'.
Proof.
  intros d d' H. inversion H; subst.
  - destruct (set_hypers_frame d h) as (A & B & C & _). repeat split; auto.
  - destruct (set_params_frame d p) as (A & B & C & _). repeat split; auto.
Qed.

Lemma retuned_prod : forall ds c', retuned (CProd (map CDist ds)) c' -> exists ds', c' = CProd (map CDist ds') /\ Forall2 tuned ds ds'.
Proof.
  intros ds c' H. inversion H as [| |l c c1 r R E1 E2| | | | |]; subst.
  assert (X : exists l0 d r0, ds = l0 ++ d :: r0 /\ l = map CDist l0 /\ c = CDist d /\ r = map CDist r0).
  { clear - E1. revert l E1. induction ds as [|d0 ds IH]; intros [|a l] E; cbn in E; try discriminate.
    - injection E as -> ->. exists [], d0, ds. auto.
    - injection E as -> E. destruct (IH l E) as (l0 & d & r0 & -> & -> & -> & ->). exists (d0 :: l0), d, r0. auto. }
  destruct X as (l0 & d & r0 & -> & -> & -> & ->).
  assert (Y : exists d', c1 = CDist d') by (inversion R; subst; eauto). destruct Y as [d' ->].
  exists (l0 ++ d' :: r0). split; [rewrite map_app; reflexivity|].
  apply Forall2_app; [apply tuned_refls|]. constructor; [apply retuned_leaf; exact R|apply tuned_refls].
Qed.

Lemma tuned_column : forall ds ds' r o, Forall2 tuned ds ds' -> in_column ds' r o = in_column ds r o.
Proof.
  intros ds ds' r o F. unfold in_column. induction F as [|d d' ds ds' (T1 & T2 & T3) F IH]; [reflexivity|]. cbn [find].
  rewrite T1. destruct (dist_o d =? o); [rewrite T3; reflexivity|exact IH].
Qed.

Lemma tuned_alike : forall bs bs' ds ds', Forall2 tuned bs bs' -> Forall2 tuned ds ds' -> alike bs ds -> alike bs' ds'.
Proof.
  assert (X : forall ds ds', Forall2 tuned ds ds' -> map (fun d => (dist_o d, kind_of d)) ds' = map (fun d => (dist_o d, kind_of d)) ds).
  { intros ds ds' F. induction F as [|d d' ds ds' (T1 & T2 & T3) F IH]; [reflexivity|]. cbn [map]. rewrite T1, T2, IH. reflexivity. }
  intros bs bs' ds ds' F1 F2 A. unfold alike in *. rewrite (X _ _ F1), (X _ _ F2). exact A.
Qed.

Lemma tuned_o : forall ds ds', Forall2 tuned ds ds' -> map dist_o ds' = map dist_o ds.
Proof. intros ds ds' F. induction F as [|d d' ds ds' (T1 & T2 & T3) F IH]; [reflexivity|]. cbn [map]. rewrite T1, IH. reflexivity. Qed.

Lemma tuned_In : forall ds ds' d', Forall2 tuned ds ds' -> In d' ds' -> exists d, In d ds /\ tuned d d'.
Proof.
  intros ds ds' d' F. induction F as [|d d1 ds ds' T F IH]; intros H; [destruct H|]. destruct H as [<-|H]; [exists d; split; [now left|exact T]|].
  destruct (IH H) as (d2 & H2 & T2). exists d2. split; [now right|exact T2].
Qed.

(** Everything but the parameters is the same. *)
Definition same_table (m m' : cgpm) : Prop :=
  same_columns m m' /\ forall r, seat m' r = seat m r /\ forall o, cell m' r o = cell m r o.

Lemma tuned_view : forall s s' bs bs' cs cs' r2i r2c,
  tuned (DCrp s) (DCrp s') -> Forall2 tuned bs bs' -> map fst cs' = map fst cs ->
  (forall k, Forall2 tuned (cols bs cs k) (cols bs' cs' k)) ->
  (forall k c, In (k, c) cs' -> exists ds, c = CProd (map CDist ds) /\ alike bs' ds) ->
  shaped bs cs -> kept_well s bs cs r2i r2c ->
  shaped bs' cs' /\ kept_well s' bs' cs' r2i r2c /\ same_table (mkview s bs cs r2i r2c) (mkview s' bs' cs' r2i r2c).
Proof.
  intros s s' bs bs' cs cs' r2i r2c (S1 & S2 & S3) F EK FC C' SH KW. assert (SH0 := SH). destruct SH0 as (NB & B & C).
  destruct KW as (N1 & N2 & A3 & A4 & A5 & A6).
  assert (SH' : shaped bs' cs').
  { split; [intros ->; inversion F; subst; congruence|]. split; [|exact C'].
    intros d Hd. destruct (tuned_In _ _ _ F Hd) as (d0 & H0 & (T1 & T2 & T3)). rewrite T2, T3. apply B. exact H0. }
  split; [exact SH'|]. split.
  - split; [exact N1|]. split; [exact N2|]. split; [intros r; rewrite S3; apply A3|]. split; [exact A4|]. split; [exact A5|].
    intros r k d Hd Hr. destruct (tuned_In _ _ _ (FC k) Hd) as (d0 & H0 & (T1 & T2 & T3)). rewrite T3 in Hr. apply (A6 r k d0 H0 Hr).
  - split.
    + split; [exact S1|]. split.
      * change (outputs (CProd (map CDist bs')) = outputs (CProd (map CDist bs))). rewrite !outputs_prod. apply tuned_o. exact F.
      * intros o. unfold kind_at, mkview. rewrite !leaves_prod. clear - F.
        induction F as [|d d' ds ds' (T1 & T2 & T3) F IH]; [reflexivity|]. cbn [find]. rewrite T1. destruct (dist_o d =? o); [rewrite T2; reflexivity|exact IH].
    + intros r. split; [reflexivity|]. intros o. rewrite !cell_parts by assumption. destruct (lookup r r2c) as [k|]; [|reflexivity].
      apply tuned_column. apply FC.
Qed.

Lemma cols_ext : forall bs cs k, ~ In k (keys cs) -> cols bs cs k = bs.
Proof. intros bs cs k H. unfold cols. apply lookup_None in H. rewrite H. reflexivity. Qed.

Lemma retuned_view : forall m m', wf m -> sheet m -> consistent m -> retuned m m' ->
  sheet m' /\ consistent m' /\ same_table m m'.
Proof.
  intros m m' W S K H. destruct (sheet_inv m S) as (s & bs & cs & r2i & r2c & -> & NB & B & C).
  assert (SH : shaped bs cs) by (split; [exact NB|split; assumption]).
  assert (KW : kept_well s bs cs r2i r2c) by (apply (consistent_parts s bs cs r2i r2c SH); exact K).
  destruct (view_parts _ _ _ _ _ W) as (D & Db & NDb & NI & NDk & Dc).
  assert (G : exists s' bs' cs', m' = mkview s' bs' cs' r2i r2c /\ tuned (DCrp s) (DCrp s') /\ Forall2 tuned bs bs' /\ map fst cs' = map fst cs /\
    (forall k, Forall2 tuned (cols bs cs k) (cols bs' cs' k)) /\
    (forall k c, In (k, c) cs' -> exists ds, c = CProd (map CDist ds) /\ alike bs' ds)).
  { unfold mkview in H. inversion H as [| | | | | |f d d' arr mp R|f d arr arr' mp R]; subst.
    - assert (T := retuned_leaf _ _ R). destruct T as (T1 & T2 & T3). destruct d' as [s'| | | | |]; try discriminate T2.
      exists s', bs, cs. unfold mkview. cbn [dist_o] in T1. split; [rewrite T1; reflexivity|]. split; [repeat split; assumption|].
      split; [apply tuned_refls|]. split; [reflexivity|]. split; [intros; apply tuned_refls|exact C].
    - inversion R as [| | | |ix c c' cs0 mp R1|ix b l k c c' r mp R1| |]; subst.
      + destruct (retuned_prod _ _ R1) as (bs' & -> & F). exists s, bs', cs. split; [reflexivity|]. split; [apply tuned_refl|].
        split; [exact F|]. split; [reflexivity|]. split.
        * intros k. unfold cols. destruct (lookup k cs); [apply tuned_refls|]. exact F.
        * intros k c Hc. destruct (C k c Hc) as (ds & -> & A). exists ds. split; [reflexivity|]. eapply tuned_alike; [exact F|apply tuned_refls|exact A].
      + destruct (C k c) as (ds & -> & A); [apply in_or_app; right; now left|].
        destruct (retuned_prod _ _ R1) as (ds' & -> & F). exists s, bs, (l ++ (k, CProd (map CDist ds')) :: r).
        split; [reflexivity|]. split; [apply tuned_refl|]. split; [apply tuned_refls|].
        split; [rewrite !map_app; reflexivity|].
        assert (NL : ~ In k (keys l)).
        { unfold keys in NDk. rewrite map_app in NDk. cbn in NDk. apply NoDup_remove_2 in NDk. intros Hk. apply NDk. apply in_or_app. now left. }
        split.
        * intros k0. rewrite <- (dset_mid l k (CProd (map CDist ds)) (CProd (map CDist ds')) r NL). rewrite cols_set.
          destruct (eq_dec k0 k) as [->|NE]; [|apply tuned_refls].
          unfold cols. rewrite lookup_app. apply lookup_None in NL. rewrite NL. cbn [lookup]. destruct (eq_dec k k); [|congruence]. rewrite leaves_prod. exact F.
        * intros k0 c0 Hc. apply in_app_or in Hc. destruct Hc as [Hc|[Hc|Hc]].
          -- apply (C k0). apply in_or_app. now left.
          -- injection Hc as <- <-. exists ds'. split; [reflexivity|]. eapply tuned_alike; [apply tuned_refls|exact F|exact A].
          -- apply (C k0). apply in_or_app. right. now right. }
  destruct G as (s' & bs' & cs' & -> & T & F & EK & FC & C').
  destruct (tuned_view s s' bs bs' cs cs' r2i r2c T F EK FC C' SH KW) as (P1 & P2 & P3).
  split; [apply sheet_shaped; exact P1|]. split; [apply consistent_parts; assumption|exact P3].
Qed.

(** ** Reachability of the outcomes *)

Lemma always_self : forall {A} (m : samp A), always m (fun a => possible m (fun b => b = a)).
Proof.
  induction m as [a|ws k IH|l k IH|n p k IH|lo hi k IH|n k IH]; cbn [always possible]; auto.
  - intros i Hi Hp. eapply always_imp; [|apply IH]. intros a Ha. cbn beta in Ha. exists i. auto.
  - intros q Hq. eapply always_imp; [|apply IH]. intros a Ha. cbn beta in Ha. exists q. auto.
  - intros x. eapply always_imp; [|apply IH]. intros a Ha. cbn beta in Ha. exists x. auto.
  - intros z Hz. eapply always_imp; [|apply IH]. intros a Ha. cbn beta in Ha. exists z. auto.
  - intros l Hl. eapply always_imp; [|apply IH]. intros a Ha. cbn beta in Ha. exists l. auto.
Qed.

(** A property of models kept by every call that changes a model. *)
Definition stable (Q : cgpm -> Prop) : Prop :=
  (forall c rid obs ins c' res, Q c -> possible (observe c rid obs ins) (fun r => r = (c', res)) -> Q c') /\
  (forall c rid c' res, Q c -> unobserve c rid = (c', res) -> Q c') /\
  (forall c c', Q c -> retuned c c' -> Q c').

Lemma creachable_stable : stable creachable.
Proof. split; [exact cr_observe|]. split; [exact cr_unobserve|exact cr_retuned]. Qed.

Lemma grown_stable : stable grown.
Proof. split; [exact gr_observe|]. split; [exact gr_unobserve|exact gr_retuned]. Qed.

Lemma observe_stable : forall Q, stable Q -> forall c rid obs ins, Q c -> always (observe c rid obs ins) (fun r => Q (fst r)).
Proof.
  intros Q (SO & _) c rid obs ins RE. eapply always_imp; [|apply always_self]. intros [c' res] H. exact (SO c rid obs ins c' res RE H).
Qed.

Lemma transition_stable : forall Q, stable Q -> forall c rid, Q c -> always (transition_rows c rid) (fun r => Q (fst r)).
Proof.
  intros Q SQ c rid RE. unfold transition_rows. destruct c as [| | | |flex div arr mp]; try exact RE.
  destruct (unobserve (CMix flex div arr mp) rid) as [c1 res] eqn:E. assert (RE1 := proj1 (proj2 SQ) _ rid c1 res RE E).
  destruct res as [[obs ins]|e]; [|exact RE1]. destruct c1 as [| | | |flex1 div1 arr1 mp1]; try exact RE1. cbv zeta.
  destruct (do zs <- dist_support div1; _) as [[zs ws]|e]; [|exact RE1].
  apply always_bind. apply always_True. intros [i|e]; [|exact RE1]. apply observe_stable; assumption.
Qed.

Lemma reseat_stable : forall Q, stable Q -> forall c r0 r1, Q c -> always (set_rowid_component c r0 r1) (fun r => Q (fst r)).
Proof.
  intros Q SQ c r0 r1 RE. unfold set_rowid_component. destruct c as [| | | |flex div arr mp]; try exact RE.
  destruct (unobserve (CMix flex div arr mp) r0) as [c1 res] eqn:E. assert (RE1 := proj1 (proj2 SQ) _ r0 c1 res RE E).
  destruct r1 as [r1|].
  - destruct (int_is r0 r1); [exact RE|]. destruct (lookup r1 (dist_data div)); [|exact RE].
    destruct res as [[obs ins]|e]; [|exact RE1]. apply observe_stable; assumption.
  - destruct flex; [|exact RE]. destruct c1 as [| | | |flex1 div1 arr1 mp1]; destruct res as [[obs ins]|e]; try exact RE1.
    destruct (dist_support div1); [|exact RE1]. apply observe_stable; assumption.
Qed.

Lemma happens_stable : forall Q, stable Q -> forall m e m', Q m -> happens m e m' -> Q m'.
Proof.
  intros Q SQ m e m' RE H. destruct e as [rid obs|rid result|rid|r0 r1|]; cbn [happens] in H.
  - destruct H as (_ & _ & P). exact (proj1 SQ m rid obs [] m' _ RE P).
  - destruct H as [ins E]. exact (proj1 (proj2 SQ) m rid m' _ RE E).
  - destruct (always_possible _ _ _ (transition_stable Q SQ m rid RE) H) as (r & A & ->). exact A.
  - destruct (always_possible _ _ _ (reseat_stable Q SQ m r0 r1 RE) H) as (r & A & ->). exact A.
  - exact (proj2 (proj2 SQ) m m' RE H).
Qed.

(** ** One step *)

Lemma moved_records : forall m t rid z m' k f, records m t -> t rid = Some (k, f) -> moved m rid z m' ->
  records m' (put t rid (Some (vz z, f))).
Proof.
  intros m t rid z m' k f R T (M1 & M2 & M3 & (M4a & M4b & M4c) & M5 & M6 & M7) r. unfold put.
  destruct (eq_dec r rid) as [->|NE].
  - split; [exact M6|]. rewrite M4b. intros o Ho. rewrite M7 by exact Ho. destruct (R rid) as [_ R2]. rewrite R2 by exact Ho. rewrite T. reflexivity.
  - destruct (M5 r NE) as [A1 A2]. destruct (R r) as [R1 R2]. split; [congruence|]. rewrite M4b. intros o Ho. rewrite A2. apply R2. exact Ho.
Qed.

Lemma records_seat : forall m t rid k, records m t -> seat m rid = Some k -> exists f, t rid = Some (k, f).
Proof. intros m t rid k R S. destruct (R rid) as [R1 _]. rewrite S in R1. destruct (t rid) as [[k0 f]|]; [|discriminate]. injection R1 as <-. eauto. Qed.

Lemma records_free : forall m t rid, records m t -> seat m rid = None -> t rid = None.
Proof. intros m t rid R S. destruct (R rid) as [R1 _]. rewrite S in R1. destruct (t rid) as [[k0 f]|]; [discriminate|reflexivity]. Qed.

Lemma unobserve_seated : forall m rid m' res, wf m -> sheet m -> consistent m -> unobserve m rid = (m', Ok res) -> seat m rid <> None.
Proof.
  intros m rid m' res W S K E L. destruct (sheet_inv m S) as (s & bs & cs & r2i & r2c & -> & _). cbn [seat mkview] in L.
  unfold mkview in E. cbn [unobserve] in E. unfold mix_unobserve in E. destruct K as (_ & _ & A3 & _). 
  destruct (view_parts _ _ _ _ _ W) as (D & _).
  rewrite leaf_unobserve_unknown in E by (apply lookup_None; rewrite A3; exact L). discriminate.
Qed.

Lemma step_refines : forall m e m' t, wf m -> sheet m -> consistent m -> records m t -> happens m e m' ->
  sheet m' /\ consistent m' /\ same_columns m m' /\
  exists t', table_step (label_of m) (columns_of m) t e t' /\ records m' t'.
Proof.
  intros m e m' t W S K R H. destruct e as [rid obs|rid result|rid|r0 r1|]; cbn [happens] in H.
  - destruct H as (ND & LB & P). destruct (always_possible _ _ _ (view_observe m rid obs W S K ND LB) P) as (r & A & ->).
    destruct (A eq_refl) as (A1 & A2 & A3 & A4 & A5 & (z & Z1 & Z2 & Z3) & A7 & A8). cbn [fst] in *.
    split; [exact A2|]. split; [exact A3|]. split; [exact A4|]. destruct A4 as (A4a & A4b & A4c).
    destruct (seat m rid) as [k|] eqn:SE.
    + assert (k = vz z) by auto. subst k. destruct (records_seat m t rid _ R SE) as [f T].
      eexists. split; [eapply ts_more_cells; [exact T|]|].
      * intros o x Ho Lx. destruct (R rid) as [_ R2]. specialize (R2 o Ho). rewrite T in R2. rewrite <- R2. eapply A8; eauto.
      * intros r. unfold put. destruct (eq_dec r rid) as [->|NE].
        -- split; [exact Z1|]. rewrite A4b. intros o Ho. rewrite A7 by exact Ho. destruct (lookup o obs); [reflexivity|].
           destruct (R rid) as [_ R2]. rewrite R2 by exact Ho. rewrite T. reflexivity.
        -- destruct (A5 r NE) as [B1 B2]. destruct (R r) as [R1 R2]. split; [congruence|]. rewrite A4b. intros o Ho. rewrite B2. apply R2. exact Ho.
    + assert (T := records_free m t rid R SE). eexists. split; [eapply (ts_new_row _ _ t rid obs z T); intros y Hy; apply Z3; auto|].
      intros r. unfold put. destruct (eq_dec r rid) as [->|NE].
      -- split; [exact Z1|]. rewrite A4b. intros o Ho. rewrite A7 by exact Ho. destruct (lookup o obs); [reflexivity|].
         destruct (R rid) as [_ R2]. rewrite R2 by exact Ho. rewrite T. reflexivity.
      -- destruct (A5 r NE) as [B1 B2]. destruct (R r) as [R1 R2]. split; [congruence|]. rewrite A4b. intros o Ho. rewrite B2. apply R2. exact Ho.
  - destruct H as [ins E]. assert (L := unobserve_seated m rid m' _ W S K E).
    destruct (view_unobserve m rid W S K L) as (m1 & row & EU & (B1 & B2 & B3 & B4 & B5 & B6) & (R1 & R2 & R3 & R4)).
    rewrite EU in E. injection E as <- <- _. split; [exact B2|]. split; [exact B3|]. split; [exact B4|]. destruct B4 as (B4a & B4b & B4c).
    destruct (seat m rid) as [k|] eqn:SE; [|congruence]. destruct (records_seat m t rid _ R SE) as [f T].
    exists (put t rid None). split.
    + eapply ts_unobserve; eauto. intros o Ho. rewrite R4 by exact Ho. destruct (R rid) as [_ Q]. rewrite Q by exact Ho. rewrite T. reflexivity.
    + intros r. unfold put. destruct (eq_dec r rid) as [->|NE].
      * split; [exact B6|]. intros o _. destruct (sheet_inv m1 B2) as (s & bs & cs & r2i & r2c & -> & NB & B & C).
        cbn [seat mkview] in B6. cbn [cell mkview]. rewrite B6. reflexivity.
      * destruct (B5 r NE) as [C1 C2]. destruct (R r) as [Q1 Q2]. split; [congruence|]. rewrite B4b. intros o Ho. rewrite C2. apply Q2. exact Ho.
  - assert (L : seat m rid <> None).
    { intros L. unfold transition_rows in H. destruct m as [| | | |flex div arr mp]; try (cbn in H; congruence).
      destruct (unobserve (CMix flex div arr mp) rid) as [c1 res] eqn:E. destruct res as [[o i]|e]; [|cbn in H; congruence].
      exact (unobserve_seated _ _ _ _ W S K E L). }
    destruct (gibbs_moves m rid W S K L) as (m1 & s & s1 & _ & _ & _ & _ & _ & _ & A & _).
    destruct (always_possible _ _ _ A H) as (r & G & ->). destruct G as [(_ & z & _ & M)|G]; [|congruence]. cbn [fst] in M.
    assert (M0 := M). destruct M0 as (M1 & M2 & M3 & M4 & _). split; [exact M2|]. split; [exact M3|]. split; [exact M4|].
    destruct (seat m rid) as [k|] eqn:SE; [|congruence]. destruct (records_seat m t rid _ R SE) as [f T].
    eexists. split; [eapply (ts_transition _ _ t rid k f z T)|]. eapply moved_records; eauto.
  - destruct r1 as [r1|].
    + destruct (int_is r0 r1) eqn:II.
      { unfold set_rowid_component in H. destruct m as [| | | |flex div arr mp]; try (cbn in H; congruence).
        rewrite II in H. cbn in H. injection H as <-. split; [exact S|]. split; [exact K|]. split; [repeat split|].
        unfold int_is in II. apply andb_true_iff in II. destruct II as [II _]. apply andb_true_iff in II. destruct II as [II _].
        apply Z.eqb_eq in II. subst r1. exists t. split; [apply ts_same|exact R]. }
      assert (X : exists k z, seat m r0 = Some k /\ seat m r1 = Some (vz z) /\ moved m r0 z m').
      { unfold set_rowid_component in H. destruct m as [| | | |flex div arr mp]; try (cbn in H; congruence). rewrite II in H.
        assert (DV : exists s, div = DCrp s) by (inversion S; eauto). destruct DV as [s ->].
        assert (LD := view_divider _ s S K eq_refl r1).
        destruct (lookup r1 (dist_data (DCrp s))) as [z|] eqn:L1; [|cbn in H; congruence].
        destruct (unobserve (CMix flex (DCrp s) arr mp) r0) as [c1 res] eqn:E. destruct res as [[o i]|e]; [|cbn in H; congruence].
        assert (L := unobserve_seated _ _ _ _ W S K E).
        destruct (view_move _ r0 W S K L) as (m1 & row & s0 & s1 & EU & DR & WR & DV & DV1 & EO & ED & D1 & MV).
        rewrite EU in E. injection E as <- <- <-.
        destruct (seat (CMix flex (DCrp s) arr mp) r0) as [k|] eqn:SE; [|congruence].
        assert (ZI : exists z0, z = vz z0).
        { symmetry in LD. destruct K as (_ & _ & _ & _ & A5 & _). exact (A5 r1 z LD). }
        destruct ZI as [z0 ->]. exists k, z0. split; [reflexivity|]. split; [symmetry; exact LD|].
        assert (IZ : In z0 (crp_support s1)).
        { destruct DR as (W1 & S1 & K1 & SC1 & OS1 & SE1).
          assert (DM : {In z0 (crp_support s1)} + {~ In z0 (crp_support s1)}) by apply in_dec, Z.eq_dec. destruct DM as [|NI]; [assumption|]. exfalso.
          destruct (sheet_inv m1 S1) as (s' & bs & cs & r2i & r2c & -> & _). injection DV1 as ->.
          destruct (divider_rejects true (DCrp s1) (CFlexArr (crp_o s1) (CProd (map CDist bs)) cs r2i) r2c r0 (dset (label_of (CMix flex (DCrp s) arr mp)) (vz z0) row) (vz z0) D1) as [e X].
          - apply lookup_None. exact SE1.
          - cbn [dist_o]. rewrite EO. apply lookup_dset_eq.
          - right. cbn [kind_of in_domain]. change (vz z0) with (VQ (qz z0)). cbv iota. rewrite trunc_qz.
            intros X. apply NI. apply crp_support_spec; [apply D1|apply D1|exact X].
          - unfold mkview in H. cbn [label_of] in X. rewrite X in H. cbn in H. congruence. }
        destruct (MV z0 IZ) as (m2 & E2 & M2). cbn [label_of] in E2. rewrite E2 in H. cbn in H. injection H as ->. exact M2. }
      destruct X as (k & z & S0 & S1 & M). assert (M0 := M). destruct M0 as (M1 & M2 & M3 & M4 & _).
      split; [exact M2|]. split; [exact M3|]. split; [exact M4|].
      destruct (records_seat m t r0 _ R S0) as [f T]. destruct (records_seat m t r1 _ R S1) as [f1 T1].
      eexists. split; [eapply (ts_join _ _ t r0 k f r1 _ f1 T T1)|]. eapply moved_records; eauto.
    + assert (L : seat m r0 <> None).
      { intros L. unfold set_rowid_component in H. destruct m as [| | | |flex div arr mp]; try (cbn in H; congruence).
        destruct flex; [|cbn in H; congruence].
        destruct (unobserve (CMix true div arr mp) r0) as [c1 res] eqn:E. destruct res as [[o i]|e].
        - exact (unobserve_seated _ _ _ _ W S K E L).
        - destruct c1; cbn in H; congruence. }
      destruct (set_component_alone m r0 W S K L) as (m2 & z & E & M & NO). rewrite E in H. cbn in H. injection H as ->.
      assert (M0 := M). destruct M0 as (M1 & M2 & M3 & M4 & M5 & _). split; [exact M2|]. split; [exact M3|]. split; [exact M4|].
      destruct (seat m r0) as [k|] eqn:SE; [|congruence]. destruct (records_seat m t r0 _ R SE) as [f T].
      eexists. split; [eapply (ts_alone _ _ t r0 k f z T)|eapply moved_records; eauto].
      intros r [k' f'] NE T'. cbn [fst]. intros ->. apply (NO r NE). destruct (M5 r NE) as [-> _]. destruct (R r) as [R1 _]. rewrite T' in R1. exact R1.
  - destruct (retuned_view m m' W S K H) as (A1 & A2 & A3 & A4). split; [exact A1|]. split; [exact A2|]. split; [exact A3|].
    exists t. split; [apply ts_tune|]. intros r. destruct (A4 r) as [B1 B2]. destruct (R r) as [R1 R2]. destruct A3 as (_ & A3b & _).
    split; [congruence|]. rewrite A3b. intros o Ho. rewrite B2. apply R2. exact Ho.
Qed.

Lemma history_refines : forall Q, stable Q -> (forall c, Q c -> wf c) ->
  forall m es m', Q m -> sheet m -> consistent m -> forall t, records m t -> history m es m' ->
  Q m' /\ sheet m' /\ consistent m' /\ same_columns m m' /\
  exists t', table_history (label_of m) (columns_of m) t es t' /\ records m' t'.
Proof.
  intros Q SQ QW m es m' RE S K t R H. induction H as [|es m1 e m2 H IH HP].
  - split; [exact RE|]. split; [exact S|]. split; [exact K|]. split; [repeat split|]. exists t. split; [constructor|exact R].
  - destruct IH as (RE1 & S1 & K1 & (C1 & C2 & C3) & t1 & TH & R1).
    destruct (step_refines m1 e m2 t1 (QW _ RE1) S1 K1 R1 HP) as (S2 & K2 & (D1 & D2 & D3) & t2 & TS & R2).
    split; [exact (happens_stable Q SQ m1 e m2 RE1 HP)|]. split; [exact S2|]. split; [exact K2|].
    split; [split; [congruence|split; [congruence|intros o; rewrite D3; apply C3]]|].
    exists t2. split; [|exact R2]. econstructor; [exact TH|]. rewrite <- C1, <- C2. exact TS.
Qed.

(** ** New views *)

Lemma new_view_good : forall m, new_view m -> creachable m /\ sheet m /\ consistent m /\ records m (fun _ => None).
Proof.
  intros m (s & bs & -> & RE & D & NB & B). split; [exact RE|]. split.
  - unfold new_flexmix, new_flexarr. cbn [dist_o]. apply sheet_intro; auto. intros k c [].
  - split.
    + cbn [new_flexmix new_flexarr consistent row_index keys map]. split; [constructor|]. split; [constructor|].
      split; [intros r; rewrite D; reflexivity|]. split; [reflexivity|]. split; [discriminate|].
      intros r k d Hd Hr. exfalso. cbn [component_at lookup] in Hd. 
      assert (X : In d bs).
      { clear - Hd. cbn [leaves] in Hd. induction bs as [|b bs IH]; [exact Hd|]. cbn in Hd. destruct Hd as [->|Hd]; [now left|right; auto]. }
      destruct (B d X) as [_ E]. rewrite E in Hr. exact Hr.
    + intros r. split; [reflexivity|]. intros o _. reflexivity.
Qed.
