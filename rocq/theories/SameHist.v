(** Calls that do not change hyperparameters keep the settings. *)
From Coq Require Import List ZArith QArith Qcanon Reals Bool String Permutation Lia Lra.
From Verif Require Import Base Xr Samp Lgamma Prims Cgpm Lib SpecPrims PrimsInv PrimsDens PrimsThm PrimsThm2
  SpecComp CompInv CompDens CompThm SpecBook Book SpecTable Trans SpecHist Table Gibbs Hist SpecSame SameThm.
Import ListNotations.
Local Open Scope Z_scope.

(** A view whose divider has settings [st] and whose columns have settings [L] everywhere. *)
Definition fixed (st : dist) (L : list dist) (c : cgpm) : Prop :=
  exists s ix bs cs r2i r2c, c = CMix true (DCrp s) (CFlexArr ix (CProd (map CDist bs)) cs r2i) r2c /\
    settings (DCrp s) = st /\ map settings bs = L /\
    forall k c, In (k, c) cs -> exists ds, c = CProd (map CDist ds) /\ map settings ds = L.

Lemma crp_settings : forall d s, settings d = settings (DCrp s) -> exists s', d = DCrp s'.
Proof. intros d s E. destruct d; try discriminate E. eauto. Qed.

Lemma dists_observe_settings : forall ds rid obs ins, exists ds' res, observe (CProd (map CDist ds)) rid obs ins = Ret (CProd (map CDist ds'), res) /\
  map settings ds' = map settings ds.
Proof.
  intros ds rid obs ins. cbn [observe].
  enough (X : exists ds' res, prod_observe (map (fun c' => (c', observe c')) (map CDist ds)) rid obs ins = Ret (map CDist ds', res) /\ map settings ds' = map settings ds).
  { destruct X as (ds' & res & -> & E). exists ds', res. split; [reflexivity|exact E]. }
  induction ds as [|d ds IH]; [exists [], (Ok tt); split; reflexivity|]. destruct IH as (ds' & res & E & SE). cbn [map prod_observe].
  destruct (interd (outputs (CDist d)) obs) as [|e l].
  - rewrite E. exists (d :: ds'), res. split; [reflexivity|]. cbn [map]. congruence.
  - cbn [observe sbind]. match goal with |- context [dist_observe d rid (e :: l) ?i] => assert (LS := leaf_settings d rid (e :: l) i); destruct (dist_observe d rid (e :: l) i) as [d' r] end.
    cbn [sbind fst snd] in *. destruct r as [u|er].
    + rewrite E. exists (d' :: ds'), res. split; [reflexivity|]. cbn [map]. congruence.
    + exists (d' :: ds), (Err er). cbn [map]. rewrite !map_map. split; [reflexivity|]. congruence.
Qed.

Lemma dists_unobserve_settings : forall ds rid, exists ds' res, unobserve (CProd (map CDist ds)) rid = (CProd (map CDist ds'), res) /\
  map settings ds' = map settings ds.
Proof.
  intros ds rid. cbn [unobserve]. rewrite map_map. cbn [unobserve]. unfold prod_unobserve. destruct ds as [|d0 ds0]; [exists [], (Err ValueError); split; reflexivity|].
  set (ds := d0 :: ds0).
  set (rs := map (fun x => let (d', r) := dist_unobserve x rid in (CDist d', r)) ds).
  exists (map (fun d => fst (dist_unobserve d rid)) ds).
  exists (Ok (mergedl (map (fun p => fst (snd p)) (map unobserve_one rs)), mergedl (map (fun p => snd (snd p)) (map unobserve_one rs)))). split.
  - assert (E : map fst (map unobserve_one rs) = map CDist (map (fun d => fst (dist_unobserve d rid)) ds)).
    { unfold rs. rewrite !map_map. apply map_ext. intros d. destruct (dist_unobserve d rid) as [d' [[x y]|e]]; reflexivity. }
    rewrite <- E. reflexivity.
  - rewrite map_map. apply map_ext. intros d. apply leaf_settings_un.
Qed.

Lemma dset_fixed : forall L i ds (cs : dict val cgpm), map settings ds = L ->
  (forall k c, In (k, c) cs -> exists ds, c = CProd (map CDist ds) /\ map settings ds = L) ->
  forall k c, In (k, c) (dset i (CProd (map CDist ds)) cs) -> exists l, c = CProd (map CDist l) /\ map settings l = L.
Proof.
  intros L i ds cs E C k c Hc. induction cs as [|[k0 c0] cs IH]; cbn [dset] in Hc.
  - destruct Hc as [Hc|[]]. injection Hc as _ <-. eauto.
  - destruct (eq_dec i k0); destruct Hc as [Hc|Hc]; try (injection Hc as _ <-).
    + eauto.
    + apply (C k). now right.
    + apply (C k0). now left.
    + apply IH; [intros k' c' H'; apply (C k'); now right|exact Hc].
Qed.

Lemma read_dists : forall {A} (g : cgpm -> A) L bs (cs : dict val cgpm) i, map settings bs = L ->
  (forall k c, In (k, c) cs -> exists ds, c = CProd (map CDist ds) /\ map settings ds = L) ->
  exists ds, (match lookup i (map (fun p => let '(k, c') := p in (k, g c')) cs) with Some f => f | None => g (CProd (map CDist bs)) end) =
    g (CProd (map CDist ds)) /\ map settings ds = L.
Proof.
  intros A g L bs cs i E C. rewrite (read_component g 0 (CProd (map CDist bs)) cs [] i). cbn [component_at].
  destruct (lookup i cs) as [c|] eqn:LK; [|eauto]. destruct (C _ _ (lookup_In _ _ _ LK)) as (ds & -> & F). eauto.
Qed.

Lemma fixed_observe : forall st L c rid obs ins, fixed st L c -> always (observe c rid obs ins) (fun r => fixed st L (fst r)).
Proof.
  intros st L c rid obs ins (s & ix & bs & cs & r2i & r2c & -> & ST & SB & C). cbn [observe].
  change (flexarr_observe ix (CProd (map CDist bs)) _ cs _ r2i) with (observe (CFlexArr ix (CProd (map CDist bs)) cs r2i)).
  assert (X : forall s' r2c' z, settings (DCrp s') = st -> always (mix_observe_x true (DCrp s') (CFlexArr ix (CProd (map CDist bs)) cs r2i)
     (observe (CFlexArr ix (CProd (map CDist bs)) cs r2i)) r2c' rid obs ins z) (fun r => fixed st L (fst r))).
  { intros s' r2c' z ST'. unfold mix_observe_x.
    change (observe (CFlexArr ix (CProd (map CDist bs)) cs r2i)) with (flexarr_observe ix (CProd (map CDist bs)) (observe (CProd (map CDist bs))) cs
       (map (fun p => let '(k, c') := p in (k, observe c')) cs) r2i).
    unfold flexarr_observe.
    destruct (lookup _ (merged _ _)) as [i|]; [|exists s', ix, bs, cs, r2i, r2c'; auto].
    destruct (read_dists observe L bs cs i SB C) as (ds & -> & SD).
    destruct (dists_observe_settings ds rid (interd (outputs (CFlexArr ix (CProd (map CDist bs)) cs r2i)) obs)
      (ddel ix (merged (interd (tl (inputs (CFlexArr ix (CProd (map CDist bs)) cs r2i))) ins) [(dist_o (DCrp s'), z)]))) as (ds' & res & E & SE).
    rewrite E. cbn [sbind fst snd].
    assert (CD := dset_fixed L i ds' cs (eq_trans SE SD) C).
    destruct res as [u|e]; cbn [sbind fst snd].
    - exists s', ix, bs, (dset i (CProd (map CDist ds')) cs), (dset rid i r2i), r2c'. auto.
    - exists s', ix, bs, (dset i (CProd (map CDist ds')) cs), r2i, r2c'. auto. }
  unfold mix_observe. cbv zeta. destruct (lookup rid r2c) as [z|]; [apply X; exact ST|].
  apply always_bind, always_True. intros [z|e]; [|exists s, ix, bs, cs, r2i, r2c; auto].
  assert (LS := leaf_settings (DCrp s) rid [(dist_o (DCrp s), z)] []).
  destruct (dist_observe (DCrp s) rid [(dist_o (DCrp s), z)] []) as [div' res]. cbn [fst] in LS.
  destruct (crp_settings _ _ LS) as (s2 & ->). destruct res as [u|e]; [apply X; congruence|].
  exists s2, ix, bs, cs, r2i, r2c. repeat split; auto. congruence.
Qed.

Lemma fixed_unobserve : forall st L c rid, fixed st L c -> fixed st L (fst (unobserve c rid)).
Proof.
  intros st L c rid (s & ix & bs & cs & r2i & r2c & -> & ST & SB & C).
  change (unobserve (CMix true (DCrp s) (CFlexArr ix (CProd (map CDist bs)) cs r2i) r2c) rid) with
    (mix_unobserve true (DCrp s) (CFlexArr ix (CProd (map CDist bs)) cs r2i) (flexarr_unobserve ix (CProd (map CDist bs)) (unobserve (CProd (map CDist bs))) cs
       (map (fun p => let '(k, c') := p in (k, unobserve c')) cs) r2i) r2c rid).
  unfold mix_unobserve. assert (LS := leaf_settings_un (DCrp s) rid). destruct (dist_unobserve (DCrp s) rid) as [div' res]. cbn [fst] in LS.
  destruct (crp_settings _ _ LS) as (s2 & ->). assert (ST2 : settings (DCrp s2) = st) by congruence.
  destruct res as [[x y]|e]; [|exists s2, ix, bs, cs, r2i, r2c; auto].
  unfold flexarr_unobserve. destruct (lookup rid r2i) as [i|]; [|exists s2, ix, bs, cs, r2i, r2c; auto].
  destruct (read_dists unobserve L bs cs i SB C) as (ds & -> & SD).
  destruct (dists_unobserve_settings ds rid) as (ds' & res & -> & SE).
  assert (CD := dset_fixed L i ds' cs (eq_trans SE SD) C).
  destruct res as [[a b]|e]; [|exists s2, ix, bs, (dset i (CProd (map CDist ds')) cs), (ddel rid r2i), r2c; auto].
  destruct (dmem rid r2c).
  - exists s2, ix, bs, (dset i (CProd (map CDist ds')) cs), (ddel rid r2i), (ddel rid r2c). auto.
  - exists s2, ix, bs, (dset i (CProd (map CDist ds')) cs), (ddel rid r2i), r2c. auto.
Qed.

Lemma fixed_transition : forall st L c rid, fixed st L c -> always (transition_rows c rid) (fun r => fixed st L (fst r)).
Proof.
  intros st L c rid RE. unfold transition_rows. destruct c as [| | | |flex div arr mp]; try exact RE.
  assert (RE1 := fixed_unobserve st L _ rid RE). destruct (unobserve (CMix flex div arr mp) rid) as [c1 res] eqn:E. cbn [fst] in RE1.
  destruct res as [[obs ins]|e]; [|exact RE1]. destruct c1 as [| | | |flex1 div1 arr1 mp1]; try exact RE1. cbv zeta.
  destruct (do zs <- dist_support div1; _) as [[zs ws]|e]; [|exact RE1].
  apply always_bind. apply always_True. intros [i|e]; [|exact RE1]. apply fixed_observe; assumption.
Qed.

Lemma fixed_reseat : forall st L c r0 r1, fixed st L c -> always (set_rowid_component c r0 r1) (fun r => fixed st L (fst r)).
Proof.
  intros st L c r0 r1 RE. unfold set_rowid_component. destruct c as [| | | |flex div arr mp]; try exact RE.
  assert (RE1 := fixed_unobserve st L _ r0 RE). destruct (unobserve (CMix flex div arr mp) r0) as [c1 res] eqn:E. cbn [fst] in RE1.
  destruct r1 as [r1|].
  - destruct (int_is r0 r1); [exact RE|]. destruct (lookup r1 (dist_data div)); [|exact RE].
    destruct res as [[obs ins]|e]; [|exact RE1]. apply fixed_observe; assumption.
  - destruct flex; [|exact RE]. destruct c1 as [| | | |flex1 div1 arr1 mp1]; destruct res as [[obs ins]|e]; try exact RE1.
    destruct (dist_support div1); [|exact RE1]. apply fixed_observe; assumption.
Qed.

Lemma fixed_history : forall st L m es m', fixed st L m -> untuned es -> history m es m' -> fixed st L m'.
Proof.
  intros st L m es m' F U H. induction H as [|es m1 e m2 H IH HP]; [exact F|].
  assert (F1 : fixed st L m1) by (apply IH; intros J; apply U, in_or_app; now left).
  destruct e as [rid obs|rid result|rid|r0 r1|]; cbn [happens] in HP.
  - destruct HP as (_ & _ & P). destruct (always_possible _ _ _ (fixed_observe st L m1 rid obs [] F1) P) as (r & A & ->). exact A.
  - destruct HP as [ins E]. assert (A := fixed_unobserve st L m1 rid F1). rewrite E in A. exact A.
  - destruct (always_possible _ _ _ (fixed_transition st L m1 rid F1) HP) as (r & A & ->). exact A.
  - destruct (always_possible _ _ _ (fixed_reseat st L m1 r0 r1 F1) HP) as (r & A & ->). exact A.
  - exfalso. apply U, in_or_app. right. now left.
Qed.

Lemma fixed_new : forall m, new_view m -> exists st L, fixed st L m.
Proof.
  intros m (s & bs & -> & _). exists (settings (DCrp s)), (map settings bs). exists s, (crp_o s), bs, [], [], []. repeat split. intros k c [].
Qed.

Lemma fixed_component : forall st L flex div arr r2c, fixed st L (CMix flex div arr r2c) ->
  settings div = st /\ forall k, map settings (leaves (component_at arr k)) = L.
Proof.
  intros st L flex div arr r2c (s & ix & bs & cs & r2i & r2c0 & E & ST & SB & C). injection E as -> -> -> ->. split; [exact ST|].
  intros k. cbn [component_at]. destruct (lookup k cs) as [c|] eqn:LK; [|rewrite leaves_prod; exact SB].
  destruct (C _ _ (lookup_In _ _ _ LK)) as (ds & -> & F). rewrite leaves_prod. exact F.
Qed.

Lemma fixed_same : forall st L m m', fixed st L m -> fixed st L m' -> same_settings m m'.
Proof.
  intros st L m m' F F'. assert (X := F). assert (X' := F'). destruct X as (s & ix & bs & cs & r2i & r2c & -> & _). destruct X' as (s' & ix' & bs' & cs' & r2i' & r2c' & -> & _).
  destruct (fixed_component _ _ _ _ _ _ F) as [A B]. destruct (fixed_component _ _ _ _ _ _ F') as [A' B']. split; [congruence|]. intros k. rewrite B, B'. reflexivity.
Qed.
