(** Lemmas for reassigning columns to views. *)
From Coq Require Import List ZArith QArith Qcanon Reals Bool String Lia Permutation.
From Verif Require Import Base Xr Samp Lgamma Prims Cgpm Lib SpecPrims PrimsInv PrimsDens PrimsThm2
  SpecComp CompInv CompDens SpecBook Book SpecTable SpecSim SimShape SimTotal SimLaw Trans SpecHist Table Gibbs Hist Meta MetaThm
  Walks SpecWalks WalksThm PropPrims PropWalks Views SpecViews.
Import ListNotations.
Local Open Scope Z_scope.

(** ** Outcomes *)

Lemma given_bind : forall {A B} F (m : samp A) (f : A -> samp B) P, given F m (fun a => given F (f a) P) -> given F (sbind m f) P.
Proof. induction m; intros f P X; cbn [sbind given] in *; auto. Qed.

Lemma given_imp : forall {A} F (m : samp A) (P Q : A -> Prop), (forall a, P a -> Q a) -> given F m P -> given F m Q.
Proof. induction m; intros P Q HPQ X; cbn [given] in *; eauto. Qed.

Lemma given_always : forall {A} F (m : samp A) P, always m P -> given F m P.
Proof. induction m; intros P X; cbn [always given] in *; auto. Qed.

Lemma always_given : forall {A} (m : samp A) P, given (fun _ => True) m P -> always m P.
Proof. induction m; intros P X; cbn [always given] in *; auto. Qed.

Lemma given_and : forall {A} F (m : samp A) (P Q : A -> Prop), given F m P -> given F m Q -> given F m (fun a => P a /\ Q a).
Proof. induction m; intros P Q X1 X2; cbn [given] in *; auto. Qed.

(** ** Empty primitives *)

Lemma empty_settings : forall d, dinv d -> dist_data d = [] -> kind_of d <> KTable -> d = settings d.
Proof.
  intros d (_ & _ & S & _) E K. rewrite E in S. destruct d as [s|s|s|s|s|s]; cbn in *; [congruence| | | | |].
  - destruct s as [o k data N counts a]. cbn in *. destruct S as [-> ->]. subst data. cbn.
    unfold cat_new. do 2 f_equal.
    assert (X : forall n, map (fun z => 0) (zrange n) = repeat 0 n).
    { intros n. unfold zrange. rewrite map_map. generalize 0%nat. induction n as [|n IH]; intros i; [reflexivity|]. cbn. f_equal. apply IH. }
    apply X.
  - destruct s as [o data N x a b]. cbn in *. destruct S as [-> ->]. subst data. reflexivity.
  - destruct s as [o data N x slf a b]. cbn in *. destruct S as (-> & -> & ->). subst data. reflexivity.
  - destruct s as [o data N x slf a b]. cbn in *. destruct S as (-> & -> & ->). subst data. reflexivity.
  - destruct s as [o data N x slf a b]. cbn in *. destruct S as (-> & -> & ->). subst data. reflexivity.
Qed.

Lemma empty_reachable : forall d, dinv d -> dist_data d = [] -> kind_of d <> KTable -> reachable d.
Proof.
  intros d D E K. exists (settings d), []. split; [apply settings_fresh; exact D|]. cbn. apply empty_settings; assumption.
Qed.

(** ** Recording cells *)

Lemma divider_draw : forall s rid, dinv (DCrp s) -> lookup rid (dist_data (DCrp s)) = None ->
  always (dist_simulate (DCrp s) (Some rid) [crp_o s] [] [] None)
    (fun r => exists z, (do x <- r; sres_get (crp_o s) x) = Ok (vz z) /\ In z (crp_support s)).
Proof.
  intros s rid D L.
  assert (T := dist_total (DCrp s) (Some rid) None (fun _ => False) D).
  assert (U : unrecorded (Some rid) (dist_data (DCrp s))) by (cbn [unrecorded]; apply lookup_None; exact L).
  specialize (T U). cbn [dist_o] in T.
  assert (P : always (dist_simulate (DCrp s) (Some rid) [crp_o s] [] [] None)
    (fun r => match r with Ok x => exists z, sres_get (crp_o s) x = Ok (vz z) /\ In z (crp_support s) | Err _ => True end)).
  { clear T U. cbn [dist_simulate]. unfold simulate_many. unfold crp_simulate1.
    assert (OR := crp_on_record s (Some rid)). cbn [on_record] in OR. rewrite L in OR.
    destruct (base_simulate (crp_o s) [crp_o s] [] []) eqn:B; [|exact I].
    destruct (lookup rid (crp_data s)) as [x|]; [discriminate|].
    destruct (oseq _) as [ws|e] eqn:E; [|exact I].
    apply oseq_length in E. rewrite map_length in E.
    unfold sobind. apply always_bind. apply always_bind. assert (F := flip_index ws). revert F. apply always_imp.
    intros [i|e] F; cbn [always]; [|exact I]. unfold sres_get, dget. rewrite lookup_cons_eq.
    exists (nth i (crp_support s) 0). split; [reflexivity|]. apply nth_In. cbn in F. lia. }
  assert (H := always_and _ _ _ T P). revert H. apply always_imp. intros [x|e] [A B]; [exact B|destruct A].
Qed.

Lemma kind_column : forall s bs cs r2i r2c k d, wf (mkview s bs cs r2i r2c) -> shaped bs cs -> In d (cols bs cs k) ->
  kind_at (mkview s bs cs r2i r2c) (dist_o d) = Some (kind_of d).
Proof.
  intros s bs cs r2i r2c k d W SH Hd. destruct (view_parts _ _ _ _ _ W) as (D & Db & NDb & NI & NDk & Dc).
  destruct SH as (NB & B & C). destruct (alike_kind_at bs (cols bs cs k) d (cols_alike bs cs k C) NDb Hd) as (b & Hb & E1 & E2).
  rewrite <- E1, <- E2. apply kind_at_base; assumption.
Qed.

Lemma view_observe_ok : forall m rid obs, wf m -> sheet m -> consistent m -> NoDup (keys obs) ->
  lookup (label_of m) obs = None ->
  (forall o x, In o (columns_of m) -> lookup o obs = Some x ->
     cell m rid o = None /\ exists K, kind_at m o = Some K /\ in_domain K [] x) ->
  always (observe m rid obs []) (fun r => snd r = Ok tt).
Proof.
  intros m rid obs W S K ND LB OB. destruct (sheet_inv m S) as (s & bs & cs & r2i & r2c & -> & NB & B & C).
  assert (SH : shaped bs cs) by (split; [exact NB|split; assumption]).
  assert (KW : kept_well s bs cs r2i r2c) by (apply (consistent_parts s bs cs r2i r2c SH); exact K).
  destruct (view_parts _ _ _ _ _ W) as (D & Db & NDb & NI & NDk & Dc).
  assert (KW0 := KW). destruct KW0 as (N1 & N2 & A3 & A4 & A5 & A6).
  assert (COL : columns_of (mkview s bs cs r2i r2c) = map dist_o bs) by apply outputs_prod. rewrite COL in OB.
  cbn [label_of mkview dist_o] in LB.
  assert (OKs : forall k, lookup rid r2c = None \/ lookup rid r2c = Some k ->
    forall d, In d (cols bs cs k) -> forall x, lookup (dist_o d) obs = Some x ->
        in_domain (kind_of d) (dist_data d) x /\ ~ In rid (keys (dist_data d))).
  { intros k RS d Hd x Lx. destruct (cols_good s bs cs r2i r2c W B C k) as (GD & GN & GO).
    assert (Ho : In (dist_o d) (map dist_o bs)) by (rewrite <- GO; now apply in_map).
    destruct (OB _ _ Ho Lx) as (CN & K0 & EK & DM). rewrite (kind_column s bs cs r2i r2c k d W SH Hd) in EK. injection EK as <-.
    split; [apply (domain_data _ []); [apply GD; exact Hd|exact DM]|].
    intros X. assert (Y := A6 rid k d Hd X). rewrite cell_parts in CN by exact SH. rewrite Y in CN.
    rewrite in_column_Some in CN by assumption. apply lookup_None in CN. contradiction. }
  unfold mkview. cbn [observe].
  change (flexarr_observe (crp_o s) (CProd (map CDist bs)) _ cs _ r2i) with (observe (CFlexArr (crp_o s) (CProd (map CDist bs)) cs r2i)).
  unfold mix_observe. cbv zeta. cbn [dist_o].
  destruct (lookup rid r2c) as [k|] eqn:L.
  - destruct (A5 _ _ L) as [z ->].
    destruct (view_observe_x s s bs cs r2i r2c rid obs z W SH KW ND (or_intror L) eq_refl D) as (m' & res & E & _ & R).
    { intros r. rewrite A3. destruct (eq_dec r rid) as [->|]; [exact L|reflexivity]. }
    rewrite (dset_same r2c rid (vz z) L) in E. rewrite E. cbn [always snd]. apply R. apply OKs. now right.
  - rewrite LB. apply always_bind, always_bind. eapply always_imp; [|apply divider_draw; [exact D|rewrite A3; exact L]].
    intros r (z & -> & Hz). cbn [always].
    assert (NR : ~ In rid (keys (dist_data (DCrp s)))) by (apply lookup_None; rewrite A3; exact L).
    destruct (leaf_accepts (DCrp s) rid (vz z) D NR (proj1 (support_domain (DCrp s) _ z D eq_refl) Hz)) as (div' & ED & DD).
    cbn [dist_o] in ED. rewrite ED.
    assert (FR := observe_frame (DCrp s) rid [(crp_o s, vz z)] []). rewrite ED in FR. cbn [fst] in FR. destruct FR as (FK & FO & _).
    assert (D' := observe_dinv (DCrp s) rid [(crp_o s, vz z)] [] D). rewrite ED in D'. cbn [fst] in D'.
    destruct div' as [s'| | | | |]; try discriminate FK.
    destruct (view_observe_x s s' bs cs r2i r2c rid obs z W SH KW ND (or_introl L) FO D') as (m' & res & E & _ & R).
    { intros r0. rewrite DD. rewrite lookup_app. rewrite A3. replace (stored (kind_of (DCrp s)) (vz z)) with (vz z) by (cbn; now rewrite trunc_qz).
      destruct (eq_dec r0 rid) as [->|NE].
      - rewrite L. cbn. destruct (eq_dec rid rid); [reflexivity|congruence].
      - destruct (lookup r0 r2c); [reflexivity|]. cbn. destruct (eq_dec r0 rid); [congruence|reflexivity]. }
    rewrite E. cbn [always snd]. apply R. apply OKs. now left.
Qed.

Definition good (m : cgpm) : Prop := grown m /\ sheet m /\ consistent m.

Lemma good_wf : forall m, good m -> wf m.
Proof. intros m (G & _ & _). apply (grown_sound m G). Qed.

Lemma good_maps : forall m, good m -> maps m.
Proof. intros m (G & _ & _). apply (grown_sound m G). Qed.

Lemma observe_grown : forall c rid obs ins, grown c -> always (observe c rid obs ins) (fun r => grown (fst r)).
Proof.
  intros c rid obs ins G. assert (A := always_self (observe c rid obs ins)). revert A. apply always_imp.
  intros [c' res] P. cbn [fst]. eapply gr_observe; eassumption.
Qed.

Lemma cell_outside : forall m r o, wf m -> sheet m -> ~ In o (columns_of m) -> cell m r o = None.
Proof.
  intros m r o W Sh N. destruct (sheet_inv m Sh) as (s & bs & cs & r2i & r2c & -> & NB & B & C).
  assert (SH : shaped bs cs) by (split; [exact NB|split; assumption]).
  rewrite cell_parts by exact SH. destruct (lookup r r2c) as [k|]; [|reflexivity].
  apply in_column_None. destruct (cols_good s bs cs r2i r2c W B C k) as (_ & _ & GO). rewrite GO.
  intros X. apply N. change (In o (outputs (CProd (map CDist bs)))). rewrite outputs_prod. exact X.
Qed.

Lemma label_outside : forall m, wf m -> sheet m -> ~ In (label_of m) (columns_of m).
Proof.
  intros m W Sh. destruct (sheet_inv m Sh) as (s & bs & cs & r2i & r2c & -> & _).
  destruct (view_parts _ _ _ _ _ W) as (_ & _ & _ & NI & _). cbn [label_of mkview dist_o columns_of]. 
  change (~ In (crp_o s) (outputs (CProd (map CDist bs)))). rewrite outputs_prod. exact NI.
Qed.

(** Cells [(row, column, value)] to be recorded, as observations. *)
Definition entries (T : list (Z * Z * val)) : list (Z * row) := map (fun t => let '(r, o, x) := t in (r, [(o, x)])) T.

Definition fits (p : cgpm) (t : Z * Z * val) : Prop :=
  let '(r, o, x) := t in In o (columns_of p) /\ cell p r o = None /\ exists K, kind_at p o = Some K /\ in_domain K [] x.

Definition filled (T : list (Z * Z * val)) (p q : cgpm) : Prop :=
  good q /\ same_columns p q /\
  (forall r o x, In (r, o, x) T -> cell q r o = Some x) /\
  (forall r o, (forall x, ~ In (r, o, x) T) -> cell q r o = cell p r o) /\
  (forall r k, seat p r = Some k -> seat q r = Some k) /\
  (forall r, seat q r <> None -> seat p r <> None \/ exists o x, In (r, o, x) T).

Lemma one_step : forall p r o x T, good p -> (forall t, In t ((r, o, x) :: T) -> fits p t) -> NoDup (map fst ((r, o, x) :: T)) ->
  always (observe p r [(o, x)] []) (fun q => snd q = Ok tt /\ good (fst q) /\ (forall t, In t T -> fits (fst q) t) /\
    (forall U, filled T (fst q) U -> filled ((r, o, x) :: T) p U) /\ recorded_as p r [(o, x)] (fst q)).
Proof.
  intros p r o x T G F ND. assert (W := good_wf p G). assert (G0 := G). destruct G0 as (Gr & Sh & K).
  destruct (F _ (or_introl eq_refl)) as (Ho & CN & KD).
  assert (ND1 : NoDup (keys [(o, x)])) by (repeat constructor; intros []).
  assert (LB : lookup (label_of p) [(o, x)] = None).
  { rewrite lookup_cons_neq; [reflexivity|]. intros E. apply (label_outside p W Sh). rewrite E. exact Ho. }
  assert (X : always (observe p r [(o, x)] []) (fun q => snd q = Ok tt)).
  { apply view_observe_ok; auto. intros o' x' Ho' L'. cbn [lookup] in L'. destruct (eq_dec o' o) as [->|]; [|discriminate].
    injection L' as <-. auto. }
  assert (Y := view_observe p r [(o, x)] W Sh K ND1). 
  assert (Y' : always (observe p r [(o, x)] []) (fun q => snd q = Ok tt -> recorded_as p r [(o, x)] (fst q))).
  { apply Y. intros y E. rewrite LB in E. discriminate. }
  assert (Z := observe_grown p r [(o, x)] [] Gr).
  assert (A := always_and _ _ _ X (always_and _ _ _ Y' Z)). revert A. apply always_imp. intros [q res] (E & R & Gq). cbn [fst snd] in *.
  specialize (R E). split; [exact E|]. assert (R0 := R). destruct R0 as (Wq & Shq & Kq & SC & OS & (z & SZ & S1 & S2) & CL & _).
  assert (Gd : good q) by (split; [exact Gq|split; assumption]). split; [exact Gd|].
  assert (SC0 := SC). destruct SC0 as (C1 & C2 & C3).
  assert (CE : forall r' o', (r', o') <> (r, o) -> cell q r' o' = cell p r' o').
  { intros r' o' N. destruct (Z.eq_dec r' r) as [->|NR]; [|apply OS; exact NR].
    destruct (in_dec Z.eq_dec o' (columns_of p)) as [I0|I0].
    - rewrite (CL o' I0). rewrite lookup_cons_neq by congruence. reflexivity.
    - rewrite !cell_outside; auto. rewrite C2. exact I0. }
  cbn [map] in ND. inversion ND as [|? ? NI ND2]; subst. cbn [fst] in NI.
  split; [|split; [|exact R]].
  - intros [[r' o'] x'] Ht. assert (F' := F _ (or_intror Ht)). destruct F' as (Ho' & CN' & KD'). split; [rewrite C2; exact Ho'|].
    split; [|rewrite C3; exact KD']. rewrite CE; [exact CN'|]. intros E0. apply NI. rewrite <- E0. apply (in_map fst) in Ht. exact Ht.
  - intros U (GU & (D1 & D2 & D3) & U1 & U2 & U3 & U4). split; [exact GU|]. split; [split; [congruence|split; [congruence|intros; rewrite D3; apply C3]]|].
    split; [|split; [|split]].
    + intros r' o' x' [E0|Ht]; [|apply U1; exact Ht]. injection E0 as <- <- <-. rewrite U2.
      * rewrite (CL o Ho). rewrite lookup_cons_eq. reflexivity.
      * intros y Hy. apply NI. apply (in_map fst) in Hy. exact Hy.
    + intros r' o' N. rewrite U2 by (intros y Hy; apply (N y); now right). apply CE. intros E0. injection E0 as -> ->. apply (N x). now left.
    + intros r' k SE. apply U3. destruct (Z.eq_dec r' r) as [->|NR]; [|rewrite (proj1 (OS r' NR)); exact SE].
      rewrite SZ. f_equal. symmetry. apply S1. exact SE.
    + intros r' SE. destruct (U4 r' SE) as [H|(o' & y & H)]; [|right; exists o', y; now right].
      destruct (Z.eq_dec r' r) as [->|NR]; [right; exists o, x; now left|]. left. rewrite <- (proj1 (OS r' NR)). exact H.
Qed.

Lemma rows_fill : forall T p, good p -> (forall t, In t T -> fits p t) -> NoDup (map fst T) ->
  always (observe_rows p (entries T)) (fun q => snd q = Ok tt /\ filled T p (fst q)).
Proof.
  induction T as [|[[r o] x] T IH]; intros p G F ND.
  - cbn. split; [reflexivity|]. split; [exact G|]. split; [split; [reflexivity|split; reflexivity]|].
    split; [intros ? ? ? []|]. split; [reflexivity|]. split; [auto|]. intros. now left.
  - change (entries ((r, o, x) :: T)) with ((r, [(o, x)]) :: entries T). cbn [observe_rows]. apply always_bind.
    assert (A := one_step p r o x T G F ND). revert A. apply always_imp. intros [q res] (E & Gq & Fq & U & _). cbn [fst snd] in *. subst res.
    assert (ND' : NoDup (map fst T)) by (inversion ND; assumption).
    assert (B := IH q Gq Fq ND'). revert B. apply always_imp. intros [q' res'] [E' F']. cbn [fst snd] in *. auto.
Qed.

(** *** Rows that have a cluster already *)

Lemma takes_other : forall rid o x d d', takes rid [(o, x)] d d' -> dist_o d <> o -> d' = d.
Proof. intros rid o x d d' T N. unfold takes in T. rewrite lookup_cons_neq in T by exact N. exact T. Qed.

Lemma view_observe_seated : forall s bs cs r2i r2c rid o x z, let k := vz z in
  wf (mkview s bs cs r2i r2c) -> shaped bs cs -> kept_well s bs cs r2i r2c -> lookup rid r2c = Some k -> In o (map dist_o bs) ->
  exists ds' res, observe (mkview s bs cs r2i r2c) rid [(o, x)] [] = Ret (mkview s bs (dset k (CProd (map CDist ds')) cs) r2i r2c, res) /\
    Forall2 (fun d d' => dist_o d <> o -> d' = d) (cols bs cs k) ds'.
Proof.
  intros s bs cs r2i r2c rid o x z k W SH KW L Ho. assert (SH0 := SH). destruct SH0 as (NB & B & C).
  assert (KW0 := KW). destruct KW0 as (N1 & N2 & A3 & A4 & A5 & A6).
  destruct (cols_good s bs cs r2i r2c W B C k) as (GD & GN & GO).
  unfold mkview at 1. cbn [observe].
  change (flexarr_observe (crp_o s) (CProd (map CDist bs)) _ cs _ r2i) with (observe (CFlexArr (crp_o s) (CProd (map CDist bs)) cs r2i)).
  unfold mix_observe. cbv zeta. cbn [dist_o]. rewrite L.
  unfold mix_observe_x. cbn [dist_o]. rewrite view_inputs, array_observe by exact SH.
  assert (OA : outputs (CFlexArr (crp_o s) (CProd (map CDist bs)) cs r2i) = map dist_o bs) by (apply outputs_prod).
  rewrite OA.
  assert (EI : interd (map dist_o bs) [(o, x)] = [(o, x)]).
  { unfold interd. cbn [filter fst]. rewrite (proj2 (memb_In _ _) Ho). reflexivity. }
  rewrite EI.
  destruct (columns_observe (cols bs cs k) rid [(o, x)]) as (ds' & res & E & H).
  { intros d Hd. apply GD. exact Hd. }
  { repeat constructor. intros []. }
  exists ds', res. rewrite E. cbn [sbind snd fst]. destruct H as [[-> F]|(e & ds1 & ds1' & d & ds2 & -> & E1 & E2 & F & _)].
  - cbn [sbind fst snd]. split.
    + unfold mkview. rewrite (dset_same r2i rid k); [reflexivity|]. rewrite A4. exact L.
    + clear - F. induction F; constructor; [intros N; eapply takes_other; eauto|assumption].
  - cbn [sbind fst snd]. split; [reflexivity|]. rewrite E1, E2. apply Forall2_app.
    + clear - F. induction F; constructor; [intros N; eapply takes_other; eauto|assumption].
    + constructor; [auto|]. clear. induction ds2; constructor; auto.
Qed.

Definition extends (v p : cgpm) : Prop :=
  exists s bs cs r2i r2c bsP csP, v = mkview s bs cs r2i r2c /\ p = mkview s bsP csP r2i r2c /\
    forall k c, In (k, c) cs -> exists l l', c = CProd (map CDist l) /\ lookup k csP = Some (CProd (map CDist (l ++ l'))).

Lemma live_extends : forall v p, extends v p -> live v p = v.
Proof.
  intros v p (s & bs & cs & r2i & r2c & bsP & csP & -> & -> & H). unfold mkview, live. f_equal. f_equal.
  rewrite <- (map_id cs) at 2. apply map_ext_in. intros [k c] Hc. destruct (H k c Hc) as (l & l' & -> & ->).
  f_equal. f_equal. rewrite map_app, map_length. rewrite firstn_app, map_length, Nat.sub_diag. cbn [firstn].
  rewrite app_nil_r. rewrite <- (map_length CDist l). apply firstn_all.
Qed.

Lemma extends_step : forall v p r o x, good v -> good p -> extends v p -> seat p r <> None -> In o (columns_of p) -> ~ In o (columns_of v) ->
  exists q res, observe p r [(o, x)] [] = Ret (q, res) /\ extends v q.
Proof.
  intros v p r o x Gv G EX SE Ho Nv. assert (W := good_wf p G). destruct G as (_ & Sh & K). assert (Wv := good_wf v Gv). destruct Gv as (_ & Shv & Kv).
  destruct EX as (s & bs & cs & r2i & r2c & bsP & csP & -> & -> & H).
  assert (SH := proj1 (sheet_shaped _ _ _ _ _) Sh). assert (KW := proj1 (consistent_parts _ _ _ _ _ SH) K).
  assert (SHv := proj1 (sheet_shaped _ _ _ _ _) Shv).
  cbn [seat mkview] in SE. destruct (lookup r r2c) as [k|] eqn:L; [|congruence]. destruct KW as (N1 & N2 & A3 & A4 & A5 & A6).
  destruct (A5 _ _ L) as [z ->].
  assert (Ho' : In o (map dist_o bsP)) by (rewrite <- outputs_prod; exact Ho).
  assert (Nv' : ~ In o (map dist_o bs)) by (rewrite <- outputs_prod; exact Nv).
  destruct (view_observe_seated s bsP csP r2i r2c r o x z W SH (proj1 (consistent_parts _ _ _ _ _ SH) K) L Ho') as (ds' & res & E & F).
  eexists. exists res. split; [exact E|]. exists s, bs, cs, r2i, r2c, bsP, (dset (vz z) (CProd (map CDist ds')) csP).
  split; [reflexivity|]. split; [reflexivity|]. intros k c Hc. destruct (H k c Hc) as (l & l' & -> & L').
  rewrite lookup_dset. destruct (eq_dec k (vz z)) as [->|NE]; [|exists l, l'; auto].
  unfold cols in F. rewrite L', leaves_prod in F. apply Forall2_app_inv_l in F. destruct F as (l1 & l2 & F1 & F2 & ->).
  assert (l1 = l) as ->; [|exists l, l2; auto].
  destruct SHv as (_ & _ & C). destruct (C _ _ Hc) as (ds & E0 & A).
  assert (ds = l) as ->. { assert (X : leaves (CProd (map CDist l)) = leaves (CProd (map CDist ds))) by (rewrite E0; reflexivity). rewrite !leaves_prod in X. auto. }
  assert (NO : forall d, In d l -> dist_o d <> o).
  { intros d Hd E1. apply Nv'. rewrite <- (alike_o _ _ A), <- E1. now apply in_map. }
  clear - F1 NO. induction F1 as [|d d' l l' P F IH]; [reflexivity|]. f_equal; [apply P; apply NO; now left|apply IH; intros; apply NO; now right].
Qed.

Lemma rows_seated : forall T v p, good v -> good p -> extends v p -> (forall t, In t T -> fits p t) -> NoDup (map fst T) ->
  (forall r o x, In (r, o, x) T -> seat p r <> None /\ ~ In o (columns_of v)) ->
  exists q, observe_rows p (entries T) = Ret (q, Ok tt) /\ filled T p q /\ extends v q.
Proof.
  induction T as [|[[r o] x] T IH]; intros v p Gv G EX F ND SE.
  - exists p. split; [reflexivity|]. assert (A := rows_fill [] p G (fun _ => fun f : False => match f with end) (NoDup_nil _)).
    split; [apply A|exact EX].
  - destruct (SE r o x (or_introl eq_refl)) as [S1 N1]. destruct (F _ (or_introl eq_refl)) as (Ho & _).
    destruct (extends_step v p r o x Gv G EX S1 Ho N1) as (q & res & E & EX').
    assert (A := one_step p r o x T G F ND). rewrite E in A. cbn [always fst snd] in A. destruct A as (-> & Gq & Fq & U & R).
    destruct (IH v q Gv Gq EX' Fq) as (q' & E' & F' & X').
    + inversion ND; assumption.
    + intros r' o' x' Ht. destruct (SE r' o' x' (or_intror Ht)) as [S2 N2]. split; [|exact N2].
      destruct R as (_ & _ & _ & _ & OS & (z & SZ & _) & _). destruct (Z.eq_dec r' r) as [->|NR]; [congruence|]. rewrite (proj1 (OS r' NR)). exact S2.
    + exists q'. split; [|split; [apply U; exact F'|exact X']].
      change (entries ((r, o, x) :: T)) with ((r, [(o, x)]) :: entries T). cbn [observe_rows]. rewrite E. cbn [sbind snd fst]. exact E'.
Qed.

(** ** Adding columns to a view *)

Lemma mkview_extends : forall s bs cs r2i r2c, wf (mkview s bs cs r2i r2c) -> shaped bs cs -> extends (mkview s bs cs r2i r2c) (mkview s bs cs r2i r2c).
Proof.
  intros s bs cs r2i r2c W (_ & _ & C). exists s, bs, cs, r2i, r2c, bs, cs. split; [reflexivity|]. split; [reflexivity|].
  intros k c Hc. destruct (C _ _ Hc) as (ds & -> & _). exists ds, []. split; [reflexivity|]. rewrite app_nil_r.
  apply In_lookup; [|exact Hc]. destruct (view_parts _ _ _ _ _ W) as (_ & _ & _ & _ & ND & _). exact ND.
Qed.

Lemma extends_refl : forall v, good v -> extends v v.
Proof.
  intros v G. assert (W := good_wf v G). destruct G as (_ & Sh & _). destruct (sheet_inv v Sh) as (s & bs & cs & r2i & r2c & -> & NB & B & C).
  apply mkview_extends; [exact W|]. split; [exact NB|split; assumption].
Qed.

(** Columns [D] are new and without data. *)
Definition new_columns (D : list dist) (v : cgpm) : Prop :=
  (forall d, In d D -> reachable d /\ dist_data d = [] /\ kind_of d <> KTable /\ ~ In (dist_o d) (outputs v)) /\ NoDup (map dist_o D).

Definition widened (D : list dist) (v p : cgpm) : Prop :=
  good p /\ label_of p = label_of v /\ divider p = divider v /\ columns_of p = columns_of v ++ map dist_o D /\
  (forall r, seat p r = seat v r) /\
  (forall r o, ~ In o (map dist_o D) -> cell p r o = cell v r o) /\
  (forall r d, In d D -> cell p r (dist_o d) = None) /\
  (forall o, ~ In o (map dist_o D) -> kind_at p o = kind_at v o) /\
  (forall d, In d D -> kind_at p (dist_o d) = Some (kind_of d)) /\
  (forall u, extends u v -> extends u p).

Lemma sheet_outputs : forall m, sheet m -> outputs m = label_of m :: columns_of m.
Proof. intros m Sh. destruct Sh. reflexivity. Qed.

Lemma add_one : forall v d, good v -> reachable d -> dist_data d = [] -> kind_of d <> KTable -> ~ In (dist_o d) (outputs v) ->
  exists p, add_cgpm v (CDist d) = Ok p /\ widened [d] v p.
Proof.
  intros v d G Rd E0 K N. assert (W := good_wf v G). assert (M := good_maps v G). destruct G as (Gr & Sh & Co).
  destruct (C33_add_view v d Gr Sh Rd E0 K N) as (p & E & Shp & P1 & P2 & P3 & P4 & P5 & P6 & P7 & P8).
  exists p. split; [exact E|].
  assert (Gp : grown p).
  { eapply gr_add; [exact Gr|apply gr_prim; exact Rd| |exact E]. apply WalksThm.NoDup_snoc; [apply wf_outputs_NoDup; exact W|exact N]. }
  destruct (sheet_inv v Sh) as (s & bs & cs & r2i & r2c & -> & NB & B & C).
  assert (SH : shaped bs cs) by (split; [exact NB|split; assumption]).
  assert (KW := proj1 (consistent_parts _ _ _ _ _ SH) Co).
  assert (EP : forall ds, grow (CDist d) (CProd (map CDist ds)) = CProd (map CDist (ds ++ [d]))).
  { intros ds. cbn [grow parts]. rewrite map_app. reflexivity. }
  assert (EE : p = mkview s (bs ++ [d]) (map (fun p => let '(k, c') := p in (k, grow (CDist d) c')) cs) r2i r2c).
  { assert (Op := sheet_open _ Sh).
    assert (Wd : wf (CDist d)) by (constructor; apply reachable_dinv; exact Rd).
    assert (ND : NoDup (outputs (mkview s bs cs r2i r2c) ++ outputs (CDist d))).
    { apply WalksThm.NoDup_snoc; [apply wf_outputs_NoDup; exact W|exact N]. }
    rewrite (add_ok (CDist d) _ W M Wd Logic.I Op ND) in E. injection E as <-. unfold mkview. rewrite <- EP. reflexivity. }
  clear E. rename E0 into Z0.
  assert (CL : forall k, cols (bs ++ [d]) (map (fun p => let '(k, c') := p in (k, grow (CDist d) c')) cs) k = cols bs cs k ++ [d]).
  { intros k. unfold cols. rewrite lookup_grow. destruct (lookup k cs) as [c|] eqn:L; [|reflexivity].
    destruct (C _ _ (lookup_In _ _ _ L)) as (ds & -> & _). rewrite EP, !leaves_prod. reflexivity. }
  assert (Kp : consistent p).
  { rewrite EE in *. apply consistent_parts; [apply (proj1 (sheet_shaped _ _ _ _ _) Shp)|].
    destruct KW as (A1 & A2 & A3 & A4 & A5 & A6). repeat (split; [assumption|]). intros r k x Hx Hr. rewrite CL in Hx.
    apply in_app_or in Hx. destruct Hx as [Hx|[<-|[]]]; [eapply A6; eauto|]. rewrite Z0 in Hr. destruct Hr. }
  split; [split; [exact Gp|split; assumption]|]. split; [exact P1|]. split; [exact P2|]. split; [exact P3|]. split; [exact P4|].
  split; [intros r o Ho; apply P5; intros X; apply Ho; left; auto|].
  split; [intros r x [<-|[]]; apply P6|].
  split; [intros o Ho; apply P7; intros X; apply Ho; left; auto|].
  split; [intros x [<-|[]]; apply P8|].
  intros u (s' & bs' & cs' & r2i' & r2c' & bsP & csP & -> & EV & H). unfold mkview in EV. injection EV as E1 E2 E3 E4 E5 E6. subst s' csP r2i' r2c'.
  exists s, bs', cs', r2i, r2c, (bs ++ [d]), (map (fun p => let '(k, c') := p in (k, grow (CDist d) c')) cs).
  split; [reflexivity|]. split; [exact EE|]. intros k c Hc. destruct (H k c Hc) as (l & l' & -> & L). exists l, (l' ++ [d]). split; [reflexivity|].
  rewrite lookup_grow, L, EP, app_assoc. reflexivity.
Qed.

Lemma widened_nil : forall v, good v -> widened [] v v.
Proof.
  intros v G. split; [exact G|]. do 2 (split; [reflexivity|]). split; [cbn [map]; rewrite app_nil_r; reflexivity|].
  repeat split; auto; intros ? []; intros [].
Qed.

Lemma add_all_ok : forall D v, good v -> new_columns D v -> exists p, add_all D v = Ok p /\ widened D v p.
Proof.
  unfold add_all. induction D as [|d D IH]; intros v G [F ND].
  - exists v. split; [reflexivity|]. apply widened_nil. exact G.
  - destruct (F d (or_introl eq_refl)) as (Rd & E0 & K & N). destruct (add_one v d G Rd E0 K N) as (q & E & Wq).
    destruct Wq as (Gq & Q1 & Q2 & Q3 & Q4 & Q5 & Q6 & Q7 & Q8 & Q9).
    cbn [map] in ND. inversion ND as [|? ? NI ND']; subst.
    assert (Fq : new_columns D q).
    { split; [|exact ND']. intros x Hx. destruct (F x (or_intror Hx)) as (X1 & X2 & X3 & X4). repeat split; auto.
      rewrite sheet_outputs by apply Gq. intros Y. apply X4. rewrite sheet_outputs by apply G. rewrite Q1, Q3 in Y.
      destruct Y as [Y|Y]; [now left|]. apply in_app_or in Y. destruct Y as [Y|[Y|[]]]; [now right|]. exfalso. apply NI. rewrite Y. now apply in_map. }
    destruct (IH q Gq Fq) as (p & Ep & Wp). exists p. split; [cbn [fold_left obind]; rewrite E; exact Ep|].
    destruct Wp as (Gp & P1 & P2 & P3 & P4 & P5 & P6 & P7 & P8 & P9).
    split; [exact Gp|]. split; [congruence|]. split; [congruence|]. split; [rewrite P3, Q3, <- app_assoc; reflexivity|].
    split; [intros; rewrite P4; apply Q4|].
    split; [intros r o Ho; cbn [map] in Ho; rewrite P5 by (intros X; apply Ho; now right); apply Q5; intros [X|[]]; apply Ho; now left|].
    split; [intros r x [<-|Hx]; [rewrite P5 by exact NI; apply Q6; now left|apply P6; exact Hx]|].
    split; [intros o Ho; cbn [map] in Ho; rewrite P7 by (intros X; apply Ho; now right); apply Q7; intros [X|[]]; apply Ho; now left|].
    split; [intros x [<-|Hx]; [rewrite P7 by exact NI; apply Q8; now left|apply P8; exact Hx]|].
    intros u Hu. apply P9, Q9, Hu.
Qed.

(** ** Proposals *)

(** The view [q] is [v] with the columns [D] added, holding the cells [T]. *)
Definition moved (D : list dist) (T : list (Z * Z * val)) (v q : cgpm) : Prop :=
  good q /\ label_of q = label_of v /\ divider q = divider v /\ columns_of q = columns_of v ++ map dist_o D /\
  (forall r, seat q r = seat v r) /\
  (forall r o, ~ In o (map dist_o D) -> cell q r o = cell v r o) /\
  (forall r d x, In d D -> (cell q r (dist_o d) = Some x <-> In (r, dist_o d, x) T)) /\
  (forall o, ~ In o (map dist_o D) -> kind_at q o = kind_at v o) /\
  (forall d, In d D -> kind_at q (dist_o d) = Some (kind_of d)).

(** The view [q] has just the columns [D], holding the cells [T]. *)
Definition alone (label : Z) (D : list dist) (T : list (Z * Z * val)) (q : cgpm) : Prop :=
  good q /\ label_of q = label /\ columns_of q = map dist_o D /\
  (forall r d x, In d D -> (cell q r (dist_o d) = Some x <-> In (r, dist_o d, x) T)) /\
  (forall d, In d D -> kind_at q (dist_o d) = Some (kind_of d)).

(** The cells [T] belong in the columns [D]. *)
Definition suits (D : list dist) (T : list (Z * Z * val)) : Prop :=
  (forall r o x, In (r, o, x) T -> exists d, In d D /\ dist_o d = o /\ in_domain (kind_of d) [] x) /\ NoDup (map fst T).

Lemma NoDup_fst_unique : forall {A B} (l : list (A * B)) a b b', NoDup (map fst l) -> In (a, b) l -> In (a, b') l -> b = b'.
Proof.
  induction l as [|[a0 b0] l IH]; intros a b b' ND H H'; [destruct H|]. cbn [map fst] in ND. inversion ND as [|? ? N ND']; subst.
  destruct H as [E|H], H' as [E'|H'].
  - congruence.
  - injection E as <- <-. exfalso. apply N. apply (in_map fst) in H'. exact H'.
  - injection E' as <- <-. exfalso. apply N. apply (in_map fst) in H. exact H.
  - eapply IH; eauto.
Qed.

Lemma filled_cells : forall T p q r o x, NoDup (map fst T) -> filled T p q -> cell p r o = None -> (cell q r o = Some x <-> In (r, o, x) T).
Proof.
  intros T p q r o x ND (_ & _ & F1 & F2 & _) N. split; [|apply F1]. intros E.
  destruct (in_dec (fun a b => eq_dec a b) r (map (fun t => fst (fst t)) (filter (fun t => snd (fst t) =? o) T))) as [H|H].
  - apply in_map_iff in H. destruct H as ([[r' o'] y] & <- & H). apply filter_In in H. cbn [fst snd] in *. destruct H as [H H'].
    apply Z.eqb_eq in H'. subst o'. rewrite (F1 _ _ _ H) in E. injection E as <-. exact H.
  - rewrite F2 in E; [congruence|]. intros y Hy. apply H. apply in_map_iff. exists (r, o, y). split; [reflexivity|]. apply filter_In.
    split; [exact Hy|apply Z.eqb_refl].
Qed.

Lemma suits_fit : forall D T v p, widened D v p -> suits D T -> (forall t, In t T -> fits p t).
Proof.
  intros D T v p (G & _ & _ & P3 & _ & _ & P6 & _ & P8 & _) [S _] [[r o] x] Ht. destruct (S _ _ _ Ht) as (d & Hd & <- & K).
  split; [rewrite P3; apply in_or_app; right; now apply in_map|]. split; [apply P6; exact Hd|]. exists (kind_of d). auto.
Qed.

Lemma existing_one : forall D T v datasets, good v -> new_columns D v -> suits D T -> List.concat datasets = entries T ->
  (forall r o x, In (r, o, x) T -> seat v r <> None) ->
  exists q, proposal_existing_one v D datasets = Ret (v, Ok q) /\ moved D T v q.
Proof.
  intros D T v datasets G ND S E SE. destruct (add_all_ok D v G ND) as (p & Ep & Wp). assert (F := suits_fit D T v p Wp S).
  assert (Wp0 := Wp). destruct Wp0 as (Gp & P1 & P2 & P3 & P4 & P5 & P6 & P7 & P8 & P9).
  destruct (rows_seated T v p G Gp (P9 v (extends_refl v G)) F (proj2 S)) as (q & Eq & Fq & Xq).
  { intros r o x Ht. split; [rewrite P4; eapply SE; eauto|]. destruct (proj1 S _ _ _ Ht) as (d & Hd & <- & _).
    destruct (proj1 ND d Hd) as (_ & _ & _ & N). intros Y. apply N. rewrite sheet_outputs by apply G. now right. }
  exists q. split.
  - unfold proposal_existing_one. rewrite Ep, E, Eq. cbn [sbind fst snd obind]. rewrite live_extends by exact Xq. reflexivity.
  - assert (Fq0 := Fq). destruct Fq0 as (Gq & (C1 & C2 & C3) & F1 & F2 & F3 & F4).
    assert (DV : divider q = divider v /\ forall r, seat q r = seat v r).
    { destruct Xq as (s & bs & cs & r2i & r2c & bsP & csP & -> & -> & _). split; reflexivity. }
    destruct DV as [DV SV]. split; [exact Gq|]. split; [congruence|]. split; [exact DV|]. split; [congruence|]. split; [exact SV|].
    split; [|split; [|split]].
    + intros r o Ho. rewrite F2; [apply P5; exact Ho|]. intros x Ht. destruct (proj1 S _ _ _ Ht) as (d & Hd & <- & _). apply Ho. now apply in_map.
    + intros r d x Hd. apply (filled_cells T p q); [apply S|exact Fq|apply P6; exact Hd].
    + intros o Ho. rewrite C3. apply P7. exact Ho.
    + intros d Hd. rewrite C3. apply P8. exact Hd.
Qed.

(** A mixture with a CRP row divider over the base [base], label [label]. *)
Definition over (label : Z) (base : cgpm) (m : cgpm) : Prop :=
  exists s cs r2i r2c, m = CMix true (DCrp s) (CFlexArr (crp_o s) base cs r2i) r2c /\ crp_o s = label.

Lemma over_observe : forall label base m rid obs ins, over label base m -> always (observe m rid obs ins) (fun r => over label base (fst r)).
Proof.
  intros label base m rid obs ins (s & cs & r2i & r2c & -> & EL). cbn [observe].
  assert (X : forall s' r2c' z, crp_o s' = crp_o s -> always (mix_observe_x true (DCrp s') (CFlexArr (crp_o s) base cs r2i)
     (flexarr_observe (crp_o s) base (observe base) cs (map (fun p => let '(k, c') := p in (k, observe c')) cs) r2i) r2c' rid obs ins z)
     (fun r => over label base (fst r))).
  { intros s' r2c' z E. unfold mix_observe_x. apply always_bind. unfold flexarr_observe.
    destruct (lookup _ (merged _ _)) as [i|]; [|cbn [always fst snd]; exists s', cs, r2i, r2c'; rewrite E; auto].
    apply always_bind. apply always_True. intros [c res]. cbn [snd fst]. destruct res as [u|e]; cbn [always fst snd].
    - exists s', (dset i c cs), (dset rid i r2i), r2c'. rewrite E. auto.
    - exists s', (dset i c cs), r2i, r2c'. rewrite E. auto. }
  unfold mix_observe. cbv zeta. destruct (lookup rid r2c) as [z|]; [apply X; reflexivity|].
  apply always_bind. apply always_True. intros [z|e]; [|cbn [always fst]; exists s, cs, r2i, r2c; auto].
  destruct (dist_observe (DCrp s) rid [(dist_o (DCrp s), z)] []) as [div' res] eqn:E.
  assert (FR := observe_frame (DCrp s) rid [(dist_o (DCrp s), z)] []). rewrite E in FR. cbn [fst] in FR. destruct FR as (FK & FO & _).
  destruct div' as [s2| | | | |]; try discriminate FK. cbn [dist_o] in FO. destruct res as [u|e]; [apply X; exact FO|].
  cbn [always fst]. exists s2, cs, r2i, r2c. rewrite FO. auto.
Qed.

Lemma over_rows : forall l label base m, over label base m -> always (observe_rows m l) (fun r => over label base (fst r)).
Proof.
  induction l as [|[r obs] l IH]; intros label base m H; cbn [observe_rows]; [exact H|]. apply always_bind.
  assert (A := over_observe label base m r obs [] H). revert A. apply always_imp. intros [q res] Hq. cbn [fst snd] in *.
  destruct res; [apply IH; exact Hq|exact Hq].
Qed.

Lemma find_unique : forall D d, NoDup (map dist_o D) -> In d D -> find (fun x => dist_o x =? dist_o d) D = Some d.
Proof.
  induction D as [|a D IH]; intros d ND Hd; [destruct Hd|]. cbn [map] in ND. inversion ND as [|? ? N ND']; subst. cbn [find].
  destruct Hd as [->|Hd]; [rewrite Z.eqb_refl; reflexivity|].
  rewrite (proj2 (Z.eqb_neq (dist_o a) (dist_o d))); [apply IH; assumption|]. intros E. apply N. rewrite E. now apply in_map.
Qed.

Lemma bases_product : forall D, (forall d, In d D -> reachable d) -> NoDup (map dist_o D) -> new_product (map CDist D) = Ok (CProd (map CDist D)).
Proof.
  intros D R ND. rewrite product_again.
  - f_equal. f_equal. unfold flatten_products. clear. induction D as [|d D IH]; [reflexivity|]. cbn. f_equal. exact IH.
  - intros c Hc. apply in_map_iff in Hc. destruct Hc as (d & <- & Hd). constructor. apply reachable_dinv. auto.
  - change (flat_map outputs (map CDist D)) with (outputs (CProd (map CDist D))). rewrite outputs_prod. exact ND.
Qed.

Lemma singleton_one : forall D T datasets F, D <> [] -> (forall d, In d D -> reachable d /\ dist_data d = [] /\ kind_of d <> KTable) ->
  NoDup (map dist_o D) -> suits D T -> List.concat datasets = entries T ->
  given F (proposal_singleton_one D datasets) (fun r =>
    (forall q, r = Ok q -> exists label, F label /\ outputs q = label :: map dist_o D /\ (~ In label (map dist_o D) -> alone label D T q)) /\
    ((forall z, F z -> ~ In z (map dist_o D)) -> exists q, r = Ok q)).
Proof.
  intros D T datasets F NE HD ND S E. unfold proposal_singleton_one. cbn [given]. intros label _ HF.
  rewrite bases_product by (auto; intros; apply HD; assumption). rewrite E.
  set (base := CProd (map CDist D)). set (v := new_flexmix (DCrp (crp_new label 1%Qc)) base).
  assert (OV : over label base v) by (exists (crp_new label 1%Qc), [], [], []; split; reflexivity).
  apply given_always. apply always_bind. assert (A := over_rows (entries T) label base v OV).
  destruct (in_dec Z.eq_dec label (map dist_o D)) as [Y|Y].
  - revert A. apply always_imp. intros [q res] Hq. cbn [fst snd always] in *. split.
    + intros q' E'. destruct res; [|discriminate]. cbn [obind] in E'. injection E' as <-. exists label. split; [exact HF|].
      split; [|intros N; contradiction]. destruct Hq as (s & cs & r2i & r2c & -> & EL). cbn [outputs]. rewrite <- outputs_prod, <- EL. reflexivity.
    + intros N. exfalso. apply (N label HF Y).
  - assert (Gv : good v).
    { split; [|split].
      - apply gr_flexible with (K := [0]).
        + exists (DCrp (crp_new label 1%Qc)), []. split; [apply fresh_crp; exact one_pos|reflexivity].
        + reflexivity.
        + apply gr_product with (map CDist D); [|apply bases_product; auto; intros; apply HD; assumption].
          intros c Hc. apply in_map_iff in Hc. destruct Hc as (d & <- & Hd). constructor. apply HD. exact Hd.
        + unfold base. rewrite outputs_prod. exact Y.
      - unfold v, new_flexmix, new_flexarr. apply (sheet_intro (crp_new label 1%Qc) D [] [] []); [exact NE| |intros ? ? []].
        intros d Hd. destruct (HD d Hd) as (_ & ? & ?). auto.
      - unfold v, new_flexmix, new_flexarr. cbn [consistent row_index]. repeat split; try constructor; try discriminate.
        intros r k d Hd Hr. cbn [component_at lookup] in Hd. unfold base in Hd. rewrite leaves_prod in Hd.
        rewrite (proj1 (proj2 (HD d Hd))) in Hr. destruct Hr. }
    assert (CV : columns_of v = map dist_o D) by (unfold v, base; cbn [columns_of]; apply outputs_prod).
    assert (KV : forall d, In d D -> kind_at v (dist_o d) = Some (kind_of d)).
    { intros d Hd. unfold v, new_flexmix, new_flexarr, base. cbn [kind_at]. rewrite leaves_prod.
      assert (X := find_unique D d ND Hd). rewrite X. reflexivity. }
    assert (FT : forall t, In t T -> fits v t).
    { intros [[r o] x] Ht. destruct (proj1 S _ _ _ Ht) as (d & Hd & <- & K). split; [rewrite CV; now apply in_map|]. split; [reflexivity|].
      exists (kind_of d). auto. }
    assert (B := always_and _ _ _ A (rows_fill T v Gv FT (proj2 S))). revert B. apply always_imp. intros [q res] (Hq & -> & Fq). cbn [fst snd always obind] in *.
    split; [|intros _; eauto]. intros q' E'. injection E' as <-. exists label. split; [exact HF|].
    assert (Fq0 := Fq). destruct Fq0 as (Gq & (C1 & C2 & C3) & _). 
    split; [rewrite sheet_outputs by apply Gq; rewrite C1, C2, CV; reflexivity|]. intros _.
    split; [exact Gq|]. split; [rewrite C1; reflexivity|]. split; [rewrite C2; exact CV|]. split.
    + intros r d x Hd. apply (filled_cells T v q); [apply S|exact Fq|reflexivity].
    + intros d Hd. rewrite C3. apply KV. exact Hd.
Qed.
