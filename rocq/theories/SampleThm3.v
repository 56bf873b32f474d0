(** Recording rows with given clusters in a view (for C53 and C54), and the import of CGPM
    states. *)
From Coq Require Import List ZArith QArith Qcanon Reals Bool String Permutation Sorted Lia Lra.
From Verif Require Import Base Xr Samp Lgamma Prims Cgpm Lib SpecPrims PrimsInv PrimsDens PrimsThm PrimsThm2
  SpecComp CompInv CompDens CompThm SpecSim SimShape SpecBook Book SpecTable Trans SpecHist Table Gibbs Hist Walks SpecWalks WalksThm Views SpecViews ViewsThm
  Sample SpecSample SampleThm2.
Import ListNotations.
Local Open Scope Z_scope.

(** ** One row *)

Lemma view_observe_new : forall s bs cs r2i r2c rid obs z, let m := mkview s bs cs r2i r2c in
  wf m -> shaped bs cs -> kept_well s bs cs r2i r2c -> NoDup (keys obs) -> lookup rid r2c = None ->
  lookup (crp_o s) obs = Some (vz z) -> in_domain KTable (dist_data (DCrp s)) (vz z) ->
  (forall o x, In o (map dist_o bs) -> lookup o obs = Some x -> exists K, kind_at m o = Some K /\ in_domain K [] x) ->
  exists m', observe m rid obs [] = Ret (m', Ok tt).
Proof.
  intros s bs cs r2i r2c rid obs z m W SH KW ND L LZ DZ OB. assert (SH0 := SH). destruct SH0 as (NB & B & C).
  destruct (view_parts _ _ _ _ _ W) as (D & Db & NDb & NI & NDk & Dc).
  assert (KW0 := KW). destruct KW0 as (N1 & N2 & A3 & A4 & A5 & A6).
  assert (OKs : forall k d, In d (cols bs cs k) -> forall x, lookup (dist_o d) obs = Some x ->
        in_domain (kind_of d) (dist_data d) x /\ ~ In rid (keys (dist_data d))).
  { intros k d Hd x Lx. destruct (cols_good s bs cs r2i r2c W B C k) as (GD & GN & GO).
    assert (Ho : In (dist_o d) (map dist_o bs)) by (rewrite <- GO; now apply in_map).
    destruct (OB _ _ Ho Lx) as (K0 & EK & DM). unfold m in EK. rewrite (kind_column s bs cs r2i r2c k d W SH Hd) in EK. injection EK as <-.
    split; [apply (domain_data _ []); [apply GD; exact Hd|exact DM]|].
    intros X. assert (Y := A6 rid k d Hd X). congruence. }
  unfold m, mkview. cbn [observe].
  change (flexarr_observe (crp_o s) (CProd (map CDist bs)) _ cs _ r2i) with (observe (CFlexArr (crp_o s) (CProd (map CDist bs)) cs r2i)).
  unfold mix_observe. cbv zeta. cbn [dist_o]. rewrite L, LZ. cbn [sbind].
  assert (NR : ~ In rid (keys (dist_data (DCrp s)))) by (apply lookup_None; rewrite A3; exact L).
  destruct (leaf_accepts (DCrp s) rid (vz z) D NR DZ) as (div' & ED & DD). cbn [dist_o] in ED. rewrite ED.
  assert (FR := observe_frame (DCrp s) rid [(crp_o s, vz z)] []). rewrite ED in FR. cbn [fst] in FR. destruct FR as (FK & FO & _).
  assert (D' := observe_dinv (DCrp s) rid [(crp_o s, vz z)] [] D). rewrite ED in D'. cbn [fst] in D'.
  destruct div' as [s'| | | | |]; try discriminate FK.
  destruct (view_observe_x s s' bs cs r2i r2c rid obs z W SH KW ND (or_introl L) FO D') as (m' & res & E & _ & R).
  { intros r0. rewrite DD. rewrite lookup_app. rewrite A3. replace (stored (kind_of (DCrp s)) (vz z)) with (vz z) by (cbn; now rewrite trunc_qz).
    destruct (eq_dec r0 rid) as [->|NE].
    - rewrite L. cbn. destruct (eq_dec rid rid); [reflexivity|congruence].
    - destruct (lookup r0 r2c); [reflexivity|]. cbn. destruct (eq_dec r0 rid); [congruence|reflexivity]. }
  exists m'. rewrite E. rewrite (R (OKs (vz z))). reflexivity.
Qed.

(** ** What stays set *)

(** A view with row divider [s0] and columns [bs] as far as their parameters go. *)
Definition set_like (s0 : crp) (bs : list dist) (m : cgpm) : Prop :=
  exists s cs r2i r2c, m = mkview s bs cs r2i r2c /\ settings (DCrp s) = settings (DCrp s0) /\
    forall k c, In (k, c) cs -> exists ds, c = CProd (map CDist ds) /\ map settings ds = map settings bs.

Lemma takes_settings : forall rid obs ds ds', Forall2 (takes rid obs) ds ds' -> map settings ds' = map settings ds.
Proof.
  intros rid obs ds ds' F. induction F as [|d d' ds ds' T F IH]; [reflexivity|]. cbn [map]. f_equal; [|exact IH].
  unfold takes in T. destruct (lookup (dist_o d) obs) as [x|]; [|congruence].
  assert (X := leaf_settings d rid [(dist_o d, x)] []). rewrite T in X. exact X.
Qed.

Lemma hypers_settings : forall d, dist_get_hypers (settings d) = dist_get_hypers d.
Proof. intros []; reflexivity. Qed.

(** One row given with its cluster: everything about the view afterwards. *)
Lemma row_in : forall s0 bs m l1 r t obs l2, good m -> set_like s0 bs m ->
  (exists s, divider m = Some s /\ dist_data s = as_data l1) -> well_ordered (l1 ++ (r, t) :: l2) ->
  NoDup (keys obs) -> lookup (label_of m) obs = Some (vz t) ->
  (forall o x, In o (columns_of m) -> lookup o obs = Some x -> exists K, kind_at m o = Some K /\ in_domain K [] x) ->
  exists m', observe m r obs [] = Ret (m', Ok tt) /\ good m' /\ set_like s0 bs m' /\
    (exists s, divider m' = Some s /\ dist_data s = as_data (l1 ++ [(r, t)])) /\
    same_columns m m' /\ others_same r m m' /\ forall o, In o (columns_of m) -> cell m' r o = lookup o obs.
Proof.
  intros s0 bs m l1 r t obs l2 G SL (dv & ED & DD) WO ND LZ OB. assert (W := good_wf m G). assert (G0 := G). destruct G0 as (GR & Sh & K).
  assert (SL0 := SL). destruct SL0 as (s & cs & r2i & r2c & -> & SE & CS).
  cbn [divider mkview] in ED. injection ED as <-.
  assert (SH := proj1 (sheet_shaped _ _ _ _ _) Sh). assert (KW := proj1 (consistent_parts _ _ _ _ _ SH) K).
  assert (KW0 := KW). destruct KW0 as (N1 & N2 & A3 & A4 & A5 & A6).
  assert (COL : columns_of (mkview s bs cs r2i r2c) = map dist_o bs) by apply outputs_prod. rewrite COL in OB.
  cbn [label_of mkview dist_o] in LZ.
  assert (NI : ~ In r (map fst l1)) by (destruct WO as (X & _); rewrite map_app in X; cbn [map fst] in X; apply NoDup_remove_2 in X; intros Y; apply X; apply in_or_app; now left).
  assert (L : lookup r r2c = None).
  { rewrite <- A3, DD. apply lookup_None. unfold keys, as_data. rewrite map_map. exact NI. }
  destruct (view_observe_new s bs cs r2i r2c r obs t W SH KW ND L LZ) as [m' E].
  { rewrite DD. apply (next_accepted l1 r t l2). exact WO. }
  { exact OB. }
  exists m'. split; [exact E|].
  assert (RA := view_observe (mkview s bs cs r2i r2c) r obs W Sh K ND). rewrite E in RA. cbn [always snd fst] in RA.
  assert (RA' : recorded_as (mkview s bs cs r2i r2c) r obs m').
  { apply RA; [|reflexivity]. cbn [label_of mkview dist_o]. intros y Ey. exists t. congruence. }
  clear RA. destruct RA' as (W' & Sh' & K' & SC & OS & _ & CL & _).
  assert (GG := observe_grown (mkview s bs cs r2i r2c) r obs [] GR). rewrite E in GG. cbn [always fst] in GG.
  split; [split; [exact GG|split; assumption]|].
  destruct (view_observe_exact s bs cs r2i r2c r obs t m' W SH KW ND L LZ E) as (s2 & ds' & ES & FT & EM).
  split; [|split].
  - exists s2, (dset (vz t) (CProd (map CDist ds')) cs), (dset r (vz t) r2i), (dset r (vz t) r2c). split; [exact EM|]. split.
    + assert (X := leaf_settings (DCrp s) r [(crp_o s, vz t)] []). rewrite ES in X. cbn [fst] in X. congruence.
    + intros k c Hc. apply In_lookup in Hc.
      * rewrite lookup_dset in Hc. destruct (eq_dec k (vz t)) as [->|NE].
        -- injection Hc as <-. exists ds'. split; [reflexivity|]. rewrite (takes_settings _ _ _ _ FT). unfold cols.
           destruct (lookup (vz t) cs) as [c|] eqn:LC; [|reflexivity]. apply lookup_In in LC. destruct (CS _ _ LC) as (ds & -> & EQ).
           rewrite leaves_prod. exact EQ.
        -- apply lookup_In in Hc. apply (CS k). exact Hc.
      * apply NoDup_keys_dset. destruct (view_parts _ _ _ _ _ W) as (_ & _ & _ & _ & X & _). exact X.
  - exists (DCrp s2). split; [rewrite EM; reflexivity|].
    assert (D := proj1 (view_parts _ _ _ _ _ W)).
    assert (NR : ~ In r (keys (dist_data (DCrp s)))) by (apply lookup_None; rewrite A3; exact L).
    destruct (leaf_accepts (DCrp s) r (vz t) D NR) as (d2 & E2 & DD2); [rewrite DD; apply (next_accepted l1 r t l2); exact WO|].
    cbn [dist_o] in E2. rewrite ES in E2. injection E2 as <-. rewrite DD2, DD. cbn [kind_of]. rewrite stored_table. unfold as_data. rewrite map_app. reflexivity.
  - split; [exact SC|]. split; [exact OS|]. intros o Ho. rewrite (CL o Ho). destruct (lookup o obs); [reflexivity|].
    cbn [cell mkview]. rewrite L. reflexivity.
Qed.

(** ** All rows *)

Lemma same_columns_trans : forall a b c, same_columns a b -> same_columns b c -> same_columns a c.
Proof. intros a b c (A1 & A2 & A3) (B1 & B2 & B3). split; [congruence|]. split; [congruence|]. intros. rewrite B3. apply A3. Qed.

Lemma rows_in : forall s0 bs (L : list (Z * Z * row)) l1 m, good m -> set_like s0 bs m ->
  (exists s, divider m = Some s /\ dist_data s = as_data l1) -> well_ordered (l1 ++ map fst L) ->
  (forall r t obs, In (r, t, obs) L -> NoDup (keys obs) /\ lookup (label_of m) obs = Some (vz t) /\
     forall o x, In o (columns_of m) -> lookup o obs = Some x -> exists K, kind_at m o = Some K /\ in_domain K [] x) ->
  exists m', observe_rows m (map (fun e => (fst (fst e), snd e)) L) = Ret (m', Ok tt) /\ good m' /\ set_like s0 bs m' /\
    (exists s, divider m' = Some s /\ dist_data s = as_data (l1 ++ map fst L)) /\ same_columns m m' /\
    (forall r, ~ In r (map fst (map fst L)) -> forall o, cell m' r o = cell m r o) /\
    (forall r t obs, In (r, t, obs) L -> forall o, In o (columns_of m) -> cell m' r o = lookup o obs).
Proof.
  intros s0 bs L. induction L as [|[[r t] obs] L IH]; intros l1 m G SL DV WO OB.
  - exists m. split; [reflexivity|]. split; [exact G|]. split; [exact SL|]. cbn [map]. rewrite app_nil_r. split; [exact DV|].
    split; [split; [reflexivity|split; reflexivity]|]. split; [reflexivity|]. intros ? ? ? [].
  - destruct (OB r t obs (or_introl eq_refl)) as (ND & LZ & DM).
    destruct (row_in s0 bs m l1 r t obs (map fst L) G SL DV WO ND LZ DM) as (m1 & E & G1 & SL1 & DV1 & SC1 & OS1 & CL1).
    assert (SC0 := SC1). destruct SC0 as (C1 & C2 & C3).
    destruct (IH (l1 ++ [(r, t)]) m1 G1 SL1 DV1) as (m2 & E2 & G2 & SL2 & DV2 & SC2 & OS2 & CL2).
    + rewrite <- app_assoc. exact WO.
    + intros r' t' obs' H. destruct (OB r' t' obs' (or_intror H)) as (ND' & LZ' & DM'). split; [exact ND'|]. split; [rewrite C1; exact LZ'|].
      intros o x Ho Lx. rewrite C3. apply DM'; [rewrite <- C2; exact Ho|exact Lx].
    + exists m2. cbn [map fst snd observe_rows]. rewrite E. cbn [sbind snd fst]. split; [exact E2|]. split; [exact G2|]. split; [exact SL2|].
      split; [rewrite <- app_assoc in DV2; exact DV2|]. split; [eapply same_columns_trans; eauto|]. split.
      * intros r' N o. cbn [map fst] in N. rewrite OS2 by (intros X; apply N; now right). apply OS1. intros ->. apply N. now left.
      * intros r' t' obs' [X|X] o Ho.
        -- injection X as <- <- <-. rewrite OS2; [apply CL1; exact Ho|]. destruct WO as (NDr & _). rewrite map_app in NDr. cbn [map fst] in NDr.
           apply NoDup_remove_2 in NDr. intros X. apply NDr. apply in_or_app. now right.
        -- apply (CL2 r' t' obs' X). rewrite C2. exact Ho.
Qed.

Lemma seat_divider : forall m s r, consistent m -> divider m = Some s -> seat m r = lookup r (dist_data s).
Proof.
  intros m s r K E. destruct m as [| | | |fl dv arr r2c]; try contradiction. cbn in E. injection E as <-. destruct K as (_ & _ & K & _). cbn. symmetry. apply K.
Qed.

(** ** Import of a view *)

Lemma hget_pos : forall k v d, positive k d -> (0 < qr v)%R -> (0 < qr (hget k v (dim_hypers d)))%R.
Proof. intros k v d P V. unfold hget. destruct (lookup k (dim_hypers d)) as [q|] eqn:L; [apply P; exact L|exact V]. Qed.

Lemma qltb_pos : forall q, (0 < qr q)%R -> qltb 0%Qc q = true.
Proof. intros q H. apply qltb_true. rewrite qr_0. exact H. Qed.

Lemma one_positive : (0 < qr 1%Qc)%R.
Proof. rewrite qr_1. lra. Qed.

Lemma convert_dim_ok : forall d k, column_type d k -> exists b, convert_dim_to_base_cgpm d = Ok b /\ fresh b /\ dist_o b = dim_output d /\
  kind_of b = k /\ hypers_as d b.
Proof.
  intros d k C. unfold convert_dim_to_base_cgpm. destruct C as [k E EK LK PA|E P1 P2 P3|E P1 P2]; rewrite E; cbn [String.eqb Ascii.eqb Bool.eqb].
  - rewrite EK. eexists. split; [reflexivity|]. split; [constructor; [exact LK|apply hget_pos; [exact PA|apply one_positive]]|].
    split; [reflexivity|]. split; [reflexivity|]. intros h x q. cbn [dist_get_hypers lookup cat_new cat_alpha].
    destruct (eq_dec h _) as [->|]; [|discriminate]. unfold hget. intros [= <-] ->. reflexivity.
  - assert (Q1 := hget_pos "r" 1%Qc d P1 one_positive). assert (Q2 := hget_pos "s" 1%Qc d P2 one_positive). assert (Q3 := hget_pos "nu" 1%Qc d P3 one_positive).
    unfold nrm_new. rewrite !qltb_pos by assumption. cbn [oassert obind omap]. eexists. split; [reflexivity|]. split.
    + apply (fresh_nrm (dim_output d) (hget "m" 0%Qc (dim_hypers d)) (hget "r" 1%Qc (dim_hypers d)) (hget "s" 1%Qc (dim_hypers d)) (hget "nu" 1%Qc (dim_hypers d))).
      unfold nrm_new. rewrite !qltb_pos by assumption. reflexivity.
    + split; [reflexivity|]. split; [reflexivity|]. intros h x q. cbn [dist_get_hypers lookup nrm_m nrm_r nrm_s nrm_nu].
      unfold hget. repeat (destruct (eq_dec h _) as [->|]; [intros [= <-] ->; reflexivity|]). discriminate.
  - assert (Q1 := hget_pos "a" 1%Qc d P1 one_positive). assert (Q2 := hget_pos "b" 1%Qc d P2 one_positive).
    unfold poi_new. rewrite !qltb_pos by assumption. cbn [oassert obind omap]. eexists. split; [reflexivity|]. split.
    + apply (fresh_poi (dim_output d) (hget "a" 1%Qc (dim_hypers d)) (hget "b" 1%Qc (dim_hypers d))).
      unfold poi_new. rewrite !qltb_pos by assumption. reflexivity.
    + split; [reflexivity|]. split; [reflexivity|]. intros h x q. cbn [dist_get_hypers lookup poi_a poi_b].
      unfold hget. repeat (destruct (eq_dec h _) as [->|]; [intros [= <-] ->; reflexivity|]). discriminate.
Qed.

Lemma convert_crp_ok : forall d, dim_cctype d = "crp"%string -> positive "alpha" d -> exists s, convert_dim_to_base_cgpm d = Ok (DCrp s) /\
  fresh (DCrp s) /\ crp_o s = dim_output d /\ hypers_as d (DCrp s).
Proof.
  intros d E P. unfold convert_dim_to_base_cgpm. rewrite E. cbn [String.eqb Ascii.eqb Bool.eqb]. eexists. split; [reflexivity|].
  split; [constructor; apply hget_pos; [exact P|apply one_positive]|]. split; [reflexivity|]. intros h x q. cbn [dist_get_hypers lookup crp_new crp_alpha].
  destruct (eq_dec h _) as [->|]; [|discriminate]. unfold hget. intros [= <-] ->. reflexivity.
Qed.

Lemma convert_dims_ok : forall l, (forall d, In d l -> exists k, column_type d k) ->
  exists bs, oseq (map convert_dim_to_base_cgpm l) = Ok bs /\
    Forall2 (fun d b => fresh b /\ dist_o b = dim_output d /\ hypers_as d b /\ forall k, column_type d k -> kind_of b = k) l bs.
Proof.
  induction l as [|d l IH]; intros H; [exists []; split; [reflexivity|constructor]|].
  destruct IH as (bs & E & F); [intros; apply H; now right|]. destruct (H d (or_introl eq_refl)) as (k & CT).
  destruct (convert_dim_ok d k CT) as (b & EB & FR & EO & EK & HA). exists (b :: bs). split; [cbn [map oseq]; rewrite EB, E; reflexivity|].
  constructor; [|exact F]. split; [exact FR|]. split; [exact EO|]. split; [exact HA|]. intros k' CT'.
  destruct (convert_dim_ok d k' CT') as (b' & EB' & _ & _ & EK' & _). congruence.
Qed.

Lemma fresh_facts : forall d, fresh d -> reachable d /\ dist_data d = [].
Proof.
  intros d F. split; [exists d, []; auto|]. destruct F as [| | |o a b p E|o m r s nu p E|o h mu var p E]; try reflexivity.
  - unfold poi_new in E. destruct (qltb 0 a); [|discriminate]. destruct (qltb 0 b); [|discriminate]. injection E as <-. reflexivity.
  - unfold nrm_new in E. destruct (qltb 0 s); [|discriminate]. destruct (qltb 0 r); [|discriminate]. destruct (qltb 0 nu); [|discriminate]. injection E as <-. reflexivity.
  - unfold nuc_new in E. destruct (qltb 0%Qc var); [|discriminate]. injection E as <-. reflexivity.
Qed.

Lemma F2_in_l : forall {A B} (P : A -> B -> Prop) l l', Forall2 P l l' -> forall a, In a l -> exists b, In b l' /\ P a b.
Proof. intros A B P l l' F. induction F as [|x y l l' H F IH]; intros a Ha; [destruct Ha|]. destruct Ha as [->|Ha]; [exists y; split; [now left|exact H]|]. destruct (IH a Ha) as (b & Hb & Pb). exists b. split; [now right|exact Pb]. Qed.

Lemma F2_in_r : forall {A B} (P : A -> B -> Prop) l l', Forall2 P l l' -> forall b, In b l' -> exists a, In a l /\ P a b.
Proof. intros A B P l l' F. induction F as [|x y l l' H F IH]; intros b Hb; [destruct Hb|]. destruct Hb as [->|Hb]; [exists x; split; [now left|exact H]|]. destruct (IH b Hb) as (a & Ha & Pa). exists a. split; [now right|exact Pa]. Qed.

Lemma F2_outputs : forall l bs, Forall2 (fun d b => fresh b /\ dist_o b = dim_output d /\ hypers_as d b /\ forall k, column_type d k -> kind_of b = k) l bs ->
  map dist_o bs = map dim_output l.
Proof. intros l bs F. induction F as [|d b l bs (_ & E & _) F IH]; [reflexivity|]. cbn. congruence. Qed.

Definition cells_at (X : dict Z (dict Z val)) (r : Z) (cols : list Z) : row :=
  map (fun c => (c, match lookup c X with Some column => match lookup r column with Some x => x | None => VNan end | None => VNan end)) cols.

Lemma cells_at_lookup : forall X r cols c, In c cols -> (forall c, In c cols -> exists column x, lookup c X = Some column /\ lookup r column = Some x) ->
  lookup c (cells_at X r cols) = match lookup c X with Some column => lookup r column | None => None end.
Proof.
  intros X r cols c Hc H. destruct (H c Hc) as (col & x & E1 & E2). rewrite E1, E2. unfold cells_at. clear H.
  induction cols as [|c' cols IH]; [destruct Hc|]. cbn [map lookup]. destruct (eq_dec c c') as [->|N]; [rewrite E1, E2; reflexivity|].
  apply IH. destruct Hc; [congruence|assumption].
Qed.

Lemma cells_at_keys : forall X r cols, keys (cells_at X r cols) = cols.
Proof. intros. unfold keys, cells_at. rewrite map_map. apply map_id. Qed.

Lemma import_rows_eq : forall X label cols l m, (forall p c, In p l -> In c cols -> exists column x, lookup c X = Some column /\ lookup (fst p) column = Some x) ->
  import_rows X label cols m l = observe_rows m (map (fun e => (fst (fst e), snd e))
    (map (fun p : Z * Z => (fst p, snd p, merged [(label, vz (snd p))] (cells_at X (fst p) cols))) l)).
Proof.
  intros X label cols l. induction l as [|[r t] l IH]; intros m H; [reflexivity|]. cbn [import_rows map observe_rows fst snd].
  assert (E : oseq (map (fun c => do column <- dget c X; do x <- dget r column; Ok (c, x)) cols) = Ok (cells_at X r cols)).
  { unfold cells_at. apply oseq_map_ok. intros c Hc. destruct (H (r, t) c (or_introl eq_refl) Hc) as (col & x & E1 & E2). cbn [fst] in E2.
    unfold dget. rewrite E1. cbn [obind]. rewrite E2. reflexivity. }
  rewrite E. f_equal. apply FunctionalExtensionality.functional_extensionality. intros p. destruct (snd p); [|reflexivity]. apply IH.
  intros; apply H; [now right|assumption].
Qed.

Lemma import_view : forall order v, lists order -> convertible v -> exists m, convert_view_to_rowmixture order v = Ret (Ok m) /\ imported v m.
Proof.
  intros order v LO (NE & NDo & CT & EC & PC & NDr & DM). unfold convert_view_to_rowmixture.
  destruct (convert_dims_ok (cv_dims v) CT) as (bs & EB & FB). rewrite EB. cbn [obind].
  destruct (convert_crp_ok (cv_crp v) EC PC) as (s & ES & FS & EO & HS).
  assert (EOs := F2_outputs _ _ FB). assert (NDo0 := NDo). inversion NDo0 as [|? ? NIo NDb]; subst. rewrite <- EOs in NIo, NDb.
  assert (FF : forall b, In b bs -> reachable b /\ dist_data b = [] /\ kind_of b <> KTable).
  { intros b Hb. destruct (F2_in_r _ _ _ FB b Hb) as (d & Hd & FR & _ & _ & KD). destruct (fresh_facts b FR) as [X1 X2]. split; [exact X1|]. split; [exact X2|].
    destruct (CT d Hd) as (k & CK). rewrite (KD k CK). destruct CK; discriminate. }
  rewrite (bases_product bs) by (auto; intros; apply FF; assumption). cbn [obind]. rewrite ES. cbn [obind].
  rewrite (rebase_ok order (cv_Zr v) LO). cbn [obind].
  set (f := number (order (values (cv_Zr v)))). set (l0 := map (fun e => (fst e, f (snd e))) (cv_Zr v)).
  assert (RN : renumbering f (values (cv_Zr v))) by (apply rebase_renumbering; exact LO).
  assert (ORD := sort_by_table_ok l0). set (l := sort_by_table l0) in *.
  assert (K0 : map fst l0 = keys (cv_Zr v)) by (unfold l0, keys; rewrite map_map; reflexivity).
  assert (WO : well_ordered l).
  { apply (ordered_well l0 l f (values (cv_Zr v))); [exact ORD|rewrite K0; exact NDr| |exact RN]. unfold l0, values. rewrite !map_map. reflexivity. }
  assert (P := proj1 ORD).
  assert (INl : forall r t, In (r, t) l <-> exists u, lookup r (cv_Zr v) = Some u /\ t = f u).
  { intros r t. split.
    - intros H. apply (Permutation_in _ P) in H. unfold l0 in H. apply in_map_iff in H. destruct H as ((r' & u) & E & H). cbn in E. injection E as -> <-.
      exists u. split; [apply In_lookup; assumption|reflexivity].
    - intros (u & Lu & ->). apply (Permutation_in _ (Permutation_sym P)). unfold l0. apply in_map_iff. exists (r, u). split; [reflexivity|]. apply lookup_In. exact Lu. }
  assert (NV : new_view (new_flexmix (DCrp s) (CProd (map CDist bs)))).
  { exists s, bs. split; [reflexivity|]. split.
    - destruct (fresh_facts _ FS) as [R0 D0].
      apply (cr_flexible (DCrp s) (CProd (map CDist bs)) (crp_support s)); [exact R0|reflexivity| |].
      + apply (cr_product (map CDist bs)); [|apply bases_product; [intros; apply FF; assumption|exact NDb]].
        intros c Hc. apply in_map_iff in Hc. destruct Hc as (b & <- & Hb). apply cr_prim. apply FF. exact Hb.
      + rewrite outputs_prod. cbn [dist_o]. rewrite EO. exact NIo.
    - split; [apply (proj2 (fresh_facts _ FS))|]. split; [intros ->; inversion FB; subst; congruence|]. intros d Hd. destruct (FF d Hd) as (_ & X & Y). auto. }
  destruct (new_view_good _ NV) as (RE & Sh & K & RC).
  assert (G : good (new_flexmix (DCrp s) (CProd (map CDist bs)))) by (split; [apply creachable_grown; exact RE|split; assumption]).
  set (m0 := new_flexmix (DCrp s) (CProd (map CDist bs))) in *.
  assert (COL : columns_of m0 = map dim_output (cv_dims v)) by (rewrite <- EOs; apply outputs_prod).
  assert (OUT : outputs (CProd (map CDist bs)) = map dim_output (cv_dims v)) by (rewrite outputs_prod; exact EOs).
  assert (HX : forall p c, In p l -> In c (map dim_output (cv_dims v)) -> exists column x, lookup c (cv_X v) = Some column /\ lookup (fst p) column = Some x /\
     exists k, kind_at m0 c = Some k /\ in_domain k [] x).
  { intros [r t] c Hp Hc. apply INl in Hp. destruct Hp as (u & Lu & _). apply in_map_iff in Hc. destruct Hc as (d & <- & Hd). destruct (CT d Hd) as (k & CK).
    destruct (DM d k r Hd CK) as (col & x & E1 & E2 & D0); [apply lookup_In in Lu; apply (in_map fst) in Lu; exact Lu|].
    exists col, x. split; [exact E1|]. split; [exact E2|]. exists k. split; [|exact D0].
    destruct (F2_in_l _ _ _ FB d Hd) as (b & Hb & _ & EOb & _ & KD). rewrite <- EOb, <- (KD k CK).
    apply (kind_column s bs [] [] [] VNan b); [apply (good_wf _ G)|apply (sheet_shaped s bs [] [] []); exact Sh|exact Hb]. }
  rewrite OUT. rewrite import_rows_eq by (intros p c Hp Hc; destruct (HX p c Hp Hc) as (col & x & E1 & E2 & _); eauto).
  cbn [dist_o]. set (L := map (fun p : Z * Z => (fst p, snd p, merged [(crp_o s, vz (snd p))] (cells_at (cv_X v) (fst p) (map dim_output (cv_dims v))))) l).
  assert (FL : map (@fst (Z * Z) row) L = l).
  { unfold L. rewrite map_map. cbn [fst]. rewrite <- (map_id l) at 2. apply map_ext. intros [r t]; reflexivity. }
  assert (NDX : forall r, NoDup (keys (cells_at (cv_X v) r (map dim_output (cv_dims v))))) by (intros; rewrite cells_at_keys, <- EOs; exact NDb).
  destruct (rows_in s bs L [] m0 G) as (m & E & Gm & SL & DV & SC & _ & CL).
  - exists s, [], [], []. split; [reflexivity|]. split; [reflexivity|]. intros k c [].
  - exists (DCrp s). split; [reflexivity|]. apply (fresh_facts _ FS).
  - cbn [app]. rewrite FL. exact WO.
  - intros r t obs H. unfold L in H. apply in_map_iff in H. destruct H as ((r' & t') & EQ & Hp). cbn [fst snd] in EQ. injection EQ as -> -> <-.
    split; [apply NoDup_merged|]. change (label_of m0) with (crp_o s). cbn [dist_o].
    rewrite lookup_merged; [|repeat constructor; intros []|apply NDX]. split.
    + assert (X : lookup (crp_o s) (cells_at (cv_X v) r (map dim_output (cv_dims v))) = None).
      { apply lookup_None. rewrite cells_at_keys, <- EOs, EO. exact NIo. }
      rewrite X. cbn [lookup]. destruct (eq_dec (crp_o s) (crp_o s)); [reflexivity|congruence].
    + intros o x Ho Lx. rewrite COL in Ho. rewrite lookup_merged in Lx; [|repeat constructor; intros []|apply NDX].
      rewrite cells_at_lookup in Lx; [|exact Ho|intros c Hc; destruct (HX (r, t) c Hp Hc) as (col & y & E1 & E2 & _); eauto].
      destruct (HX (r, t) o Hp Ho) as (col & y & E1 & E2 & KK). cbn [fst] in E2. rewrite E1, E2 in Lx. injection Lx as <-. exact KK.
  - exists m. cbn [dist_o]. cbn zeta. cbn [app] in DV. rewrite FL in DV.
    match goal with |- context [observe_rows ?a ?b] => change (observe_rows a b) with (observe_rows m0 (map (fun e : Z * Z * row => (fst (fst e), snd e)) L)) end.
    rewrite E. cbn [sbind snd fst]. split; [reflexivity|].
    assert (SC0 := SC). destruct SC0 as (C1 & C2 & C3). destruct Gm as (GR & Shm & Km). destruct DV as (dv & EDv & DDv).
    assert (ST : forall r, seat m r = option_map (fun t => vz (f t)) (lookup r (cv_Zr v))).
    { intros r. rewrite (seat_divider m dv r Km EDv), DDv. destruct (lookup r (cv_Zr v)) as [u|] eqn:Lu; cbn [option_map].
      - apply In_lookup; [unfold keys, as_data; rewrite map_map; apply WO|]. unfold as_data. apply in_map_iff. exists (r, f u). split; [reflexivity|]. apply INl. exists u. auto.
      - apply lookup_None. unfold keys, as_data. rewrite map_map. cbn [fst]. intros H. apply in_map_iff in H. destruct H as ((r' & t) & ER & H). cbn in ER. subst r'.
        apply INl in H. destruct H as (u & X & _). congruence. }
    split; [split; [exact GR|split; assumption]|]. split; [rewrite C1; exact EO|]. split; [rewrite C2; exact COL|].
    split; [|split; [|split; [|split]]].
    + intros d k Hd CK. rewrite C3. destruct (F2_in_l _ _ _ FB d Hd) as (b & Hb & _ & EOb & _ & KD). rewrite <- EOb, <- (KD k CK).
      apply (kind_column s bs [] [] [] VNan b); [apply (good_wf _ G)|apply (sheet_shaped s bs [] [] []); exact Sh|exact Hb].
    + exists f. split; [exact RN|exact ST].
    + intros r c Hc. destruct (lookup r (cv_Zr v)) as [u|] eqn:Lu.
      * assert (Hl : In (r, f u) l) by (apply INl; exists u; auto).
        rewrite C2 in Hc. assert (HL : In (r, f u, merged [(crp_o s, vz (f u))] (cells_at (cv_X v) r (map dim_output (cv_dims v)))) L).
        { unfold L. apply in_map_iff. exists (r, f u). split; [reflexivity|exact Hl]. }
        rewrite (CL _ _ _ HL c Hc). rewrite lookup_merged; [|repeat constructor; intros []|apply NDX]. rewrite COL in Hc.
        rewrite cells_at_lookup; [|exact Hc|intros c' Hc'; destruct (HX (r, f u) c' Hl Hc') as (col & y & E1 & E2 & _); eauto].
        destruct (HX (r, f u) c Hl Hc) as (col & y & E1 & E2 & _). cbn [fst] in E2. rewrite E1, E2. reflexivity.
      * assert (X := ST r). rewrite Lu in X. cbn [option_map] in X. destruct m as [| | | |fl dv' arr r2c]; try contradiction. cbn [seat cell] in *. rewrite X. reflexivity.
    + intros dv' ED. rewrite EDv in ED. injection ED as <-. destruct SL as (s' & cs & r2i & r2c & -> & SE & _). cbn [divider mkview] in EDv. injection EDv as <-.
      intros h x q. rewrite <- (hypers_settings (DCrp s')), SE, hypers_settings. apply HS.
    + intros d b k Hd Hb EOb. destruct SL as (s' & cs & r2i & r2c & -> & SE & CS). cbn [cluster_columns mkview component_at] in Hb.
      assert (X : exists b', In b' bs /\ settings b = settings b').
      { destruct (lookup k cs) as [c|] eqn:LC.
        - apply lookup_In in LC. destruct (CS _ _ LC) as (ds & -> & EQ). rewrite leaves_prod in Hb. apply (in_map settings) in Hb. rewrite EQ in Hb.
          apply in_map_iff in Hb. destruct Hb as (b' & E' & Hb'). eauto.
        - rewrite leaves_prod in Hb. eauto. }
      destruct X as (b' & Hb' & SEb).
      assert (EOb' : dist_o b' = dim_output d).
      { assert (Y : forall a, dist_o (settings a) = dist_o a) by (intros []; reflexivity). rewrite <- (Y b'), <- SEb, Y. exact EOb. }
      destruct (F2_in_l _ _ _ FB d Hd) as (b2 & Hb2 & _ & EO2 & HA & _).
      assert (b' = b2).
      { assert (Z0 : forall (l : list dist) a b, NoDup (map dist_o l) -> In a l -> In b l -> dist_o a = dist_o b -> a = b).
        { clear. induction l as [|x l IH]; intros a b ND Ha Hb E; [destruct Ha|]. cbn in ND. inversion ND as [|? ? NI ND']; subst. destruct Ha as [->|Ha], Hb as [->|Hb]; auto.
          - exfalso. apply NI. rewrite E. now apply in_map.
          - exfalso. apply NI. rewrite <- E. now apply in_map. }
        apply (Z0 bs); auto. congruence. }
      subst b2. intros h x q. rewrite <- (hypers_settings b), SEb, hypers_settings. apply HA.
Qed.
