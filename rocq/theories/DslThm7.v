(** Proofs about traces rendered for VentureScript (C63). *)
From Coq Require Import List ZArith QArith Qcanon Reals Bool String Ascii Permutation Sorted Lia Lra.
From Coq Require Import Decimal DecimalString DecimalZ.
From Verif Require Import Base Xr Samp Lgamma Prims Cgpm Lib SpecPrims PrimsInv PrimsDens PrimsThm2 SpecComp CompInv CompDens CompThm
  SpecTable SpecHist Table Hist Walks SpecWalks WalksThm Trans Views ViewsThm ViewsThm2 Sample SampleThm SampleThm2 SampleThm3 SampleThm4 Dsl
  DslThm DslThm4 DslThm6.
From Verif Require Import SpecViews SpecSample SpecDsl.
Import ListNotations.
Local Open Scope string_scope.
Local Open Scope Z_scope.

(** ** Weights *)

Lemma cells_as_data : forall l, cells (as_data l) = map (fun p => qz (snd p)) l.
Proof. induction l as [|[r t] l IH]; [reflexivity|]. unfold as_data in *. cbn. f_equal. exact IH. Qed.

Lemma qz_inj : forall a b, qz a = qz b -> a = b.
Proof. intros a b E. rewrite <- (trunc_qz a), <- (trunc_qz b), E. reflexivity. Qed.

Lemma occurrences_rows : forall l t, occurrences t (as_data l) = Z.of_nat (List.length (filter (fun p : Z * Z => snd p =? t) l)).
Proof.
  intros l t. unfold occurrences. rewrite cells_as_data. f_equal. induction l as [|[r u] l IH]; [reflexivity|]. cbn [map filter snd].
  unfold eqb at 1. destruct (eq_dec (qz u) (qz t)) as [E|E]; destruct (Z.eqb_spec u t) as [F|F]; cbn [List.length].
  - f_equal. exact IH.
  - exfalso. apply F. now apply qz_inj.
  - exfalso. apply E. now subst.
  - exact IH.
Qed.

Lemma occupied_rows : forall l t, occupied (as_data l) t <-> In t (map snd l).
Proof.
  intros l t. unfold occupied, as_data. split.
  - intros (r & H). apply in_map_iff in H. destruct H as ((r' & u) & E & H). cbn in E. assert (VQ (qz u) = VQ (qz t)) by (unfold vz in E; congruence).
    assert (u = t) by (apply qz_inj; congruence). subst. apply (in_map snd) in H. exact H.
  - intros H. apply in_map_iff in H. destruct H as ((r & u) & E & H). cbn in E. subst. exists r. apply in_map_iff. exists (r, t). auto.
Qed.

Lemma tables_eq : forall s l, dinv (DCrp s) -> dist_data (DCrp s) = as_data l -> zsort (keys (crp_counts s)) = zsort (dedup (map snd l)).
Proof.
  intros s l (_ & _ & SD & _) E. rewrite E in SD. apply zsort_unique. apply NoDup_Permutation.
  - apply SD.
  - apply dedup_NoDup.
  - intros t. rewrite dedup_In, <- occupied_rows. exact (counts_keys _ _ _ SD t).
Qed.

Lemma counts_total : forall l, zsum (map (fun t => occurrences t (as_data l)) (zsort (dedup (map snd l)))) = Z.of_nat (List.length l).
Proof.
  intros l. rewrite sum_occ.
  - rewrite cells_as_data, map_length. reflexivity.
  - apply (Permutation_NoDup (Permutation_sym (zsort_perm _))). apply dedup_NoDup.
  - intros q. rewrite cells_as_data. intros H. apply in_map_iff in H. destruct H as (p & <- & H). exists (snd p). split; [|reflexivity].
    apply zsort_In, dedup_In, in_map, H.
Qed.

Lemma tables_weights : forall s l, dinv (DCrp s) -> dist_data (DCrp s) = as_data l -> l <> [] ->
  get_crp_tables_weights (DCrp s) = Ok (Some (zsort (dedup (map snd l))), map (share l) (zsort (dedup (map snd l)))).
Proof.
  intros s l D E NE. unfold get_crp_tables_weights. rewrite (tables_eq s l D E).
  assert (IN : forall t, In t (zsort (dedup (map snd l))) <-> In t (map snd l)) by (intros; rewrite zsort_In; apply dedup_In).
  assert (CT := counts_total l). destruct D as (_ & _ & SD & _). rewrite E in SD.
  assert (CS : oseq (map (fun t => dget t (crp_counts s)) (zsort (dedup (map snd l)))) = Ok (map (fun t => occurrences t (as_data l)) (zsort (dedup (map snd l))))).
  { apply oseq_map_ok. intros t Ht. apply IN in Ht. apply occupied_rows in Ht. apply (counts_keys _ _ _ SD) in Ht.
    apply lookup_keys in Ht. destruct Ht as (n & L). unfold dget. rewrite L. f_equal. apply SD in L. tauto. }
  destruct (zsort (dedup (map snd l))) as [|t ts] eqn:EZ.
  - destruct l as [|[r t] l]; [congruence|]. exfalso. apply (proj2 (IN t)). now left.
  - rewrite CS. cbn [obind]. rewrite CT. destruct (Z.eqb_spec (Z.of_nat (List.length l)) 0) as [Z0|_]; [destruct l; [congruence|cbn in Z0; lia]|].
    do 2 f_equal. rewrite map_map. apply map_ext. intros u. unfold share. rewrite occurrences_rows. reflexivity.
Qed.

Lemma shares_sum : forall l, l <> [] -> rsum (map qr (map (share l) (zsort (dedup (map snd l))))) = 1%R.
Proof.
  intros l NE. assert (NZ : IZR (Z.of_nat (List.length l)) <> 0%R) by (apply not_0_IZR; destruct l; [congruence|cbn; lia]).
  assert (X : forall ts, rsum (map qr (map (share l) ts)) = (IZR (zsum (map (fun t => occurrences t (as_data l)) ts)) / IZR (Z.of_nat (List.length l)))%R).
  { induction ts as [|t ts IH]; cbn [map rsum zsum fold_right]; [unfold Rdiv; rewrite Rmult_0_l; reflexivity|].
    change (fold_right Rplus 0%R (map qr (map (share l) ts))) with (rsum (map qr (map (share l) ts))).
    change (fold_right Z.add 0 (map (fun t => occurrences t (as_data l)) ts)) with (zsum (map (fun t => occurrences t (as_data l)) ts)).
    rewrite IH, plus_IZR. unfold share. rewrite qr_div, !qr_qz, occurrences_rows; [field; exact NZ|]. intros E. apply NZ. rewrite <- qr_qz, E. apply qr_0. }
  rewrite X, counts_total. field. exact NZ.
Qed.

(** ** Distributions *)

Lemma maker_ok : forall d, in_language d -> exists text, get_primitive_distribution d = Ok ("var-" ++ format_d (dist_o d), text) /\ maker d text.
Proof.
  intros d L. destruct d as [s|s|s|s|s|s]; destruct L as [[k E]|[E|E]]; try discriminate E; eexists; (split; [reflexivity|]).
  - cbn [kind_of] in E. eapply maker_categorical; reflexivity.
  - eapply maker_poisson; reflexivity.
  - eapply maker_normal; reflexivity.
Qed.

Lemma product_texts : forall ds, (forall d, In d ds -> in_language d) -> exists es, get_product_distributions (CProd (map CDist ds)) = Ok es /\
  Forall2 (fun d e => fst e = "var-" ++ format_d (dist_o d) /\ maker d (snd e)) ds es.
Proof.
  intros ds L. unfold get_product_distributions. rewrite map_map. induction ds as [|d ds IH]; [exists []; split; [reflexivity|constructor]|].
  destruct IH as (es & E & F); [intros; apply L; now right|]. destruct (maker_ok d (L d (or_introl eq_refl))) as (t & E1 & M).
  exists (("var-" ++ format_d (dist_o d), t) :: es). split; [cbn [map oseq]; rewrite E1; cbn [obind]; rewrite E; reflexivity|].
  constructor; [|exact F]. split; [reflexivity|exact M].
Qed.

(** Products of the same columns, transposed. *)
Lemma transpose_ok : forall {B} (P : B -> Z -> string * string -> Prop) (os : list Z) (ts : list B) (products : list (list (string * string))),
  ts <> [] -> Forall2 (fun t es => Forall2 (P t) os es) ts products ->
  exists columns, tranpose_product_list products = Ok columns /\ Forall2 (fun o texts => Forall2 (fun t e => P t o e) ts texts) os columns.
Proof.
  intros B P os ts products NE F.
  set (col := fun i => oseq (map (fun prod : list (string * string) => match nth_error prod i with Some x => Ok x | None => Err IndexError end) products)).
  assert (ONE : forall i o, nth_error os i = Some o -> exists texts, col i = Ok texts /\ Forall2 (fun t e => P t o e) ts texts).
  { intros i o Ho. unfold col. clear NE col. induction F as [|t es ts products F1 F IH]; [exists []; split; [reflexivity|constructor]|].
    destruct IH as (texts & E & F2). assert (X : exists e, nth_error es i = Some e /\ P t o e).
    { clear - F1 Ho. revert i Ho. induction F1 as [|o' e os es Pe F1 IH]; intros [|i] Ho; try discriminate; [|now apply IH].
      injection Ho as <-. exists e. split; [reflexivity|exact Pe]. }
    destruct X as (e & Ee & Pe). exists (e :: texts). split; [cbn [map oseq]; rewrite Ee; cbn [obind]; rewrite E; reflexivity|constructor; assumption]. }
  assert (ALL : forall os' n, (forall i o, nth_error os' i = Some o -> nth_error os (n + i) = Some o) ->
     exists columns, oseq (map col (seq n (List.length os'))) = Ok columns /\ Forall2 (fun o texts => Forall2 (fun t e => P t o e) ts texts) os' columns).
  { induction os' as [|o os' IH]; intros n Hn; [exists []; split; [reflexivity|constructor]|].
    destruct (ONE n o) as (texts & E1 & F1); [rewrite <- (Nat.add_0_r n); apply Hn; reflexivity|].
    destruct (IH (Datatypes.S n)) as (columns & E2 & F2); [intros i o' Hi; rewrite <- (Hn (Datatypes.S i) o' Hi); f_equal; lia|].
    exists (texts :: columns). split; [cbn [List.length seq map oseq]; rewrite E1; cbn [obind]; rewrite E2; reflexivity|constructor; assumption]. }
  destruct (ALL os 0%nat) as (columns & E & FC); [auto|]. exists columns. split; [|exact FC].
  unfold tranpose_product_list. destruct F as [|t es ts products F1 F]; [congruence|].
  replace (List.length es) with (List.length os); [exact E|]. clear - F1. induction F1; [reflexivity|]. cbn. congruence.
Qed.

(** ** A view *)

Lemma data_vs_some : forall m l, good m -> recorded_rows m l -> l <> [] -> no_empty_rows m -> exists d, get_view_observes_data_vs m = Ok d.
Proof.
  intros m l (A & B & C) RR NE NR. destruct (exists_last NE) as (l' & r & ->). destruct (data_vs_ok m l' r A B C RR NR) as (d & E & _). eauto.
Qed.

Lemma alike_language : forall bs ds, alike bs ds -> (forall d, In d bs -> in_language d) -> forall d, In d ds -> in_language d.
Proof.
  intros bs ds AL L d Hd. unfold alike in AL. apply (in_map (fun d => (dist_o d, kind_of d))) in Hd. rewrite AL in Hd.
  apply in_map_iff in Hd. destruct Hd as (b & E & Hb). assert (K : kind_of b = kind_of d) by congruence.
  unfold in_language. rewrite <- K. apply L. exact Hb.
Qed.

Lemma texts_in : forall all ds (es : list (string * string)), (forall d, In d ds -> In d all) ->
  Forall2 (fun d e => fst e = "var-" ++ format_d (dist_o d) /\ maker d (snd e)) ds es ->
  Forall2 (fun o e => fst e = "var-" ++ format_d o /\ exists d, In d all /\ dist_o d = o /\ maker d (snd e)) (map dist_o ds) es.
Proof.
  intros all ds es SUB F. induction F as [|d e ds es [E1 E2] F IH]; cbn [map]; constructor.
  - split; [exact E1|]. exists d. split; [apply SUB; now left|]. split; [reflexivity|exact E2].
  - apply IH. intros; apply SUB; now right.
Qed.

Lemma view_text : forall m l, good m -> recorded_rows m l -> l <> [] -> no_empty_rows m -> (forall d, In d (base_columns m) -> in_language d) ->
  exists v tables, get_view_representation m = Ok v /\ clusters_of m tables /\
    vs_weights v = map (share l) tables /\ rsum (map qr (vs_weights v)) = 1%R /\
    Forall2 (column_texts m tables) (columns_of m) (vs_distributions v) /\
    Forall2 (fun p q => fst q = fst p /\ position tables (snd q) (snd p)) l (vs_observes_crp v).
Proof.
  intros m l G RR NE NR L. assert (SE := fun r => seat_recorded m l r (proj2 (proj2 G)) RR).
  destruct (data_vs_some m l G RR NE NR) as (dv & EDV). assert (ECV := crp_vs_eq m l (proj1 G) (proj1 (proj2 G)) (proj2 (proj2 G)) RR).
  set (tables := zsort (dedup (map snd l))) in *.
  assert (IN : forall t, In t tables <-> In t (map snd l)) by (intros; unfold tables; rewrite zsort_In; apply dedup_In).
  assert (ST : StronglySorted Z.lt tables) by (apply zsort_lt, dedup_NoDup).
  assert (CL : clusters_of m tables).
  { split; [exact ST|]. intros t. rewrite IN. split.
    - intros H. apply in_map_iff in H. destruct H as ((r & u) & E & H). cbn in E. subst u. exists r. rewrite SE.
      assert (W := good_wf m G). destruct RR as (d & ED & DD).
      assert (ND : NoDup (map fst l)).
      { destruct (sheet_inv m (proj1 (proj2 G))) as (s & bs & cs & r2i & r2c & -> & _). destruct (view_parts _ _ _ _ _ W) as (D & _).
        cbn in ED. injection ED as <-. apply dinv_keys in D. rewrite DD in D. unfold keys, as_data in D. rewrite map_map in D. exact D. }
      rewrite (In_lookup l r t ND H). reflexivity.
    - intros (r & H). rewrite SE in H. destruct (lookup r l) as [u|] eqn:LU; [|discriminate]. cbn in H.
      assert (VQ (qz u) = VQ (qz t)) by (unfold vz in H; congruence). assert (u = t) by (apply qz_inj; congruence). subst. apply lookup_In, (in_map snd) in LU. exact LU. }
  assert (NT : tables <> []). { intros E. destruct l as [|[r t] l0]; [congruence|]. assert (X := proj2 (IN t) (or_introl eq_refl)). rewrite E in X. destruct X. }
  assert (G0 := G). destruct G0 as (GR & Sh & K). assert (W := good_wf m G).
  destruct (sheet_inv m Sh) as (s & bs & cs & r2i & r2c & -> & NB & B & C).
  assert (SH : shaped bs cs) by (split; auto). assert (KW := proj1 (consistent_parts _ _ _ _ _ SH) K).
  destruct (view_parts _ _ _ _ _ W) as (D & _). assert (RR0 := RR). destruct RR0 as (dd & ED & DD). cbn [divider mkview] in ED. injection ED as <-.
  change (base_columns (mkview s bs cs r2i r2c)) with (leaves (CProd (map CDist bs))) in L. rewrite leaves_prod in L.
  assert (PR : exists products, get_array_distributions (CFlexArr (crp_o s) (CProd (map CDist bs)) cs r2i) (Some tables) = Ok products /\
    Forall2 (fun t es => Forall2 (fun o e => fst e = "var-" ++ format_d o /\
      exists d, In d (cluster_columns (mkview s bs cs r2i r2c) (vz t)) /\ dist_o d = o /\ maker d (snd e)) (map dist_o bs) es) tables products).
  { assert (HC : forall t, In t tables -> exists ds, lookup (vz t) cs = Some (CProd (map CDist ds)) /\ alike bs ds).
    { intros t Ht. apply (proj2 CL) in Ht. destruct Ht as (r & Hr). destruct (NR r) as (o & x & CX); [congruence|].
      rewrite (cell_parts s bs cs r2i r2c r o SH) in CX. cbn [seat mkview] in Hr. rewrite Hr in CX. unfold cols in CX.
      destruct (lookup (vz t) cs) as [c|] eqn:LC.
      - destruct (C _ _ (lookup_In _ _ _ LC)) as (ds & -> & AL). eauto.
      - exfalso. unfold in_column in CX. destruct (find _ bs) as [d|] eqn:FD; [|discriminate]. apply find_some in FD. rewrite (proj2 (B d (proj1 FD))) in CX. discriminate. }
    assert (EX : exists products, oseq (map (fun t => do c <- dget (vz t) cs; get_product_distributions c) tables) = Ok products /\
      Forall2 (fun t es => Forall2 (fun o e => fst e = "var-" ++ format_d o /\
        exists d, In d (cluster_columns (mkview s bs cs r2i r2c) (vz t)) /\ dist_o d = o /\ maker d (snd e)) (map dist_o bs) es) tables products).
    { revert HC. clear - L. generalize tables as ts. induction ts as [|t ts IH]; intros HC; [exists []; split; [reflexivity|constructor]|].
      destruct IH as (ps & E & F); [intros; apply HC; now right|]. destruct (HC t (or_introl eq_refl)) as (ds & LC & AL).
      destruct (product_texts ds (alike_language bs ds AL L)) as (es & EE & FE). exists (es :: ps). split.
      - cbn [map oseq]. unfold dget at 1. rewrite LC. cbn [obind]. rewrite EE. cbn [obind]. rewrite E. reflexivity.
      - constructor; [|exact F]. replace (map dist_o bs) with (map dist_o ds).
        + assert (CC : cluster_columns (mkview s bs cs r2i r2c) (vz t) = ds) by (cbn [cluster_columns mkview]; rewrite LC; apply leaves_prod). rewrite CC.
          apply (texts_in ds ds es); auto.
        + unfold alike in AL. apply (f_equal (map fst)) in AL. rewrite !map_map in AL. exact AL. }
    destruct EX as (products & EP & FP). exists products. split; [|exact FP]. unfold get_array_distributions.
    destruct cs as [|e cs']; [|exact EP]. exfalso. destruct tables as [|t ts]; [congruence|]. destruct (HC t (or_introl eq_refl)) as (ds & X & _). discriminate X. }
  destruct PR as (products & EP & FP).
  destruct (transpose_ok _ _ _ _ NT FP) as (columns & ET & FC).
  exists (mkVSView (map (share l) tables) columns (map (fun p => (fst p, number tables (snd p))) l) dv), tables. split.
  { unfold get_view_representation, mkview. rewrite (tables_weights s l D DD NE). cbn [obind fst snd]. fold tables. rewrite EP. cbn [obind]. rewrite ET. cbn [obind].
    replace (forallb _ columns) with true.
    - cbn [oassert obind]. fold (mkview s bs cs r2i r2c). rewrite ECV. cbn [obind]. rewrite EDV. reflexivity.
    - symmetry. apply forallb_forall. intros c Hc. destruct (F2_in_r _ _ _ FC c Hc) as (o & _ & F). apply Nat.eqb_eq. rewrite map_length. symmetry. eapply F2_pairs. exact F. }
  split; [exact CL|]. split; [reflexivity|]. split; [apply shares_sum; exact NE|]. split.
  - change (columns_of (mkview s bs cs r2i r2c)) with (outputs (CProd (map CDist bs))). rewrite outputs_prod. exact FC.
  - cbn [vs_observes_crp]. assert (X : forall p, In p l -> position tables (number tables (snd p)) (snd p)).
    { intros p Hp. assert (Ht : In (snd p) tables) by (apply IN, in_map, Hp). unfold position, number.
      destruct (position_of_nth tables (snd p) 0 Ht) as (n & En & ->). split; [lia|]. rewrite Z.add_0_l, Nat2Z.id. exact En. }
    revert X. clearbody tables. clear. induction l as [|p l IH]; intros X; constructor; [split; [reflexivity|apply X; now left]|apply IH; intros; apply X; now right].
Qed.

(** ** Columns and their views *)

Lemma columns_nodup : forall X, crosscat X -> NoDup (flat_map columns_of X).
Proof.
  intros X [G ND]. induction X as [|m X IH]; [constructor|]. cbn [flat_map] in *. destruct (nodup_app _ _ ND) as (A & B & C).
  assert (Sh : sheet m) by (apply G; now left). rewrite (sheet_outputs m Sh) in A, C. inversion A as [|? ? NI ND1]; subst.
  apply NoDup_app_intro; [exact ND1|apply IH; [intros; apply G; now right|exact B]|].
  intros o Ho Ho'. apply (C o); [now right|]. apply in_flat_map in Ho'. destruct Ho' as (m' & Hm & Ho'). apply in_flat_map. exists m'. split; [exact Hm|].
  apply column_output; [apply G; now right|exact Ho'].
Qed.

Lemma distribution_outputs : forall X, crosscat X -> get_distribution_outputs (CProd X) = flat_map columns_of X.
Proof.
  intros X [G _]. unfold get_distribution_outputs. cbn [views_of]. induction X as [|m X IH]; [reflexivity|]. cbn [flat_map].
  rewrite IH by (intros; apply G; now right). rewrite (sheet_outputs m) by (apply G; now left). reflexivity.
Qed.

Lemma assigns_ok : forall X, crosscat X -> exists a, get_variables_to_view_assignment (CProd X) = Ok a /\ assigns X a.
Proof.
  intros X C. unfold get_variables_to_view_assignment. rewrite (distribution_outputs X C).
  set (os := zsort (flat_map columns_of X)). assert (IN : forall o, In o os <-> In o (flat_map columns_of X)) by (intros; apply zsort_In).
  assert (IX : exists is, oseq (map (fun o => get_cgpm_current_view_index (CProd X) [o]) os) = Ok is /\
    Forall2 (fun o i => exists m, nth_error X i = Some m /\ In o (columns_of m)) os is).
  { assert (SUB : forall o, In o os -> In o (flat_map columns_of X)) by apply IN. revert SUB. clear - C. generalize os as l. induction l as [|o l IH]; intros SUB; [exists []; split; [reflexivity|constructor]|].
    destruct IH as (is & E & F); [intros; apply SUB; now right|]. assert (Ho := SUB o (or_introl eq_refl)). apply in_flat_map in Ho. destruct Ho as (m & Hm & Ho).
    destruct (in_split _ _ Hm) as (a & b & EX). exists (List.length a :: is). split.
    - cbn [map oseq]. assert (EI : get_cgpm_current_view_index (CProd X) [o] = Ok (List.length a)).
      { rewrite EX. apply index_ok; [rewrite <- EX; exact C|discriminate|]. intros o' [<-|[]]. apply column_output; [apply (crosscat_views X m C Hm)|exact Ho]. }
      rewrite EI. cbn [obind]. rewrite E. reflexivity.
    - constructor; [|exact F]. exists m. split; [|exact Ho]. rewrite EX, nth_error_app2, Nat.sub_diag by lia. reflexivity. }
  destruct IX as (is & E & F). rewrite E. cbn [obind]. eexists. split; [reflexivity|]. exists os.
  split; [apply zsort_lt, columns_nodup, C|]. split; [exact IN|].
  clear - F. induction F as [|o i os is H F IH]; cbn [combine map]; constructor; [split; [reflexivity|exact H]|exact IH].
Qed.

Lemma recorded_ex : forall m, good m -> exists l, recorded_rows m l.
Proof.
  intros m (GR & Sh & K). assert (W := grown_wf _ GR). destruct (sheet_inv m Sh) as (s & bs & cs & r2i & r2c & -> & NB & B & C).
  assert (SH : shaped bs cs) by (split; auto). assert (KW := proj1 (consistent_parts _ _ _ _ _ SH) K). destruct KW as (_ & _ & A3 & _ & A5 & _).
  destruct (view_parts _ _ _ _ _ W) as (D & _). assert (ND := dinv_keys _ D).
  assert (X : forall dd, (forall r k, In (r, k) dd -> exists z, k = vz z) -> exists l, dd = map (fun p : Z * Z => (fst p, vz (snd p))) l).
  { clear. induction dd as [|[r k] dd IH]; intros H; [exists []; reflexivity|]. destruct IH as [l ->]; [intros; eapply H; right; eauto|].
    destruct (H r k (or_introl eq_refl)) as [z ->]. exists ((r, z) :: l). reflexivity. }
  destruct (X (dist_data (DCrp s))) as [l E].
  { intros r k H. apply (A5 r). rewrite <- A3. apply In_lookup; [exact ND|exact H]. }
  exists l, (DCrp s). split; [reflexivity|exact E].
Qed.

Lemma trace_shown : forall X, crosscat X -> (forall m, In m X -> (exists r, seat m r <> None) /\ no_empty_rows m /\ forall d, In d (base_columns m) -> in_language d) ->
  exists vs a, convert_trace_to_venturescript_ast (CProd X) = Ok (vs, a) /\ Forall2 vs_shows X vs /\ assigns X a.
Proof.
  intros X C G. destruct (assigns_ok X C) as (a & EA & SA).
  assert (V : exists vs, oseq (map get_view_representation X) = Ok vs /\ Forall2 vs_shows X vs).
  { assert (GX : forall m, In m X -> good m) by (intros m Hm; apply C; exact Hm). clear - G GX.
    induction X as [|m X IH]; [exists []; split; [reflexivity|constructor]|].
    destruct IH as (vs & E & F); [intros; apply G; now right|intros; apply GX; now right|].
    destruct (G m (or_introl eq_refl)) as ((r & SR) & NR & L). assert (Gm := GX m (or_introl eq_refl)).
    destruct (recorded_ex m Gm) as (l & RR).
    assert (NE : l <> []). { intros ->. apply SR. rewrite (seat_recorded m [] r (proj2 (proj2 Gm)) RR). reflexivity. }
    destruct (view_text m l Gm RR NE NR L) as (v & tables & EV & A). exists (v :: vs). split; [cbn [map oseq]; rewrite EV; cbn [obind]; rewrite E; reflexivity|].
    constructor; [|exact F]. exists l, tables. auto. }
  destruct V as (vs & EV & FV). exists vs, a. split; [|auto]. unfold convert_trace_to_venturescript_ast. rewrite EV. cbn [obind]. rewrite EA. reflexivity.
Qed.

(** ** Names *)

Lemma uint_no_dash : forall u, every (other "-") (NilEmpty.string_of_uint u) = true.
Proof. induction u; cbn; auto. Qed.

Lemma name_ok : forall o schema name, 0 <= o -> nth_error schema (Z.to_nat o) = Some name ->
  convert_variable_name (get_variable_name o) schema = Ok name.
Proof.
  intros o schema name P E. unfold convert_variable_name, get_variable_name.
  assert (ND : every (other "-") (format_d o) = true).
  { destruct (format_d_nonneg o P) as (u & -> & _). unfold NilZero.string_of_uint. destruct u; try reflexivity; apply uint_no_dash. }
  change ("var-" ++ format_d o) with ("var" ++ String "-" (format_d o)). rewrite split_first by reflexivity. rewrite (split_none _ _ ND).
  rewrite int_of_format_d, DecimalZ.of_to. unfold at_py_index, py_index, vz. rewrite is_int_qz, trunc_qz.
  assert (L : (Z.to_nat o < List.length schema)%nat) by (apply nth_error_Some; congruence).
  replace ((0 <=? o) && (o <? Z.of_nat (List.length schema))) with true; [cbn [obind]; rewrite E; reflexivity|].
  symmetry. apply andb_true_iff. split; [apply Z.leb_le; exact P|apply Z.ltb_lt; lia].
Qed.
