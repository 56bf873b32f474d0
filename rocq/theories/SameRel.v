(** Views whose clusters are named differently. *)
From Coq Require Import List ZArith QArith Qcanon Reals Bool String Permutation Lia Lra Sorted.
From Verif Require Import Base Xr Samp Lgamma Prims Cgpm Lib SpecPrims PrimsInv PrimsDens PrimsThm PrimsThm2
  SpecComp CompInv CompDens CompThm SpecBook Book SpecTable Trans SpecHist Table Gibbs Hist SpecSame SameThm.
Import ListNotations.
Local Open Scope Z_scope.

(** ** The divider *)

Definition ren (f : Z -> Z) (v : val) : val := match v with VQ q => vz (f (trunc q)) | VNan => VNan end.

Definition labels (data : dict Z val) : Prop := forall r v, In (r, v) data -> exists z, v = vz z.

Lemma ren_vz : forall f z, ren f (vz z) = vz (f z).
Proof. intros f z. unfold ren, vz at 1. rewrite trunc_qz. reflexivity. Qed.

Lemma lookup_ren : forall f (data : dict Z val) r, lookup r (map (fun p => (fst p, ren f (snd p))) data) = option_map (ren f) (lookup r data).
Proof. intros f data r. induction data as [|[k v] data IH]; [reflexivity|]. cbn [map lookup fst snd]. destruct (eq_dec r k); [reflexivity|exact IH]. Qed.

Definition apart (f : Z -> Z) (data : dict Z val) : Prop := forall t t', occupied data t -> occupied data t' -> f t = f t' -> t = t'.

Lemma ren_occ : forall f data t, labels data -> apart f data -> occupied data t ->
  occurrences (f t) (map (fun p => (fst p, ren f (snd p))) data) = occurrences t data.
Proof.
  intros f data t LB AP OC. unfold occurrences. f_equal. revert LB.
  assert (AP' : forall r z, In (r, vz z) data -> f z = f t -> z = t) by (intros r z J; apply AP; [exists r; exact J|exact OC]).
  clear AP OC. induction data as [|[r v] data IH]; intros LB; [reflexivity|].
  destruct (LB r v (or_introl eq_refl)) as (z & ->). unfold cells. cbn [map flat_map fst snd]. rewrite ren_vz. change (vz (f z)) with (VQ (qz (f z))). change (vz z) with (VQ (qz z)). cbn [app filter].
  fold (cells data). fold (cells (map (fun p => (fst p, ren f (snd p))) data)).
  assert (IH' := IH (fun r' z' J => AP' r' z' (or_intror J)) (fun r' v' J => LB r' v' (or_intror J))).
  assert (EQ : eqb (qz (f z)) (qz (f t)) = eqb (qz z) (qz t)).
  { destruct (eqb (qz z) (qz t)) eqn:E.
    - apply eqb_true in E. apply eqb_true. f_equal. f_equal. apply (f_equal trunc) in E. rewrite !trunc_qz in E. exact E.
    - apply eqb_false in E. apply eqb_false. intros J. apply E. f_equal. apply (AP' r z (or_introl eq_refl)). apply (f_equal trunc) in J. rewrite !trunc_qz in J. exact J. }
  rewrite EQ. destruct (eqb (qz z) (qz t)); cbn [List.length]; rewrite IH'; reflexivity.
Qed.

Lemma ren_count : forall f data, List.length (cells (map (fun p => (fst p, ren f (snd p))) data)) = List.length (cells data).
Proof.
  intros f data. induction data as [|[r v] data IH]; [reflexivity|]. unfold cells. cbn [map flat_map fst snd]. fold (cells data).
  fold (cells (map (fun p => (fst p, ren f (snd p))) data)). rewrite !app_length, IH. destruct v; reflexivity.
Qed.

Lemma ren_occupied : forall f data t, labels data -> (occupied (map (fun p => (fst p, ren f (snd p))) data) t <-> exists z, occupied data z /\ t = f z).
Proof.
  intros f data t LB. split.
  - intros [r J]. apply in_map_iff in J. destruct J as ([r' v] & E & J). cbn [fst snd] in E. injection E as -> E.
    destruct (LB _ _ J) as (z & ->). rewrite ren_vz in E. exists z. split; [exists r; exact J|]. apply vz_inj in E. auto.
  - intros (z & [r J] & ->). exists r. apply in_map_iff. exists (r, vz z). cbn [fst snd]. rewrite ren_vz. auto.
Qed.

Section Renamed.
  Variable f : Z -> Z.
  Variables s s' : crp.
  Hypothesis D : dinv (DCrp s).
  Hypothesis D' : dinv (DCrp s').
  Hypothesis LB : labels (dist_data (DCrp s)).
  Hypothesis AP : apart f (dist_data (DCrp s)).
  Hypothesis LK : forall r, lookup r (dist_data (DCrp s')) = option_map (ren f) (lookup r (dist_data (DCrp s))).

  Notation data := (dist_data (DCrp s)).
  Notation data' := (dist_data (DCrp s')).

  Lemma data_perm : Permutation data' (map (fun p => (fst p, ren f (snd p))) data).
  Proof.
    apply lookup_permutation; [apply D'| |].
    - unfold keys. rewrite map_map. cbn [fst]. apply D.
    - intros k. rewrite lookup_ren, LK. reflexivity.
  Qed.

  Lemma occ' : forall t, occupied data t -> occurrences (f t) data' = occurrences t data.
  Proof. intros t O. rewrite (occ_perm _ _ _ data_perm). apply ren_occ; auto. Qed.

  Lemma occupied' : forall t, occupied data' t <-> exists z, occupied data z /\ t = f z.
  Proof. intros t. rewrite <- (ren_occupied f data t LB), <- !occ_pos, (occ_perm t _ _ data_perm). reflexivity. Qed.

  Lemma count' : count_of data' = count_of data.
  Proof. unfold count_of. rewrite (Permutation_length (cells_perm _ _ data_perm)), ren_count. reflexivity. Qed.

  Definition busy (d : dict Z val) : list Z := dedup (map trunc (cells d)).

  Lemma busy_In : forall s0 t, dinv (DCrp s0) -> (In t (busy (dist_data (DCrp s0))) <-> occupied (dist_data (DCrp s0)) t).
  Proof. intros s0 t (_ & T & _). unfold busy. rewrite dedup_In. apply In_tables. exact T. Qed.

  Lemma busy_perm : Permutation (map f (busy data)) (busy data').
  Proof.
    apply NoDup_Permutation; [|apply dedup_NoDup|].
    - assert (X : forall l, NoDup l -> (forall t, In t l -> occupied data t) -> NoDup (map f l)).
      { induction l as [|a l IH]; intros N O; [constructor|]. inversion N; subst. cbn [map]. constructor; [|apply IH; auto; intros; apply O; now right].
        intros J. apply in_map_iff in J. destruct J as (b & E & J). apply AP in E; [|apply O; now right|apply O; now left]. subst. auto. }
      apply X; [apply dedup_NoDup|]. intros t. apply (busy_In s t D).
    - intros t. rewrite (busy_In s' t D'), occupied', in_map_iff. split.
      + intros (z & <- & J). exists z. split; [apply (busy_In s z D); exact J|reflexivity].
      + intros (z & O & ->). exists z. split; [reflexivity|]. apply (busy_In s z D). exact O.
  Qed.

  Lemma support_perm : forall s0, dinv (DCrp s0) -> Permutation (crp_support s0) (first_free (dist_data (DCrp s0)) :: busy (dist_data (DCrp s0))).
  Proof.
    intros s0 D0. apply NoDup_Permutation.
    - apply sorted_lt_NoDup, crp_support_sorted. exact D0.
    - constructor; [|apply dedup_NoDup]. rewrite (busy_In s0 _ D0). apply first_free_unoccupied. apply D0.
    - intros t. rewrite (crp_support_In s0 t D0). cbn [In]. rewrite (busy_In s0 t D0). split; intros [A|A]; auto.
  Qed.

  Hypothesis EA : crp_alpha s' = crp_alpha s.

  Lemma crp_score' : prim_score (DCrp s') = prim_score (DCrp s).
  Proof.
    assert (P : Permutation (block_sizes data') (block_sizes data)).
    { unfold block_sizes. fold (busy data') (busy data). rewrite <- busy_perm, map_map.
      erewrite map_ext_in; [reflexivity|]. intros t J. apply occ'. apply (busy_In s t D). exact J. }
    pose proof (counts_block_sizes s D) as P1. pose proof (counts_block_sizes s' D') as P2.
    assert (PV : Permutation (values (crp_counts s')) (values (crp_counts s))) by (rewrite P1, P2; exact P).
    destruct D as (_ & T1 & S1 & _). destruct D' as (_ & T2 & S2 & _). cbn [kind_of dist_suffstats] in *.
    pose proof (counts_sum _ _ _ T1 S1) as N1. pose proof (counts_sum _ _ _ T2 S2) as N2.
    unfold prim_score. cbn [dist_score]. unfold crp_score, crp_marginal.
    rewrite <- N1, <- N2, EA, (Permutation_length PV), (zsum_perm _ _ PV),
      (rsum_perm _ _ (Permutation_map (fun c => lgamma (IZR c)) PV)). reflexivity.
  Qed.

  Lemma weight_busy : forall t, occupied data t -> cell_density (DCrp s') (vz (f t)) = cell_density (DCrp s) (vz t).
  Proof.
    intros t O. unfold vz, cell_density, prim_density. rewrite !trunc_qz, (occ' t O), count', EA.
    assert (X := proj2 (occ_pos t data) O). apply Z.ltb_lt in X. rewrite X. reflexivity.
  Qed.

  Lemma weight_free : cell_density (DCrp s') (vz (first_free data')) = cell_density (DCrp s) (vz (first_free data)).
  Proof.
    assert (Y : forall s0, dinv (DCrp s0) -> 0 <? occurrences (first_free (dist_data (DCrp s0))) (dist_data (DCrp s0)) = false).
    { intros s0 D0. apply Z.ltb_ge. destruct (Z.le_gt_cases (occurrences (first_free (dist_data (DCrp s0))) (dist_data (DCrp s0))) 0) as [H|H]; [exact H|].
      apply occ_pos in H. exfalso. apply (first_free_unoccupied (dist_data (DCrp s0))); [apply D0|exact H]. }
    unfold vz, cell_density, prim_density. rewrite !trunc_qz, (Y s D), (Y s' D'), !Z.eqb_refl, count', EA. reflexivity.
  Qed.
End Renamed.

(** ** Components *)

Lemma agree_cell : forall d d' x, dinv d -> dinv d' -> agree d d' -> kind_of d <> KTable -> kind_of d' <> KTable -> cell_density d' x = cell_density d x.
Proof.
  intros d d' x D D' A NK NK'. assert (EO := proj1 A).
  assert (N : forall d0, kind_of d0 <> KTable -> ~ crp_missing d0 x) by (intros [] K; cbn in K |- *; try congruence; tauto).
  rewrite <- (xexp_xlog (cell_density d' x)), <- (xexp_xlog (cell_density d x)) by (apply cell_nonneg; assumption). f_equal.
  assert (X := cell_logpdf d None x D Logic.I (N d NK)). assert (X' := cell_logpdf d' None x D' Logic.I (N d' NK')). rewrite (agree_logpdf d d' A), EO in X'. congruence.
Qed.

Lemma agree_dens : forall ds ds' S, Forall2 agree ds ds' -> (forall d, In d ds -> dinv d /\ kind_of d <> KTable) -> (forall d, In d ds' -> dinv d /\ kind_of d <> KTable) ->
  dens (CProd (map CDist ds')) S = dens (CProd (map CDist ds)) S.
Proof.
  intros ds ds' S F. cbn [dens]. rewrite !map_map. cbn [dens]. intros G G'. f_equal. induction F as [|d d' l l' A F IH]; [reflexivity|]. cbn [map]. f_equal.
  - rewrite (proj1 A). destruct (lookup (dist_o d) S); [|reflexivity]. apply agree_cell; [apply G; now left|apply G'; now left|exact A|apply G; now left|apply G'; now left].
  - apply IH; intros; [apply G|apply G']; now right.
Qed.

Lemma agree_from : forall ds ds', (forall d, In d ds -> dinv d) -> (forall d, In d ds' -> dinv d) -> map settings ds' = map settings ds ->
  (forall d d', In d ds -> In d' ds' -> dist_o d' = dist_o d -> forall r, lookup r (dist_data d') = lookup r (dist_data d)) -> Forall2 agree ds ds'.
Proof.
  intros ds ds' G G' E LK. apply map_F2 in E. induction E as [|d d' l l' E F IH]; constructor.
  - apply agree_data; [apply G; now left|apply G'; now left|exact E|]. apply LK; [now left|now left|apply settings_o; exact E].
  - apply IH; intros; [apply G; now right|apply G'; now right|apply LK; (now right) || assumption].
Qed.

Lemma no_rows : forall s bs cs r2i r2c k d, kept_well s bs cs r2i r2c -> (forall r, lookup r r2c <> Some k) -> In d (cols bs cs k) -> dist_data d = [].
Proof.
  intros s bs cs r2i r2c k d (_ & _ & _ & _ & _ & A6) N Hd. destruct (dist_data d) as [|[r v] l] eqn:E; [reflexivity|].
  exfalso. apply (N r). apply (A6 r k d Hd). rewrite E. now left.
Qed.

Lemma view_score_busy : forall s bs cs r2i r2c, wf (mkview s bs cs r2i r2c) -> shaped bs cs -> kept_well s bs cs r2i r2c ->
  total_score (mkview s bs cs r2i r2c) =
  (prim_score (DCrp s) + rsum (map (fun z => total_score (CProd (map CDist (cols bs cs (vz z))))) (busy (dist_data (DCrp s)))))%R.
Proof.
  intros s bs cs r2i r2c W SH KW. rewrite view_score_keys by assumption. f_equal.
  destruct (view_parts _ _ _ _ _ W) as (D & Db & _ & _ & NDk & _). assert (CG := cols_good s bs cs r2i r2c W (proj1 (proj2 SH)) (proj2 (proj2 SH))).
  rewrite <- (map_map vz (fun k => total_score (CProd (map CDist (cols bs cs k))))).
  apply rsum_keys; [exact NDk| | |].
  - assert (X : forall l, NoDup l -> NoDup (map vz l)).
    { induction l as [|a l IH]; intros N; [constructor|]. inversion N; subst. cbn [map]. constructor; [|auto]. intros J. apply in_map_iff in J.
      destruct J as (b & E & J). apply vz_inj in E. subst. auto. }
    apply X, dedup_NoDup.
  - intros k _ N. apply empty_prods. intros d Hd. split; [apply (proj1 (CG k)); exact Hd|].
    apply (no_rows s bs cs r2i r2c k d KW); [|exact Hd]. intros r L. destruct KW as (_ & _ & A3 & _ & A5 & _). destruct (A5 r k L) as (z & ->).
    apply N. apply in_map. apply (busy_In s z D). exists r. apply lookup_In. rewrite A3. exact L.
  - intros k _ N. apply empty_prods. intros d Hd. unfold cols in Hd. rewrite (proj2 (lookup_None cs k) N) in Hd. split; [apply Db; exact Hd|apply SH; exact Hd].
Qed.

(** ** Views *)

Lemma renamed_parts : forall f s bs cs r2i r2c s' bs' cs' r2i' r2c',
  let m := mkview s bs cs r2i r2c in let m' := mkview s' bs' cs' r2i' r2c' in
  wf m -> wf m' -> shaped bs cs -> shaped bs' cs' -> kept_well s bs cs r2i r2c -> kept_well s' bs' cs' r2i' r2c' ->
  renamed_rows f m m' -> uniform m m -> uniform m m' ->
  crp_o s' = crp_o s /\ crp_alpha s' = crp_alpha s /\ labels (dist_data (DCrp s)) /\ apart f (dist_data (DCrp s)) /\
  (forall r, lookup r (dist_data (DCrp s')) = option_map (ren f) (lookup r (dist_data (DCrp s)))) /\
  map dist_o bs' = map dist_o bs /\
  (forall z, occupied (dist_data (DCrp s)) z -> Forall2 agree (cols bs cs (vz z)) (cols bs' cs' (vz (f z)))) /\
  Forall2 agree (cols bs cs (vz (first_free (dist_data (DCrp s))))) (cols bs' cs' (vz (first_free (dist_data (DCrp s'))))).
Proof.
  intros f s bs cs r2i r2c s' bs' cs' r2i' r2c' m m' W W' S0 S0' K K' (SR & IN & CR) [_ U] [SD U'].
  assert (S := S0). assert (S' := S0'). destruct S as (NB & B & C), S' as (NB' & B' & C').
  destruct (view_parts _ _ _ _ _ W) as (D & Db & NDb & NI & NDk & Dc). destruct (view_parts _ _ _ _ _ W') as (D' & Db' & NDb' & NI' & NDk' & Dc').
  assert (K0 := K). assert (K0' := K'). destruct K as (K1 & K2 & A3 & A4 & A5 & A6), K' as (K1' & K2' & A3' & A4' & A5' & A6').
  assert (SR' : forall r, lookup r r2c' = option_map (ren f) (lookup r r2c)).
  { intros r. specialize (SR r). change (seat m r) with (lookup r r2c) in SR. change (seat m' r) with (lookup r r2c') in SR. rewrite SR.
    destruct (lookup r r2c) as [[|q]|]; reflexivity. }
  assert (OC : forall z, occupied (dist_data (DCrp s)) z <-> exists r, lookup r r2c = Some (vz z)).
  { intros z. split; intros [r J]; exists r; [rewrite <- A3; apply In_lookup; [apply D|exact J]|apply lookup_In; rewrite A3; exact J]. }
  assert (AP : apart f (dist_data (DCrp s))).
  { intros t t' O O' E. apply OC in O, O'. destruct O as [r O], O' as [r' O']. apply (IN r r' t t'); assumption. }
  assert (LBL : labels (dist_data (DCrp s))).
  { intros r v J. apply (A5 r v). rewrite <- A3. apply In_lookup; [apply D|exact J]. }
  assert (LK : forall r, lookup r (dist_data (DCrp s')) = option_map (ren f) (lookup r (dist_data (DCrp s)))).
  { intros r. rewrite A3, A3'. apply SR'. }
  assert (SET : forall k k', map settings (cols bs' cs' k') = map settings (cols bs cs k)).
  { intros k k'. assert (X := U k). assert (X' := U' k'). rewrite (component_cols _ _ _ _ k C), leaves_prod in X.
    rewrite (component_cols _ _ _ _ k' C'), leaves_prod in X'. congruence. }
  assert (CG := cols_good s bs cs r2i r2c W B C). assert (CG' := cols_good s' bs' cs' r2i' r2c' W' B' C').
  assert (OO : map dist_o bs' = map dist_o bs).
  { destruct (CG (vz 0)) as (_ & _ & GO). destruct (CG' (vz 0)) as (_ & _ & GO'). rewrite <- GO, <- GO'. assert (X := SET (vz 0) (vz 0)). apply map_F2 in X.
    clear - X. induction X as [|d d' l l' E F IH]; [reflexivity|]. cbn [map]. rewrite (settings_o _ _ E), IH. reflexivity. }
  split; [injection SD; auto|]. split; [injection SD; auto|]. split; [exact LBL|]. split; [exact AP|]. split; [exact LK|]. split; [exact OO|].
  split.
  - intros z O. destruct (CG (vz z)) as (G & GN & GO). destruct (CG' (vz (f z))) as (G' & GN' & GO').
    apply agree_from; [intros; apply G; assumption|intros; apply G'; assumption|apply SET|].
    intros d d' Hd Hd' EO r. rewrite <- (column_lookup _ d r GN Hd), <- (column_lookup _ d' r GN' Hd'), EO.
    assert (DD : {lookup r r2c = Some (vz z)} + {lookup r r2c <> Some (vz z)}).
    { destruct (lookup r r2c) as [v|]; [destruct (eq_dec v (vz z)); [left|right]; congruence|right; discriminate]. }
    destruct DD as [E|NE].
    + assert (X := CR r (dist_o d)). rewrite (cell_parts s bs cs r2i r2c r _ S0), (cell_parts s' bs' cs' r2i' r2c' r _ S0'), SR', E in X.
      cbn [option_map] in X. rewrite ren_vz in X. apply X. unfold m, mkview. cbn [columns_of outputs]. change (flat_map outputs (map CDist bs)) with (outputs (CProd (map CDist bs))).
      rewrite outputs_prod, <- GO. apply in_map. exact Hd.
    + rewrite (in_column_unseated s bs cs r2i r2c (vz z) r _ K0 NE). apply (in_column_unseated s' bs' cs' r2i' r2c' (vz (f z)) r _ K0'). rewrite SR'.
      destruct (lookup r r2c) as [v|] eqn:E; [|discriminate]. destruct (A5 r v E) as (z' & ->). cbn [option_map]. rewrite ren_vz. intros J. apply NE. do 2 f_equal.
      apply AP; [apply OC; exists r; exact E|exact O|]. apply vz_inj. congruence.
  - set (z := first_free (dist_data (DCrp s))). set (z' := first_free (dist_data (DCrp s'))).
    destruct (CG (vz z)) as (G & GN & GO). destruct (CG' (vz z')) as (G' & GN' & GO').
    apply agree_from; [intros; apply G; assumption|intros; apply G'; assumption|apply SET|].
    intros d d' Hd Hd' _ r. rewrite (no_rows s bs cs r2i r2c (vz z) d K0), (no_rows s' bs' cs' r2i' r2c' (vz z') d' K0'); [reflexivity| |exact Hd'| |exact Hd].
    + intros r' J. apply (first_free_unoccupied (dist_data (DCrp s'))); [apply D'|]. exists r'. apply lookup_In. rewrite A3'. exact J.
    + intros r' J. apply (first_free_unoccupied (dist_data (DCrp s))); [apply D|]. exists r'. apply lookup_In. rewrite A3. exact J.
Qed.

Lemma view_dens_busy : forall s bs cs r2i r2c S, wf (mkview s bs cs r2i r2c) -> shaped bs cs -> lookup (crp_o s) S = None ->
  dens (mkview s bs cs r2i r2c) S =
  (cell_density (DCrp s) (vz (first_free (dist_data (DCrp s)))) * dens (CProd (map CDist (cols bs cs (vz (first_free (dist_data (DCrp s))))))) S +
   rsum (map (fun z => cell_density (DCrp s) (vz z) * dens (CProd (map CDist (cols bs cs (vz z)))) S) (busy (dist_data (DCrp s)))))%R.
Proof.
  intros s bs cs r2i r2c S W SH L. destruct (view_parts _ _ _ _ _ W) as (D & Db & NDb & NI & NDk & Dc).
  assert (CG := cols_good s bs cs r2i r2c W (proj1 (proj2 SH)) (proj2 (proj2 SH))).
  assert (Q : forall z, dens (CFlexArr (crp_o s) (CProd (map CDist bs)) cs r2i) ((crp_o s, vz z) :: S) = dens (CProd (map CDist (cols bs cs (vz z)))) S).
  { intros z.
    change (dens (CFlexArr (crp_o s) (CProd (map CDist bs)) cs r2i) ((crp_o s, vz z) :: S)) with
      (match lookup (crp_o s) ((crp_o s, vz z) :: S) with
       | Some k => match lookup k (map (fun p => let '(k, c') := p in (k, dens c' ((crp_o s, vz z) :: S))) cs) with Some r => r | None => dens (CProd (map CDist bs)) ((crp_o s, vz z) :: S) end
       | None => 0%R end).
    rewrite lookup_cons_eq. rewrite (read_component (fun c => dens c ((crp_o s, vz z) :: S)) (crp_o s) (CProd (map CDist bs)) cs r2i (vz z)).
    rewrite (component_cols _ _ _ _ (vz z) (proj2 (proj2 SH))). destruct (CG (vz z)) as (G & GN & GO).
    cbn [dens]. rewrite !map_map. f_equal. apply map_ext_in. intros d Hd. cbn [dens]. rewrite lookup_cons_neq; [reflexivity|].
    intros E. apply NI. rewrite <- GO, <- E. apply in_map. exact Hd. }
  unfold mkview. cbn [dens dist_o dist_support]. rewrite L.
  rewrite (rsum_perm _ _ (Permutation_map _ (support_perm s D))). cbn [map]. change (rsum (?x :: ?y)) with (x + rsum y)%R.
  f_equal; [f_equal; apply Q|]. f_equal. apply map_ext. intros z. f_equal. apply Q.
Qed.

Lemma renamed_dens : forall f m m' S, wf m -> wf m' -> sheet m -> sheet m' -> consistent m -> consistent m' ->
  renamed_rows f m m' -> uniform m m -> uniform m m' -> lookup (label_of m) S = None -> dens m' S = dens m S.
Proof.
  intros f m m' Q W W' S S' K K' RR U U' L.
  destruct (sheet_inv m S) as (s & bs & cs & r2i & r2c & -> & _). destruct (sheet_inv m' S') as (s' & bs' & cs' & r2i' & r2c' & -> & _).
  apply sheet_shaped in S, S'. apply (consistent_parts s bs cs r2i r2c S) in K. apply (consistent_parts s' bs' cs' r2i' r2c' S') in K'.
  destruct (renamed_parts f s bs cs r2i r2c s' bs' cs' r2i' r2c' W W' S S' K K' RR U U') as (EO & EA & LB & AP & LK & _ & PB & PF).
  change (lookup (crp_o s) Q = None) in L.
  destruct (view_parts _ _ _ _ _ W) as (D & _). destruct (view_parts _ _ _ _ _ W') as (D' & _).
  assert (CG := cols_good s bs cs r2i r2c W (proj1 (proj2 S)) (proj2 (proj2 S))). assert (CG' := cols_good s' bs' cs' r2i' r2c' W' (proj1 (proj2 S')) (proj2 (proj2 S'))).
  rewrite (view_dens_busy s bs cs r2i r2c Q W S L), (view_dens_busy s' bs' cs' r2i' r2c' Q W' S') by (rewrite EO; exact L).
  f_equal.
  - f_equal; [apply (weight_free f); assumption|]. apply agree_dens; [exact PF|apply CG|apply CG'].
  - rewrite <- (rsum_perm _ _ (Permutation_map _ (busy_perm f s s' D D' LB AP LK))). rewrite map_map. f_equal. apply map_ext_in. intros z J. apply (busy_In s z D) in J. f_equal.
    + apply weight_busy; assumption.
    + apply agree_dens; [apply PB; exact J|apply CG|apply CG'].
Qed.

Lemma renamed_score : forall f m m', wf m -> wf m' -> sheet m -> sheet m' -> consistent m -> consistent m' ->
  renamed_rows f m m' -> uniform m m -> uniform m m' -> score m' = score m.
Proof.
  intros f m m' W W' S S' K K' RR U U'.
  destruct (sheet_inv m S) as (s & bs & cs & r2i & r2c & -> & _). destruct (sheet_inv m' S') as (s' & bs' & cs' & r2i' & r2c' & -> & _).
  apply sheet_shaped in S, S'. apply (consistent_parts s bs cs r2i r2c S) in K. apply (consistent_parts s' bs' cs' r2i' r2c' S') in K'.
  destruct (renamed_parts f s bs cs r2i r2c s' bs' cs' r2i' r2c' W W' S S' K K' RR U U') as (EO & EA & LB & AP & LK & _ & PB & PF).
  destruct (view_parts _ _ _ _ _ W) as (D & _). destruct (view_parts _ _ _ _ _ W') as (D' & _).
  rewrite (score_total _ W (view_flexible _ _ _ _ _ S)), (score_total _ W' (view_flexible _ _ _ _ _ S')). do 2 f_equal.
  rewrite (view_score_busy s bs cs r2i r2c W S K), (view_score_busy s' bs' cs' r2i' r2c' W' S' K'). f_equal; [apply (crp_score' f); assumption|].
  rewrite <- (rsum_perm _ _ (Permutation_map _ (busy_perm f s s' D D' LB AP LK))). rewrite map_map. f_equal. apply map_ext_in. intros z J. apply (busy_In s z D) in J.
  apply (agree_prods _ _ (PB z J)).
Qed.

Lemma sheet_view : forall m, sheet m -> view m.
Proof.
  intros m S. destruct (sheet_inv m S) as (s & bs & cs & r2i & r2c & -> & _ & _ & C).
  exists true, (DCrp s), (CFlexArr (crp_o s) (CProd (map CDist bs)) cs r2i), r2c. split; [reflexivity|].
  intros c Hc. cbn [components] in Hc. destruct Hc as [<-|Hc]; [constructor|]. apply in_map_iff in Hc. destruct Hc as ([k c0] & <- & Hc).
  destruct (C k c0 Hc) as (ds & -> & _). constructor.
Qed.

Lemma sheet_labelled : forall m S, sheet m -> lookup (label_of m) S = None -> labelled m S.
Proof.
  intros m S H L. destruct (sheet_inv m H) as (s & bs & cs & r2i & r2c & -> & _). change (lookup (crp_o s) S = None) in L. apply sheet_shaped in H. destruct H as (_ & B & C).
  assert (X : forall ds, (forall d, In d ds -> kind_of d <> KTable) -> labelled (CProd (map CDist ds)) S).
  { intros ds G. cbn [labelled]. apply each_In. intros c Hc. apply in_map_iff in Hc. destruct Hc as (d & <- & Hd). specialize (G d Hd). destruct d; cbn in G |- *; auto; congruence. }
  split; [cbn [dist_o]; rewrite L; discriminate|]. split; [apply X; intros d Hd; apply B; exact Hd|]. apply each_In. intros [k c] Hc.
  destruct (C k c Hc) as (ds & -> & A). apply X. apply (alike_kind bs ds A). intros d Hd. apply B. exact Hd.
Qed.

Lemma sheet_unknown : forall m rid, wf m -> sheet m -> consistent m -> match rid with Some r => seat m r = None | None => True end -> unknown m rid.
Proof.
  intros m [r|] W S K E; [|apply unknown_none]. destruct (sheet_inv m S) as (s & bs & cs & r2i & r2c & -> & _). change (lookup r r2c = None) in E.
  apply sheet_shaped in S. apply (consistent_parts s bs cs r2i r2c S) in K. destruct (view_parts _ _ _ _ _ W) as (_ & _ & _ & _ & NDk & _).
  assert (K0 := K). destruct K as (_ & _ & A3 & A4 & _ & A6).
  assert (X : forall k ds, (forall d, In d ds -> In d (cols bs cs k)) -> unknown (CProd (map CDist ds)) (Some r)).
  { intros k ds G. cbn [unknown]. apply each_In. intros c Hc. apply in_map_iff in Hc. destruct Hc as (d & <- & Hd). cbn [unknown unrecorded]. intros J.
    apply G in Hd. rewrite (A6 r k d Hd J) in E. discriminate. }
  split; [|split; [|split]].
  - cbn [unrecorded]. apply lookup_None. rewrite A3. exact E.
  - cbn [unrecorded]. apply lookup_None. exact E.
  - change (unknown (CProd (map CDist bs)) (Some r)). cbn [unknown]. apply each_In. intros c Hc. apply in_map_iff in Hc. destruct Hc as (d & <- & Hd). cbn [unknown unrecorded].
    rewrite (proj2 (proj1 (proj2 S) d Hd)). intros [].
  - apply each_In. intros [k c] Hc. destruct (proj2 (proj2 S) k c Hc) as (ds & -> & _). apply (X k). intros d Hd. unfold cols. rewrite (In_lookup cs k _ NDk Hc), leaves_prod. exact Hd.
Qed.
