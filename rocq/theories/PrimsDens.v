(** The logpdf of each primitive is the logarithm of the predictive density of SpecPrims. *)
From Coq Require Import List ZArith QArith Qcanon Reals Bool String Permutation Sorted Lia Lra.
From Verif Require Import Base Xr Samp Lgamma Prims Lib SpecPrims PrimsInv.
Import ListNotations.
Local Open Scope Z_scope.

(** ** Counting *)

Lemma occ_cons : forall z r x data,
  occurrences z ((r, x) :: data) = occurrences z data
    + match x with VQ q => if eqb q (qz z) then 1 else 0 | VNan => 0 end.
Proof.
  intros z r x data. unfold occurrences. cbn [cells flat_map snd].
  change (flat_map _ data) with (cells data).
  destruct x as [|q]; cbn [app filter]; [lia|].
  destruct (eqb q (qz z)); cbn [List.length]; lia.
Qed.

Lemma zsum_add : forall {A} (f g : A -> Z) l,
  zsum (map (fun x => f x + g x) l) = zsum (map f l) + zsum (map g l).
Proof. intros A f g l. induction l; cbn [map zsum fold_right] in *; [reflexivity|]. unfold zsum in *. lia. Qed.

Lemma zsum_ext : forall {A} (f g : A -> Z) l, (forall x, In x l -> f x = g x) -> zsum (map f l) = zsum (map g l).
Proof. intros A f g l H. rewrite (map_ext_in _ _ _ H). reflexivity. Qed.

Lemma zsum_zero : forall {A} (l : list A), zsum (map (fun _ => 0) l) = 0.
Proof. intros A l. induction l; cbn in *; auto. Qed.

Lemma zsum_indicator : forall (ts : list Z) z, NoDup ts ->
  zsum (map (fun t => if eqb (qz z) (qz t) then 1 else 0) ts) = if memb z ts then 1 else 0.
Proof.
  intros ts z ND. induction ND as [|t ts NI ND IH]; [reflexivity|].
  cbn [map zsum fold_right memb]. change (fold_right Z.add 0) with zsum. rewrite IH, eqb_qz.
  destruct (eq_dec z t) as [->|n].
  - rewrite Z.eqb_refl. apply memb_false in NI. rewrite NI. reflexivity.
  - destruct (Z.eqb_spec z t); [contradiction|]. lia.
Qed.

Lemma sum_occ : forall ts data, NoDup ts ->
  (forall q, In q (cells data) -> exists t, In t ts /\ q = qz t) ->
  zsum (map (fun t => occurrences t data) ts) = Z.of_nat (List.length (cells data)).
Proof.
  intros ts data ND. induction data as [|[r x] data IH]; intros H.
  - cbn [cells flat_map List.length]. unfold occurrences. cbn. apply zsum_zero.
  - rewrite (zsum_ext _ (fun t => occurrences t data
      + match x with VQ q => if eqb q (qz t) then 1 else 0 | VNan => 0 end)) by (intros; apply occ_cons).
    rewrite zsum_add, IH.
    + destruct x as [|q].
      * rewrite zsum_zero. cbn [cells flat_map snd app]. fold (cells data). lia.
      * destruct (H q) as [t [I ->]]; [left; reflexivity|].
        rewrite zsum_indicator by assumption. apply memb_In in I. rewrite I.
        cbn [cells flat_map snd app List.length]. change (flat_map _ data) with (cells data). lia.
    + intros q I. apply H. cbn [cells flat_map snd]. apply in_app_iff. right. exact I.
Qed.

Lemma len_cells_typed_table : forall data, typed KTable data -> List.length (cells data) = List.length data.
Proof.
  induction data as [|[r x] data IH]; intros T; [reflexivity|].
  cbn [cells flat_map snd List.length]. change (flat_map _ data) with (cells data). rewrite app_length, IH.
  - destruct x as [|q]; [exfalso; apply (T r VNan); left; reflexivity|reflexivity].
  - eapply typed_sub; [|exact T]. intros p I. right. exact I.
Qed.

Lemma counts_perm : forall data N counts, stats_of_data KTable data (SSCrp N counts) ->
  values counts = map (fun t => occurrences t data) (keys counts).
Proof.
  intros data N counts (_ & ND & H). unfold values, keys in *.
  assert (G : forall p, In p counts -> snd p = occurrences (fst p) data).
  { intros [t n] I. apply (In_lookup _ _ _ ND) in I. apply H in I. cbn. tauto. }
  clear H ND. induction counts as [|p counts IH]; [reflexivity|]. cbn [map]. f_equal.
  - apply G. left. reflexivity.
  - apply IH. intros p' I. apply G. right. assumption.
Qed.

Lemma counts_sum : forall data N counts, typed KTable data -> stats_of_data KTable data (SSCrp N counts) ->
  zsum (values counts) = N.
Proof.
  intros data N counts T S. rewrite (counts_perm _ _ _ S), sum_occ.
  - destruct S as (-> & _). rewrite len_cells_typed_table by assumption. reflexivity.
  - apply S.
  - intros q I. apply In_cells in I. destruct I as [r I].
    destruct (T r (VQ q) I) as [t [-> _]]. exists t. split; [|reflexivity].
    apply (counts_keys _ _ _ S). exists r. exact I.
Qed.

Lemma foldmax_ge : forall l x, In x l -> x <= fold_right Z.max (-1) l.
Proof. induction l as [|y l IH]; intros x []; cbn [fold_right]; [lia|]. specialize (IH _ H). lia. Qed.

Lemma foldmax_In : forall l, l <> [] -> (forall x, In x l -> 0 <= x) -> In (fold_right Z.max (-1) l) l.
Proof.
  induction l as [|y l IH]; intros N P; [congruence|]. cbn [fold_right].
  destruct (Z.max_spec y (fold_right Z.max (-1) l)) as [[A B]|[A B]]; rewrite B; [|left; reflexivity].
  right. apply IH.
  - intros ->. cbn in A. specialize (P y (or_introl eq_refl)). lia.
  - intros x I. apply P. right. assumption.
Qed.

Lemma In_tables : forall data t, typed KTable data -> (In t (map trunc (cells data)) <-> occupied data t).
Proof.
  intros data t T. rewrite in_map_iff. split.
  - intros [q [<- I]]. apply In_cells in I. destruct I as [r I]. exists r.
    destruct (T r _ I) as [t' [-> _]]. rewrite trunc_qz. exact I.
  - intros [r I]. exists (qz t). split; [apply trunc_qz|]. apply In_cells. exists r. exact I.
Qed.

Lemma first_free_next : forall data t, typed KTable data -> (next_table data t <-> t = first_free data).
Proof.
  intros data t T.
  assert (NX : next_table data (first_free data)).
  { unfold first_free. set (l := map trunc (cells data)).
    assert (P : forall x, In x l -> 0 <= x).
    { intros x I. apply In_tables in I; [|assumption]. eapply occupied_pos; eassumption. }
    destruct data as [|[r x] data0].
    - left. split; reflexivity.
    - right.
      assert (NE : l <> []).
      { unfold l. cbn [cells flat_map snd].
        destruct x as [|q]; [exfalso; apply (T r VNan); left; reflexivity|]. discriminate. }
      split.
      + apply In_tables; [assumption|]. replace (1 + fold_right Z.max (-1) l - 1) with (fold_right Z.max (-1) l) by lia.
        apply foldmax_In; assumption.
      + intros t' O. apply In_tables in O; [|assumption]. apply foldmax_ge in O. fold l in O. lia. }
  split.
  - intros H. eapply next_table_fun; eassumption.
  - intros ->. assumption.
Qed.

Lemma first_free_unoccupied : forall data, typed KTable data -> ~ occupied data (first_free data).
Proof.
  intros data T O. pose proof (proj2 (first_free_next data _ T) eq_refl) as [[-> _]|[_ H]].
  - destruct O as [r []].
  - specialize (H _ O). lia.
Qed.

Lemma count_of_nonneg : forall data, (0 <= count_of data)%R.
Proof. intros. apply pos_INR. Qed.

Lemma count_of_IZR : forall data, count_of data = IZR (Z.of_nat (List.length (cells data))).
Proof. intros. unfold count_of. apply INR_IZR_INZ. Qed.

Lemma qsum_qr : forall l, qr (qsum l) = rsum (map qr l).
Proof.
  induction l as [|q l IH]; cbn [qsum map rsum fold_right]; [apply qr_0|].
  rewrite qr_add. change (fold_right Qcplus 0%Qc l) with (qsum l). rewrite IH. reflexivity.
Qed.

(** ** CRP *)

Lemma xlog_pos : forall p, (0 < p)%R -> xlog p = Fin (ln p).
Proof. intros p H. unfold xlog. destruct (Rlt_dec 0 p); [reflexivity|contradiction]. Qed.

Lemma xlog_0 : xlog 0 = NInf.
Proof. unfold xlog. destruct (Rlt_dec 0 0); [lra|reflexivity]. Qed.

Lemma xexp_xlog : forall p, (0 <= p)%R -> xexp (xlog p) = p.
Proof.
  intros p H. unfold xlog. destruct (Rlt_dec 0 p); cbn [xexp].
  - apply exp_ln. assumption.
  - lra.
Qed.

Lemma ln_div : forall a b, (0 < a)%R -> (0 < b)%R -> ln (a / b) = (ln a - ln b)%R.
Proof. intros a b A B. unfold Rdiv. rewrite ln_mult, ln_Rinv; try lra. apply Rinv_0_lt_compat. assumption. Qed.

Lemma omem_unrecorded : forall rid data, unrecorded rid data -> omem rid data = false.
Proof.
  intros [r|] data U; [|reflexivity]. cbn [omem]. apply dmem_false. apply lookup_None. exact U.
Qed.

Lemma base_logpdf_ok : forall data o rid x, unrecorded rid data ->
  base_logpdf data o rid [(o, x)] [] [] = Ok tt.
Proof.
  intros data o rid x U. unfold base_logpdf. rewrite omem_unrecorded by assumption.
  cbn [negb oassert obind keys map fst]. rewrite eqb_refl. reflexivity.
Qed.

Lemma crp_pred_fin : forall s t, dinv (DCrp s) ->
  crp_predictive t (crp_N s) (crp_counts s) (crp_alpha s)
  = Ok (Fin (ln ((if 0 <? occurrences t (dist_data (DCrp s)) then IZR (occurrences t (dist_data (DCrp s)))
                  else qr (crp_alpha s)) / (count_of (dist_data (DCrp s)) + qr (crp_alpha s))))).
Proof.
  intros s t (ND & T & S & HP). cbn [kind_of dist_suffstats hypers_pos] in *.
  pose proof S as (HN & CND & HC).
  unfold crp_predictive.
  assert (HD : qr (qz (crp_N s) + crp_alpha s)%Qc = (count_of (dist_data (DCrp s)) + qr (crp_alpha s))%R).
  { rewrite qr_add, qr_qz, count_of_IZR, len_cells_typed_table by assumption. rewrite HN. reflexivity. }
  pose proof (count_of_nonneg (dist_data (DCrp s))) as CN.
  set (num := match lookup t (crp_counts s) with Some c => qz c | None => crp_alpha s end).
  assert (HNUM : qr num = (if 0 <? occurrences t (dist_data (DCrp s))
     then IZR (occurrences t (dist_data (DCrp s))) else qr (crp_alpha s)) /\ (0 < qr num)%R).
  { unfold num. destruct (Z.ltb_spec 0 (occurrences t (dist_data (DCrp s)))) as [P|P].
    - assert (E : lookup t (crp_counts s) = Some (occurrences t (dist_data (DCrp s)))) by (apply HC; auto).
      rewrite E, qr_qz. split; [reflexivity|]. apply IZR_lt. assumption.
    - destruct (lookup t (crp_counts s)) as [c|] eqn:E; [apply HC in E; lia|]. auto. }
  destruct HNUM as [HN1 HN2].
  rewrite pylog_ok by assumption. cbn [obind]. rewrite pylog_ok by (rewrite HD; lra). cbn [obind].
  rewrite HD, <- HN1, ln_div by lra. reflexivity.
Qed.

Lemma crp_logpdf_density : forall s rid q, dinv (DCrp s) -> unrecorded rid (dist_data (DCrp s)) ->
  crp_logpdf s rid [(crp_o s, VQ q)] [] [] = Ok (xlog (prim_density (DCrp s) q)).
Proof.
  intros s rid q D U. pose proof D as (ND & T & S & HP). cbn [kind_of dist_suffstats hypers_pos] in *.
  unfold crp_logpdf. cbn [oassert obind keys map fst]. rewrite eqb_refl. cbn [oassert obind].
  rewrite lookup_single.
  pose proof (crp_support_spec s S T (trunc q)) as SP.
  rewrite first_free_next in SP by assumption. rewrite <- occ_pos in SP.
  assert (L : match rid with Some r => lookup r (crp_data s) | None => None end = None).
  { destruct rid as [r|]; [|reflexivity]. apply lookup_None. rewrite <- keys_cdata. exact U. }
  rewrite L, crp_pred_fin by assumption. cbn [prim_density].
  pose proof (count_of_nonneg (dist_data (DCrp s))) as CN.
  destruct (memb (trunc q) (crp_support s)) eqn:M; cbn [negb].
  - apply memb_In in M. apply SP in M.
    destruct (Z.ltb_spec 0 (occurrences (trunc q) (dist_data (DCrp s)))) as [P|P].
    + rewrite xlog_pos; [reflexivity|]. apply Rdiv_lt_0_compat; [apply IZR_lt; assumption|lra].
    + destruct (Z.eqb_spec (trunc q) (first_free (dist_data (DCrp s)))) as [E|E]; [|lia].
      rewrite xlog_pos; [reflexivity|]. apply Rdiv_lt_0_compat; lra.
  - apply memb_false in M.
    destruct (Z.ltb_spec 0 (occurrences (trunc q) (dist_data (DCrp s)))) as [P|P]; [tauto|].
    destruct (Z.eqb_spec (trunc q) (first_free (dist_data (DCrp s)))) as [E|E]; [tauto|].
    rewrite xlog_0. reflexivity.
Qed.

(** ** Categorical *)

Lemma nth_map_zrange : forall (f : Z -> Z) n z, 0 <= z < Z.of_nat n ->
  nth (Z.to_nat z) (map f (zrange n)) 0 = f z.
Proof.
  intros f n z H. unfold zrange. rewrite map_map.
  rewrite nth_indep with (d' := f (Z.of_nat 0)) by (rewrite map_length, seq_length; lia).
  rewrite (map_nth (fun i => f (Z.of_nat i)) (seq 0 n) 0%nat (Z.to_nat z)).
  rewrite seq_nth by lia. f_equal. lia.
Qed.

Lemma cat_valid_bool : forall k q, cat_valid k q = is_int q && (0 <=? trunc q) && (trunc q <? k).
Proof.
  intros k q. apply Bool.eq_iff_eq_true. rewrite cat_valid_spec, !andb_true_iff, is_int_spec, Z.leb_le, Z.ltb_lt.
  split.
  - intros [z [-> R]]. rewrite trunc_qz. intuition.
  - intros [[E A] B]. exists (trunc q). auto.
Qed.

Lemma cat_sum : forall s, dinv (DCat s) ->
  zsum (cat_counts s) = Z.of_nat (List.length (cells (cat_data s))) /\
  List.length (cat_counts s) = Z.to_nat (cat_k s).
Proof.
  intros s (ND & T & S & HP). cbn [kind_of dist_data dist_suffstats] in *. destruct S as [_ SC].
  rewrite SC. split.
  - rewrite sum_occ; [reflexivity|apply zrange_NoDup|].
    intros q I. apply In_cells in I. destruct I as [r I].
    destruct (T r (VQ q) I) as [z [-> R]]. exists z. split; [|reflexivity]. apply zrange_In. lia.
  - rewrite map_length, zrange_length. reflexivity.
Qed.

Lemma cat_pred_fin : forall s z, dinv (DCat s) -> 0 <= z < cat_k s ->
  cat_predictive z (cat_counts s) (cat_alpha s)
  = Ok (Fin (ln ((IZR (occurrences z (cat_data s)) + qr (cat_alpha s))
                 / (count_of (cat_data s) + IZR (cat_k s) * qr (cat_alpha s))))).
Proof.
  intros s z D R. destruct (cat_sum s D) as [SS SL]. pose proof D as (ND & T & S & [HK HA]).
  cbn [kind_of dist_data dist_suffstats] in *. destruct S as [_ SC].
  unfold cat_predictive.
  assert (HN : qr (cat_alpha s + qz (nth (Z.to_nat z) (cat_counts s) 0%Z))%Qc
               = (IZR (occurrences z (cat_data s)) + qr (cat_alpha s))%R).
  { rewrite SC, nth_map_zrange by lia. rewrite qr_add, qr_qz. lra. }
  assert (HD : qr (qz (zsum (cat_counts s)) + cat_alpha s * qz (Z.of_nat (List.length (cat_counts s))))%Qc
               = (count_of (cat_data s) + IZR (cat_k s) * qr (cat_alpha s))%R).
  { rewrite qr_add, qr_mul, !qr_qz, SS, SL, count_of_IZR, Z2Nat.id by lia. lra. }
  assert (P1 : (0 < IZR (occurrences z (cat_data s)) + qr (cat_alpha s))%R).
  { pose proof (IZR_le _ _ (occ_nonneg z (cat_data s))). lra. }
  assert (P2 : (0 < count_of (cat_data s) + IZR (cat_k s) * qr (cat_alpha s))%R).
  { pose proof (count_of_nonneg (cat_data s)). apply IZR_lt in HK.
    pose proof (Rmult_lt_0_compat _ _ HK HA). lra. }
  rewrite pylog_ok by (rewrite HN; assumption). cbn [obind].
  rewrite pylog_ok by (rewrite HD; assumption). cbn [obind].
  rewrite HN, HD, ln_div by assumption. reflexivity.
Qed.

Lemma cat_density_pos : forall s z, dinv (DCat s) ->
  (0 < (IZR (occurrences z (cat_data s)) + qr (cat_alpha s))
                 / (count_of (cat_data s) + IZR (cat_k s) * qr (cat_alpha s)))%R.
Proof.
  intros s z (ND & T & S & [HK HA]). apply Rdiv_lt_0_compat.
  - pose proof (IZR_le _ _ (occ_nonneg z (cat_data s))). lra.
  - pose proof (count_of_nonneg (cat_data s)). apply IZR_lt in HK.
    pose proof (Rmult_lt_0_compat _ _ HK HA). lra.
Qed.

Lemma cat_logpdf_density : forall s rid q, dinv (DCat s) -> unrecorded rid (cat_data s) ->
  cat_logpdf s rid [(cat_o s, VQ q)] [] [] = Ok (xlog (prim_density (DCat s) q)).
Proof.
  intros s rid q D U. unfold cat_logpdf. rewrite base_logpdf_ok by assumption. cbn [obind].
  rewrite lookup_single. cbn [prim_density dist_data]. rewrite <- cat_valid_bool.
  destruct (cat_valid (cat_k s) q) eqn:V; [|rewrite xlog_0; reflexivity].
  apply cat_valid_spec in V. destruct V as [z [-> R]]. rewrite trunc_qz.
  rewrite cat_pred_fin by assumption. rewrite xlog_pos; [reflexivity|]. apply cat_density_pos. assumption.
Qed.

(** ** Bernoulli *)

Lemma ber_occ : forall s, dinv (DBer s) ->
  occurrences 0 (ber_data s) + occurrences 1 (ber_data s) = ber_N s.
Proof.
  intros s (ND & T & S & HP). cbn [kind_of dist_data dist_suffstats] in *. destruct S as [-> _].
  rewrite <- (sum_occ [0; 1] (ber_data s)).
  - cbn. lia.
  - repeat constructor; cbn; intuition discriminate.
  - intros q I. apply In_cells in I. destruct I as [r I].
    destruct (T r (VQ q) I) as [-> | ->]; [exists 0|exists 1]; cbn; auto.
Qed.

Lemma ber_pred_fin : forall s b, dinv (DBer s) ->
  ber_predictive b (ber_N s) (ber_sum s) (ber_alpha s) (ber_beta s)
  = Ok (Fin (ln ((if b then IZR (occurrences 1 (ber_data s)) + qr (ber_alpha s)
                  else IZR (occurrences 0 (ber_data s)) + qr (ber_beta s))
                 / (count_of (ber_data s) + qr (ber_alpha s) + qr (ber_beta s)))))%R.
Proof.
  intros s b D. pose proof (ber_occ s D) as BO. pose proof D as (ND & T & S & [HA HB]).
  cbn [kind_of dist_data dist_suffstats] in *. destruct S as [SN SC].
  pose proof (count_of_nonneg (ber_data s)) as CN.
  pose proof (IZR_le _ _ (occ_nonneg 0 (ber_data s))) as O0.
  pose proof (IZR_le _ _ (occ_nonneg 1 (ber_data s))) as O1.
  unfold ber_predictive.
  assert (HD : qr (qz (ber_N s) + ber_alpha s + ber_beta s)%Qc
               = (count_of (ber_data s) + qr (ber_alpha s) + qr (ber_beta s))%R).
  { rewrite !qr_add, qr_qz, count_of_IZR, <- SN. reflexivity. }
  rewrite pylog_ok by (rewrite HD; lra). cbn [obind]. rewrite HD.
  destruct b.
  - assert (HN : qr (qz (ber_sum s) + ber_alpha s)%Qc
                 = (IZR (occurrences 1 (ber_data s)) + qr (ber_alpha s))%R).
    { rewrite qr_add, qr_qz, SC. reflexivity. }
    rewrite pylog_ok by (rewrite HN; lra). cbn [obind]. rewrite HN, ln_div by lra. reflexivity.
  - assert (HN : qr (qz (ber_N s) - qz (ber_sum s) + ber_beta s)%Qc
                 = (IZR (occurrences 0 (ber_data s)) + qr (ber_beta s))%R).
    { rewrite qr_add, qr_sub, !qr_qz, SC, <- minus_IZR. f_equal. f_equal. lia. }
    rewrite pylog_ok by (rewrite HN; lra). cbn [obind]. rewrite HN, ln_div by lra. reflexivity.
Qed.

Lemma ber_density_pos : forall s b, dinv (DBer s) ->
  (0 < (if b : bool then IZR (occurrences 1 (ber_data s)) + qr (ber_alpha s)
                  else IZR (occurrences 0 (ber_data s)) + qr (ber_beta s))
                 / (count_of (ber_data s) + qr (ber_alpha s) + qr (ber_beta s)))%R.
Proof.
  intros s b (ND & T & S & [HA HB]).
  pose proof (count_of_nonneg (ber_data s)) as CN.
  pose proof (IZR_le _ _ (occ_nonneg 0 (ber_data s))) as O0.
  pose proof (IZR_le _ _ (occ_nonneg 1 (ber_data s))) as O1.
  apply Rdiv_lt_0_compat; [destruct b|]; lra.
Qed.

Lemma is_int_trunc : forall q z, is_int q && (trunc q =? z) = eqb q (qz z).
Proof.
  intros q z. apply Bool.eq_iff_eq_true. rewrite andb_true_iff, is_int_spec, Z.eqb_eq, eqb_true. split.
  - intros [E <-]. exact E.
  - intros ->. rewrite trunc_qz. auto.
Qed.

Lemma ber_logpdf_density : forall s rid q, dinv (DBer s) -> unrecorded rid (ber_data s) ->
  ber_logpdf s rid [(ber_o s, VQ q)] [] [] = Ok (xlog (prim_density (DBer s) q)).
Proof.
  intros s rid q D U. unfold ber_logpdf. rewrite base_logpdf_ok by assumption. cbn [obind].
  rewrite lookup_single. cbn [prim_density dist_data]. rewrite !is_int_trunc.
  unfold ber_valid. rewrite <- qz_0, <- qz_1.
  destruct (eqb q (qz 1)) eqn:E1.
  - rewrite orb_true_r, (ber_pred_fin s true) by assumption.
    pose proof (ber_density_pos s true D). cbn [negb] in *. rewrite xlog_pos; [reflexivity|assumption].
  - rewrite orb_false_r. destruct (eqb q (qz 0)) eqn:E0.
    + rewrite (ber_pred_fin s false) by assumption.
      pose proof (ber_density_pos s false D). rewrite xlog_pos; [reflexivity|assumption].
    + rewrite xlog_0. reflexivity.
Qed.

(** ** Poisson *)

Lemma rising_pos : forall a n, (0 < a)%R -> (0 < rising a n)%R.
Proof.
  intros a n A. induction n as [|n IH]; cbn [rising]; [lra|].
  apply Rmult_lt_0_compat; [assumption|]. pose proof (pos_INR n). lra.
Qed.

Lemma lgamma_rising : forall a n, (0 < a)%R -> lgamma (a + INR n) = (lgamma a + ln (rising a n))%R.
Proof.
  intros a n A. induction n as [|n IH].
  - cbn [rising INR]. rewrite ln_1, !Rplus_0_r. reflexivity.
  - cbn [rising]. rewrite S_INR. replace (a + (INR n + 1))%R with ((a + INR n) + 1)%R by ring.
    pose proof (pos_INR n). rewrite lgamma_rec by lra. rewrite IH, ln_mult; [ring|apply rising_pos; assumption|lra].
Qed.

Lemma neg_binomial_pos : forall a b x, (0 < a)%R -> (0 < b)%R -> (0 < neg_binomial a b x)%R.
Proof.
  intros a b x A B. unfold neg_binomial. apply Rmult_lt_0_compat; [apply Rmult_lt_0_compat|].
  - apply Rdiv_lt_0_compat; [apply rising_pos; assumption|]. apply INR_fact_lt_0.
  - apply exp_pos.
  - apply pow_lt. apply Rdiv_lt_0_compat; lra.
Qed.

Lemma rsum_cells_nonneg : forall data, typed KCount data -> (0 <= sum_of data)%R.
Proof.
  intros data T. apply rsum_nonneg. intros x I. apply in_map_iff in I. destruct I as [q [<- I]].
  apply In_cells in I. destruct I as [r I]. destruct (T r _ I) as [z [-> P]].
  rewrite qr_qz. apply IZR_le in P. exact P.
Qed.

Lemma ln_pow' : forall x n, (0 < x)%R -> ln (x ^ n) = (INR n * ln x)%R.
Proof. intros x n P. rewrite <- Rpower_pow by assumption. unfold Rpower. rewrite ln_exp. reflexivity. Qed.

Lemma ln_neg_binomial : forall a b x, (0 < a)%R -> (0 < b)%R ->
  ln (neg_binomial a b x)
  = (lgamma (a + INR x) - (a + INR x) * ln (b + 1) - (lgamma a - a * ln b) - ln (INR (fact x)))%R.
Proof.
  intros a b x A B. unfold neg_binomial.
  assert (P1 : (0 < rising a x / INR (fact x))%R).
  { apply Rdiv_lt_0_compat; [apply rising_pos; assumption|apply INR_fact_lt_0]. }
  assert (P2 : (0 < Rpower (b / (b + 1)) a)%R) by apply exp_pos.
  assert (P3 : (0 < 1 / (b + 1))%R) by (apply Rdiv_lt_0_compat; lra).
  rewrite ln_mult; [|apply Rmult_lt_0_compat; assumption|apply pow_lt; assumption].
  rewrite ln_mult by assumption. rewrite ln_pow' by assumption.
  rewrite (ln_div (rising a x)); [|apply rising_pos; assumption|apply INR_fact_lt_0].
  unfold Rpower. rewrite ln_exp, (ln_div b), (ln_div 1), ln_1, lgamma_rising by lra. ring.
Qed.

Lemma poi_logpdf_density : forall s rid q, dinv (DPoi s) -> unrecorded rid (poi_data s) ->
  poi_logpdf s rid [(poi_o s, VQ q)] [] [] = Ok (xlog (prim_density (DPoi s) q)).
Proof.
  intros s rid q (ND & T & S & [HA HB]) U. cbn [kind_of dist_data dist_suffstats] in *.
  destruct S as (SN & SS & SL).
  unfold poi_logpdf. rewrite base_logpdf_ok by assumption. cbn [obind].
  rewrite lookup_single. cbn [prim_density dist_data].
  pose proof (count_of_nonneg (poi_data s)) as CN. pose proof (rsum_cells_nonneg _ T) as SP.
  assert (VB : poi_valid q = is_int q && (0 <=? trunc q)).
  { apply Bool.eq_iff_eq_true. rewrite poi_valid_spec, andb_true_iff, is_int_spec, Z.leb_le. split.
    - intros [z [-> P]]. rewrite trunc_qz. auto.
    - intros [E P]. exists (trunc q). auto. }
  rewrite <- VB. destruct (poi_valid q) eqn:V; [|rewrite xlog_0; reflexivity].
  apply poi_valid_spec in V. destruct V as [z [-> P]]. rewrite trunc_qz.
  unfold poi_predictive, poi_posterior, poi_logZ.
  assert (QA : qr (poi_a s + poi_sum s)%Qc = (qr (poi_a s) + sum_of (poi_data s))%R).
  { rewrite qr_add, SS, qsum_qr. reflexivity. }
  assert (QB : qr (poi_b s + qz (poi_N s))%Qc = (qr (poi_b s) + count_of (poi_data s))%R).
  { rewrite qr_add, qr_qz, SN, count_of_IZR. reflexivity. }
  assert (QA' : qr (poi_a s + (poi_sum s + qz z))%Qc
    = (qr (poi_a s) + sum_of (poi_data s) + INR (Z.to_nat z))%R).
  { rewrite !qr_add, SS, qsum_qr, qr_qz, INR_IZR_INZ, Z2Nat.id by assumption. fold (sum_of (poi_data s)). unfold sum_of. lra. }
  assert (QB' : qr (poi_b s + qz (poi_N s + 1))%Qc = (qr (poi_b s) + count_of (poi_data s) + 1)%R).
  { rewrite qr_add, qr_qz, SN, count_of_IZR, plus_IZR. lra. }
  rewrite pylog_ok by (rewrite QB; lra). cbn [obind].
  rewrite pylog_ok by (rewrite QB'; lra). cbn [obind].
  rewrite xlog_pos by (apply neg_binomial_pos; lra).
  rewrite ln_neg_binomial by lra. rewrite QA, QB, QA', QB'.
  f_equal. f_equal. rewrite log_factorial_eq by assumption. unfold log_factorial. rewrite trunc_qz. ring.
Qed.

(** ** Normal *)

Lemma rsum_sq_dev : forall (xs : list R) l,
  rsum (map (fun x => (x - l) * (x - l))%R xs)
  = (rsum (map (fun x => x * x)%R xs) - 2 * l * rsum xs + INR (List.length xs) * (l * l))%R.
Proof.
  intros xs l. induction xs as [|x xs IH].
  - cbn. ring.
  - cbn [map rsum fold_right]. change (fold_right Rplus 0%R) with rsum. rewrite IH.
    change (List.length (x :: xs)) with (S (List.length xs)). rewrite S_INR. ring.
Qed.

Lemma post_scale_eq : forall m r s xs, (0 < r)%R ->
  post_scale m r s xs = (s + rsum (map (fun x => x * x)%R xs) + r * m * m
    - (r + INR (List.length xs)) * post_loc m r xs * post_loc m r xs)%R.
Proof.
  intros m r s xs HR0. unfold post_scale. rewrite rsum_sq_dev. pose proof (pos_INR (List.length xs)) as PIN.
  set (n := INR (List.length xs)) in *. set (SX := rsum xs).
  assert (E : ((r + n) * post_loc m r xs = r * m + SX)%R).
  { unfold post_loc. fold SX. fold n. field. lra. }
  set (l := post_loc m r xs) in *. set (Q := rsum (map (fun x : R => (x * x)%R) xs)).
  replace SX with ((r + n) * l - r * m)%R by lra. ring.
Qed.

Lemma post_scale_ge : forall m r s xs, (0 < r)%R -> (s <= post_scale m r s xs)%R.
Proof.
  intros m r s xs HR0. unfold post_scale.
  assert (0 <= rsum (map (fun x => (x - post_loc m r xs) * (x - post_loc m r xs))%R xs))%R.
  { apply rsum_nonneg. intros y I. apply in_map_iff in I. destruct I as [x [<- _]].
    apply Rle_0_sqr. }
  assert (0 <= r * ((m - post_loc m r xs) * (m - post_loc m r xs)))%R.
  { apply Rmult_le_pos; [lra|]. apply Rle_0_sqr. }
  lra.
Qed.

Lemma qr_sq_sum : forall l, qr (qsum (map (fun q => q * q)%Qc l)) = rsum (map (fun x => x * x)%R (map qr l)).
Proof.
  intros l. rewrite qsum_qr, !map_map. f_equal. apply map_ext. intros q. apply qr_mul.
Qed.

(** posterior_hypers in terms of the data; the zero-scale fallback is not taken. *)
Lemma nrm_posterior_spec : forall N sum sumsq m r s nu (l : list Qc),
  (0 < qr r)%R -> (0 < qr s)%R ->
  N = Z.of_nat (List.length l) -> sum = qsum l -> sumsq = qsum (map (fun q => q * q)%Qc l) ->
  let p := nrm_posterior N sum sumsq m r s nu in
  let xs := map qr l in
  qr (post_m p) = post_loc (qr m) (qr r) xs /\
  qr (post_r p) = (qr r + INR (List.length xs))%R /\
  qr (post_s p) = post_scale (qr m) (qr r) (qr s) xs /\
  qr (post_nu p) = (qr nu + INR (List.length xs))%R.
Proof.
  intros N sum sumsq m r s nu l HR0 HS0 EN ES EQ p xs.
  assert (HN : IZR N = INR (List.length xs)).
  { rewrite EN. unfold xs. rewrite map_length. symmetry. apply INR_IZR_INZ. }
  pose proof (pos_INR (List.length xs)) as PIN.
  assert (HR : qr (r + qz N)%Qc = (qr r + INR (List.length xs))%R).
  { rewrite qr_add, qr_qz, HN. reflexivity. }
  assert (NZ : (r + qz N)%Qc <> 0%Qc).
  { intros E. assert (E' : qr (r + qz N)%Qc = 0%R) by (rewrite E; apply qr_0). rewrite HR in E'. lra. }
  assert (HM : qr ((r * m + sum) / (r + qz N))%Qc = post_loc (qr m) (qr r) xs).
  { rewrite qr_div by assumption. rewrite HR, qr_add, qr_mul, ES, qsum_qr. reflexivity. }
  assert (HS : qr (s + sumsq + r * m * m - (r + qz N) * ((r * m + sum) / (r + qz N)) * ((r * m + sum) / (r + qz N)))%Qc
               = post_scale (qr m) (qr r) (qr s) xs).
  { rewrite post_scale_eq by assumption. rewrite qr_sub, !qr_add, (qr_mul _ ((r * m + sum) / (r + qz N))),
      (qr_mul (r + qz N)), HM, HR, !qr_mul, EQ, qr_sq_sum. reflexivity. }
  unfold p, nrm_posterior. cbn [post_m post_r post_s post_nu]. split; [exact HM|split; [exact HR|split]].
  - destruct (eqb _ 0%Qc) eqn:E; [|exact HS].
    apply eqb_true in E. rewrite E, qr_0 in HS.
    pose proof (post_scale_ge (qr m) (qr r) (qr s) xs HR0). lra.
  - rewrite qr_add, qr_qz, HN. reflexivity.
Qed.

Lemma post_scale_snoc : forall m r s xs x, (0 < r)%R ->
  let rn := (r + INR (List.length xs))%R in
  post_scale m r s (x :: xs) = (post_scale m r s xs
    + rn / (rn + 1) * ((x - post_loc m r xs) * (x - post_loc m r xs)))%R.
Proof.
  intros m r s xs x HR0 rn. rewrite !post_scale_eq by assumption.
  pose proof (pos_INR (List.length xs)) as PIN.
  unfold post_loc. cbn [map rsum fold_right]. change (fold_right Rplus 0%R) with rsum.
  change (List.length (x :: xs)) with (S (List.length xs)). rewrite S_INR.
  unfold rn. set (n := INR (List.length xs)) in *. set (SX := rsum xs).
  set (Q := rsum (map (fun x0 : R => (x0 * x0)%R) xs)). field. lra.
Qed.

Lemma sqrt_ln : forall x, (0 < x)%R -> ln (sqrt x) = (/ 2 * ln x)%R.
Proof.
  intros x P. assert (E : ln x = (ln (sqrt x) + ln (sqrt x))%R).
  { rewrite <- ln_mult by (apply sqrt_lt_R0; assumption). rewrite sqrt_sqrt by lra. reflexivity. }
  lra.
Qed.

Lemma student_t_pos : forall nu mu s2 x, (0 < nu)%R -> (0 < s2)%R -> (0 < student_t nu mu s2 x)%R.
Proof.
  intros nu mu s2 x N S. unfold student_t. apply Rmult_lt_0_compat; [|apply exp_pos].
  apply Rdiv_lt_0_compat; [apply exp_pos|]. apply sqrt_lt_R0.
  pose proof PI_RGT_0. apply Rmult_lt_0_compat; [apply Rmult_lt_0_compat|]; assumption.
Qed.

Lemma ln_student_t : forall nu mu s2 x, (0 < nu)%R -> (0 < s2)%R ->
  ln (student_t nu mu s2 x)
  = (lgamma ((nu + 1) / 2) - lgamma (nu / 2) - / 2 * (ln PI + ln (nu * s2))
     - (nu + 1) / 2 * ln (1 + (x - mu) * (x - mu) / (nu * s2)))%R.
Proof.
  intros nu mu s2 x N S. pose proof PI_RGT_0 as PP. unfold student_t.
  assert (NS : (0 < nu * s2)%R) by (apply Rmult_lt_0_compat; assumption).
  assert (P : (0 < nu * PI * s2)%R).
  { apply Rmult_lt_0_compat; [apply Rmult_lt_0_compat|]; assumption. }
  rewrite ln_mult; [|apply Rdiv_lt_0_compat; [apply exp_pos|apply sqrt_lt_R0; assumption]|apply exp_pos].
  rewrite ln_div; [|apply exp_pos|apply sqrt_lt_R0; assumption].
  rewrite ln_exp, sqrt_ln by assumption. unfold Rpower. rewrite ln_exp.
  replace (nu * PI * s2)%R with (PI * (nu * s2))%R by ring. rewrite ln_mult by assumption. ring.
Qed.

Lemma nrm_pred_student : forall s q, dinv (DNrm s) ->
  nrm_predictive q (nrm_N s) (nrm_sum s) (nrm_sumsq s) (nrm_m s) (nrm_r s) (nrm_s s) (nrm_nu s)
  = Ok (Fin (ln (prim_density (DNrm s) q))) /\ (0 < prim_density (DNrm s) q)%R.
Proof.
  intros s q (ND & T & S & (HR & HS & HNU)). cbn [kind_of dist_data dist_suffstats] in *.
  destruct S as (SN & SS & SQ). set (l := cells (nrm_data s)) in *. set (xs := map qr l).
  pose proof (nrm_posterior_spec _ _ _ (nrm_m s) (nrm_r s) (nrm_s s) (nrm_nu s) l HR HS SN SS SQ)
    as (M1 & R1 & S1 & N1). cbn zeta in *.
  assert (SN' : nrm_N s + 1 = Z.of_nat (List.length (q :: l))) by (cbn [List.length]; lia).
  assert (SS' : (nrm_sum s + q)%Qc = qsum (q :: l)).
  { cbn [qsum fold_right]. fold (qsum l). rewrite SS. ring. }
  assert (SQ' : (nrm_sumsq s + q * q)%Qc = qsum (map (fun q => q * q)%Qc (q :: l))).
  { cbn [map qsum fold_right]. change (fold_right Qcplus 0%Qc) with qsum. rewrite SQ. ring. }
  pose proof (nrm_posterior_spec _ _ _ (nrm_m s) (nrm_r s) (nrm_s s) (nrm_nu s) (q :: l) HR HS SN' SS' SQ')
    as (M2 & R2 & S2 & N2). cbn zeta in *.
  cbn [map] in *. fold xs in M1, R1, S1, N1, R2, S2, N2.
  change (List.length (qr q :: xs)) with (Datatypes.S (List.length xs)) in *. rewrite S_INR in *.
  rewrite post_scale_snoc in S2 by assumption.
  pose proof (post_scale_ge (qr (nrm_m s)) (qr (nrm_r s)) (qr (nrm_s s)) xs HR) as GE.
  pose proof (pos_INR (List.length xs)) as PI0.
  assert (CO : count_of (nrm_data s) = INR (List.length xs)).
  { unfold count_of, xs, l. rewrite map_length. reflexivity. }
  cbn [prim_density dist_data]. fold l. fold xs. rewrite CO.
  set (n := INR (List.length xs)) in *. set (mu := post_loc (qr (nrm_m s)) (qr (nrm_r s)) xs) in *.
  set (sn := post_scale (qr (nrm_m s)) (qr (nrm_r s)) (qr (nrm_s s)) xs) in *.
  set (rn := (qr (nrm_r s) + n)%R) in *. set (nun := (qr (nrm_nu s) + n)%R) in *.
  assert (PR : (0 < rn)%R) by (unfold rn; lra). assert (PN : (0 < nun)%R) by (unfold nun; lra).
  assert (PS : (0 < sn)%R) by lra.
  assert (PS2 : (0 < sn * (rn + 1) / (rn * nun))%R).
  { apply Rdiv_lt_0_compat; apply Rmult_lt_0_compat; lra. }
  set (dq := ((qr q - mu) * (qr q - mu))%R) in *.
  assert (DQ : (0 <= dq)%R) by (apply Rle_0_sqr).
  assert (PD : (0 < sn + rn / (rn + 1) * dq)%R).
  { assert (0 <= rn / (rn + 1) * dq)%R; [|lra]. apply Rmult_le_pos; [|assumption].
    apply Rlt_le. apply Rdiv_lt_0_compat; lra. }
  split; [|apply student_t_pos; assumption].
  unfold nrm_predictive, nrm_logZ.
  rewrite !pylog_ok by (rewrite ?R1, ?S1, ?R2, ?S2; lra). cbn [obind].
  rewrite R1, S1, R2, S2, N1, N2. do 2 f_equal. rewrite ln_student_t by assumption. fold dq.
  replace (nun * (sn * (rn + 1) / (rn * nun)))%R with (sn * (rn + 1) / rn)%R by (field; lra).
  replace (1 + dq / (sn * (rn + 1) / rn))%R with ((sn + rn / (rn + 1) * dq) / sn)%R by (field; lra).
  rewrite (ln_div (sn + _)) by assumption.
  rewrite (ln_div (sn * (rn + 1))) by (try apply Rmult_lt_0_compat; lra).
  rewrite ln_mult by lra.
  replace (qr (nrm_r s) + (n + 1))%R with (rn + 1)%R by (unfold rn; ring).
  replace (qr (nrm_nu s) + (n + 1))%R with (nun + 1)%R by (unfold nun; ring).
  unfold LOG2PI, LOG2, LOGPI. field.
Qed.

(** ** NormalUC *)

Lemma gaussian_pos : forall mu var x, (0 < var)%R -> (0 < gaussian mu var x)%R.
Proof.
  intros mu var x V. pose proof PI_RGT_0. unfold gaussian. apply Rdiv_lt_0_compat; [apply exp_pos|].
  apply sqrt_lt_R0. apply Rmult_lt_0_compat; lra.
Qed.

Lemma norm_logpdf_gaussian : forall x mu var, (0 < qr var)%R ->
  norm_logpdf x mu var = ln (gaussian (qr mu) (qr var) (qr x)).
Proof.
  intros x mu var V. pose proof PI_RGT_0 as PP. unfold gaussian, norm_logpdf.
  rewrite ln_div; [|apply exp_pos|apply sqrt_lt_R0; apply Rmult_lt_0_compat; lra].
  rewrite ln_exp, sqrt_ln by (apply Rmult_lt_0_compat; lra). rewrite (ln_mult (2 * PI)) by lra.
  field. lra.
Qed.

(** ** All primitives *)

Lemma logpdf_density : forall d rid q, dinv d -> unrecorded rid (dist_data d) ->
  dist_logpdf d rid [(dist_o d, VQ q)] [] [] = Ok (xlog (prim_density d q)).
Proof.
  intros d rid q D U. destruct d as [s|s|s|s|s|s]; cbn [dist_logpdf dist_o].
  - apply crp_logpdf_density; assumption.
  - apply cat_logpdf_density; assumption.
  - apply ber_logpdf_density; assumption.
  - apply poi_logpdf_density; assumption.
  - unfold nrm_logpdf. rewrite base_logpdf_ok by assumption. cbn [obind]. rewrite lookup_single.
    destruct (nrm_pred_student s q D) as [E P]. rewrite E, xlog_pos by assumption. reflexivity.
  - unfold nuc_logpdf. rewrite base_logpdf_ok by assumption. cbn [obind]. rewrite lookup_single.
    destruct D as (_ & _ & _ & HV). cbn [hypers_pos] in HV.
    replace (qltb 0%Qc (nuc_var s)) with true by (symmetry; apply qltb_true; rewrite qr_0; assumption).
    cbn [prim_density]. rewrite xlog_pos by (apply gaussian_pos; assumption).
    rewrite norm_logpdf_gaussian by assumption. reflexivity.
Qed.

Lemma density_nonneg : forall d q, dinv d -> (0 <= prim_density d q)%R.
Proof.
  intros d q D. pose proof D as (ND & T & S & HP). destruct d as [s|s|s|s|s|s].
  - cbn [prim_density kind_of hypers_pos] in *. pose proof (count_of_nonneg (dist_data (DCrp s))) as CN.
    destruct (Z.ltb_spec 0 (occurrences (trunc q) (dist_data (DCrp s)))) as [P|P].
    + apply Rlt_le. apply Rdiv_lt_0_compat; [apply IZR_lt; assumption|lra].
    + destruct (_ =? _); [apply Rlt_le; apply Rdiv_lt_0_compat; lra|lra].
  - cbn [prim_density dist_data]. destruct (_ && _); [|lra]. apply Rlt_le. apply cat_density_pos. assumption.
  - cbn [prim_density dist_data]. destruct (_ && _); [|destruct (_ && _); [|lra]]; apply Rlt_le.
    + apply (ber_density_pos s true). assumption.
    + apply (ber_density_pos s false). assumption.
  - cbn [prim_density dist_data hypers_pos kind_of] in *. destruct (_ && _); [|lra]. apply Rlt_le.
    pose proof (count_of_nonneg (poi_data s)). pose proof (rsum_cells_nonneg _ T).
    apply neg_binomial_pos; lra.
  - apply Rlt_le. apply (nrm_pred_student s q D).
  - cbn [prim_density]. apply Rlt_le. apply gaussian_pos. exact HP.
Qed.

Lemma density_pos : forall d q, dinv d ->
  ((0 < prim_density d q)%R <-> in_domain (kind_of d) (dist_data d) (VQ q)).
Proof.
  intros d q D. pose proof D as (ND & T & S & HP). destruct d as [s|s|s|s|s|s].
  - cbn [prim_density kind_of hypers_pos in_domain] in *.
    pose proof (count_of_nonneg (dist_data (DCrp s))) as CN.
    rewrite <- occ_pos, first_free_next by assumption.
    destruct (Z.ltb_spec 0 (occurrences (trunc q) (dist_data (DCrp s)))) as [P|P].
    + split; [auto|]. intros _. apply Rdiv_lt_0_compat; [apply IZR_lt; assumption|lra].
    + destruct (Z.eqb_spec (trunc q) (first_free (dist_data (DCrp s)))) as [E|E].
      * split; [auto|]. intros _. apply Rdiv_lt_0_compat; lra.
      * split; [lra|]. intros [H|H]; lia.
  - cbn [prim_density dist_data kind_of in_domain]. rewrite <- cat_valid_bool, <- cat_valid_spec.
    destruct (cat_valid (cat_k s) q).
    + split; [auto|]. intros _. apply cat_density_pos. assumption.
    + split; [lra|discriminate].
  - cbn [prim_density dist_data kind_of in_domain]. rewrite !is_int_trunc, <- !eqb_true.
    destruct (eqb q (qz 1)).
    + split; [auto|]. intros _. apply (ber_density_pos s true). assumption.
    + destruct (eqb q (qz 0)).
      * split; [auto|]. intros _. apply (ber_density_pos s false). assumption.
      * split; [lra|]. intros [H|H]; discriminate.
  - cbn [prim_density dist_data hypers_pos kind_of in_domain] in *. rewrite <- poi_valid_spec.
    assert (VB : poi_valid q = is_int q && (0 <=? trunc q)).
    { apply Bool.eq_iff_eq_true. rewrite poi_valid_spec, andb_true_iff, is_int_spec, Z.leb_le. split.
      - intros [z [-> P]]. rewrite trunc_qz. auto.
      - intros [E P]. exists (trunc q). auto. }
    rewrite <- VB. destruct (poi_valid q); [|split; [lra|discriminate]].
    split; [auto|]. intros _.
    pose proof (count_of_nonneg (poi_data s)). pose proof (rsum_cells_nonneg _ T).
    apply neg_binomial_pos; lra.
  - split; [cbn; auto|]. intros _. apply (nrm_pred_student s q D).
  - cbn [prim_density]. split; [cbn; auto|]. intros _. apply gaussian_pos. exact HP.
Qed.

Lemma density_zero : forall d q, dinv d -> ~ in_domain (kind_of d) (dist_data d) (VQ q) ->
  prim_density d q = 0%R.
Proof.
  intros d q D N. pose proof (density_nonneg d q D). rewrite <- density_pos in N by assumption. lra.
Qed.
