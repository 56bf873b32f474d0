(** Proof of C22: simulate draws from the density logpdf reports. *)
From Coq Require Import List ZArith QArith Qcanon Reals Bool String Permutation Lia Lra FunctionalExtensionality.
From Verif Require Import Base Xr Samp Lgamma Prims Cgpm Lib SpecPrims PrimsInv PrimsDens PrimsThm PrimsThm2
  SpecComp CompInv CompDens CompThm SpecSim SimShape.
Import ListNotations.
Local Open Scope Z_scope.

(** ** Expectations *)

Lemma expect_bind : forall {A B} (m : samp A) (f : A -> samp B) g,
  expect (sbind m f) g = expect m (fun a => expect (f a) g).
Proof.
  induction m as [a|ws k IH|l k IH|n p k IH|lo hi k IH|n k IH]; intros f g; cbn; auto.
  apply rsum_ext. intros i _. rewrite IH. reflexivity.
Qed.

Lemma expect_sobind : forall {A B} (m : samp (out A)) (f : A -> samp (out B)) g,
  expect (sobind m f) g = expect m (fun a => match a with Ok x => expect (f x) g | Err e => g (Err e) end).
Proof. intros. unfold sobind. rewrite expect_bind. f_equal. apply functional_extensionality. intros [a|e]; reflexivity. Qed.

Lemma expect_scale : forall {A} (m : samp A) (f : A -> R) c, expect m (fun a => c * f a)%R = (c * expect m f)%R.
Proof.
  induction m as [a|ws k IH|l k IH|n p k IH|lo hi k IH|n k IH]; intros f c; cbn; try lra.
  rewrite <- rsum_scal. apply rsum_ext. intros i _. rewrite IH. lra.
Qed.

Lemma expect_always : forall {A} (m : samp A) (P : A -> Prop) (f g : A -> R), finite_choices m -> always m P ->
  (forall a, P a -> f a = g a) -> expect m f = expect m g.
Proof.
  induction m as [a|ws k IH|l k IH|n p k IH|lo hi k IH|n k IH]; intros P f g F H E; cbn in *; try contradiction; auto.
  destruct F as (F1 & F2 & F3). apply rsum_ext. intros i Hi. apply in_seq in Hi.
  assert (W : (0 <= nth i ws 0)%R) by (apply F1; apply nth_In; lia).
  destruct (Rle_lt_or_eq_dec _ _ W) as [P0|P0].
  - f_equal. apply (IH i P); auto; [apply F3; lia|apply H; [lia|auto]].
  - rewrite <- P0. unfold Rdiv. rewrite !Rmult_0_l. reflexivity.
Qed.

Lemma choices_bind : forall {A B} (m : samp A) (f : A -> samp B), finite_choices m ->
  (forall a, finite_choices (f a)) -> finite_choices (sbind m f).
Proof.
  induction m as [a|ws k IH|l k IH|n p k IH|lo hi k IH|n k IH]; intros f F H; cbn in *; try contradiction; auto.
  destruct F as (F1 & F2 & F3). auto.
Qed.

Lemma choices_sobind : forall {A B} (m : samp (out A)) (f : A -> samp (out B)), finite_choices m ->
  (forall a, finite_choices (f a)) -> finite_choices (sobind m f).
Proof. intros. apply choices_bind; auto. intros [a|e]; cbn; auto. Qed.

Lemma choices_soseq : forall {A} (l : list (samp (out A))), (forall m, In m l -> finite_choices m) ->
  finite_choices (soseq l).
Proof.
  induction l as [|m l IH]; intros H; cbn [soseq]; [exact I|]. apply choices_sobind; [apply H; now left|].
  intros a. apply choices_sobind; [apply IH; intros; apply H; now right|]. intros; exact I.
Qed.

Lemma choices_srepeat : forall {A} (m : samp (out A)) n, finite_choices m -> finite_choices (srepeat n m).
Proof.
  induction n as [|n IH]; intros H; cbn [srepeat]; [exact I|]. apply choices_sobind; auto.
  intros a. apply choices_sobind; auto. intros; exact I.
Qed.

Lemma xexp_nonneg : forall x, is_bad x = false -> (0 <= xexp x)%R.
Proof. intros [r| | |]; cbn; intros H; try discriminate; [left; apply exp_pos|lra]. Qed.

Lemma choices_log_pflip : forall ws, finite_choices (log_pflip ws).
Proof.
  intros ws. unfold log_pflip. destruct (existsb is_bad ws) eqn:B; [exact I|].
  destruct (existsb is_fin ws) eqn:F; [|exact I]. cbn.
  assert (NN : forall w, In w (map xexp ws) -> (0 <= w)%R).
  { intros w Hw. apply in_map_iff in Hw. destruct Hw as (x & <- & Hx). apply xexp_nonneg.
    destruct (is_bad x) eqn:E; [|reflexivity]. assert (existsb is_bad ws = true) by (apply existsb_exists; eauto).
    congruence. }
  split; [exact NN|]. split; [|auto].
  apply existsb_exists in F. destruct F as (x & Hx & Fx). destruct x; try discriminate.
  apply Rlt_le_trans with (exp r); [apply exp_pos|]. apply rsum_ge; auto. change (exp r) with (xexp (Fin r)).
  apply in_map. exact Hx.
Qed.

Lemma is_bad_xlog : forall p, is_bad (xlog p) = false.
Proof. intros p. unfold xlog. destruct (Rlt_dec 0 p); reflexivity. Qed.

Lemma is_fin_xlog : forall p, (0 < p)%R -> is_fin (xlog p) = true.
Proof. intros p H. unfold xlog. destruct (Rlt_dec 0 p); [reflexivity|contradiction]. Qed.

Lemma rsum_pos_some : forall l, (0 < rsum l)%R -> exists x, In x l /\ (0 < x)%R.
Proof.
  induction l as [|x l IH]; unfold rsum in *; cbn; intros H; [lra|].
  destruct (Rlt_dec 0 x) as [P|P]; [exists x; auto|]. destruct IH as (y & Hy & Py); [lra|]. exists y. auto.
Qed.

(** Drawing an index with normalised log weights. *)
Lemma flip_law : forall {A} (K : list A) (p : A -> R) (d : A) (g : out A -> R), (forall a, In a K -> (0 <= p a)%R) ->
  rsum (map p K) = 1%R ->
  expect (log_pflip (map (fun a => xlog (p a)) K)) (fun i => match i with Ok n => g (Ok (nth n K d)) | Err e => g (Err e) end)
  = rsum (map (fun a => p a * g (Ok a))%R K).
Proof.
  intros A K p d g NN S1. unfold log_pflip.
  replace (existsb is_bad _) with false.
  2:{ symmetry. apply not_true_is_false. intros E. apply existsb_exists in E. destruct E as (x & Hx & E).
      apply in_map_iff in Hx. destruct Hx as (a & <- & Ha). rewrite is_bad_xlog in E. discriminate. }
  replace (existsb is_fin _) with true.
  2:{ symmetry. destruct (rsum_pos_some (map p K)) as (x & Hx & Px); [lra|].
      apply in_map_iff in Hx. destruct Hx as (a & <- & Ha). apply existsb_exists. exists (xlog (p a)).
      split; [apply in_map_iff; eauto|apply is_fin_xlog; auto]. }
  cbn [expect]. rewrite map_map.
  assert (E : map (fun a => xexp (xlog (p a))) K = map p K).
  { apply map_ext_in. intros a Ha. apply xexp_xlog. auto. }
  rewrite E, S1, map_length. clear E S1 NN.
  transitivity (rsum (map (fun i => (nth i (map p K) 0 * g (Ok (nth i K d)))%R) (seq 0 (List.length K)))).
  { apply rsum_ext. intros i _. field. }
  assert (G : forall K' n, (forall i, (i < List.length K')%nat -> nth (n + i) K d = nth i K' d /\ nth (n + i) (map p K) 0%R = nth i (map p K') 0%R) ->
    rsum (map (fun i => (nth i (map p K) 0 * g (Ok (nth i K d)))%R) (seq n (List.length K'))) = rsum (map (fun a => p a * g (Ok a))%R K')).
  { induction K' as [|a K' IH]; intros n H; cbn [List.length seq map]; [reflexivity|].
    change (rsum (?x :: ?l)) with (x + rsum l)%R. rewrite (IH (S n)).
    - destruct (H 0%nat) as [H1 H2]; [cbn; lia|]. rewrite Nat.add_0_r in H1, H2. rewrite H1, H2. cbn. reflexivity.
    - intros i Hi. destruct (H (S i)) as [H1 H2]; [cbn; lia|]. rewrite Nat.add_succ_r in H1, H2. cbn in *. auto. }
  apply (G K 0%nat). intros i Hi. auto.
Qed.

(** ** Primitives *)

Lemma unrecorded_none : forall rid (data : dict Z val), unrecorded rid data -> recorded rid data = None.
Proof. intros [r|] data U; cbn in *; [|reflexivity]. apply lookup_None in U. rewrite U. reflexivity. Qed.

Lemma base_simulate_one : forall o, base_simulate o [o] [] [] = Ok tt.
Proof. intros o. unfold base_simulate. cbn [oassert obind]. rewrite (eqb_refl [o]). reflexivity. Qed.

Lemma prim_draw : forall d rid K, dinv d -> unrecorded rid (dist_data d) -> dist_support d = Ok K ->
  exists m : samp (out row), (forall N, dist_simulate d rid [dist_o d] [] [] N = simulate_many m N) /\
    finite_choices m /\
    forall g, expect m g = rsum (map (fun z => cell_density d (vz z) * g (Ok [(dist_o d, vz z)]))%R K).
Proof.
  intros d rid K D U SU. assert (S1 := support_sum d K D SU).
  assert (NN : forall z, In z K -> (0 <= cell_density d (vz z))%R) by (intros; apply cell_nonneg; auto).
  destruct d as [s|s|s|s|s|s]; cbn in SU; try discriminate.
  - exists (crp_simulate1 s rid [crp_o s] [] []). split; [reflexivity|].
    unfold crp_simulate1. rewrite base_simulate_one.
    assert (R : (match rid with None => None | Some r => lookup r (crp_data s) end) = None).
    { destruct rid as [r|]; [|reflexivity]. cbn in U. apply lookup_None.
      intros H. apply U. unfold keys in *. rewrite map_map. cbn. exact H. }
    rewrite R. injection SU as <-. cbn [hd].
    rewrite (oseq_map_ok _ (fun z => xlog (cell_density (DCrp s) (vz z)))).
    2:{ intros z Hz. apply (cell_logpdf (DCrp s) rid (vz z) D U). apply crp_missing_vz. }
    split; [apply choices_sobind; [apply choices_log_pflip|intros; exact I]|].
    intros g. rewrite expect_sobind. cbn [expect dist_o].
    rewrite <- (flip_law (crp_support s) (fun z => cell_density (DCrp s) (vz z)) 0
      (fun x => match x with Ok z => g (Ok [(crp_o s, vz z)]) | Err e => g (Err e) end)) by auto.
    reflexivity.
  - exists (cat_simulate1 s rid [cat_o s] [] []). split; [reflexivity|].
    unfold cat_simulate1. rewrite base_simulate_one, unrecorded_none by exact U.
    destruct (cat_sum s D) as [SS SL]. pose proof D as (_ & _ & S & [HK HA]).
    cbn [kind_of dist_data dist_suffstats] in S. destruct S as [_ SC].
    set (W := (count_of (cat_data s) + IZR (cat_k s) * qr (cat_alpha s))%R).
    assert (PW : (0 < W)%R).
    { pose proof (count_of_nonneg (cat_data s)). apply IZR_lt in HK.
      pose proof (Rmult_lt_0_compat _ _ HK HA). unfold W. lra. }
    set (ws := map (fun c => (IZR c + qr (cat_alpha s))%R) (cat_counts s)).
    injection SU as <-.
    assert (EW : ws = map (fun z => (W * cell_density (DCat s) (vz z))%R) (cat_support s)).
    { unfold ws. rewrite SC, map_map. apply map_ext_in. intros z Hz. apply zrange_In in Hz.
      cbn [cell_density vz prim_density dist_data]. rewrite is_int_qz, trunc_qz.
      replace (true && (0 <=? z) && (z <? cat_k s)) with true by (symmetry; lia). unfold W. field. unfold W in PW. lra. }
    assert (SW : rsum ws = W).
    { rewrite EW, rsum_scal, S1. lra. }
    assert (LW : List.length ws = List.length (cat_support s)).
    { rewrite EW, map_length. reflexivity. }
    split; [cbn; fold ws; split; [|split; [lra|auto]]|].
    { intros w Hw. rewrite EW in Hw. apply in_map_iff in Hw. destruct Hw as (z & <- & Hz).
      apply Rmult_le_pos; [lra|auto]. }
    intros g. cbn [sbind pflip expect]. fold ws. rewrite SW, LW.
    assert (EN : forall i, (i < List.length (cat_support s))%nat ->
       nth i ws 0%R = (W * cell_density (DCat s) (vz (Z.of_nat i)))%R).
    { intros i Hi. rewrite EW. unfold cat_support in *. rewrite zrange_length in Hi. unfold zrange. rewrite map_map.
      rewrite nth_indep with (d' := (W * cell_density (DCat s) (vz (Z.of_nat 0)))%R) by (rewrite map_length, seq_length; lia).
      rewrite (map_nth (fun i => (W * cell_density (DCat s) (vz (Z.of_nat i)))%R) (seq 0 (Z.to_nat (cat_k s))) 0%nat i).
      rewrite seq_nth by lia. reflexivity. }
    assert (LK : List.length (cat_support s) = Z.to_nat (cat_k s)) by (unfold cat_support; apply zrange_length).
    unfold cat_support at 2. unfold zrange. rewrite map_map, LK. apply rsum_ext. intros i Hi.
    apply in_seq in Hi. rewrite EN by lia. cbn [dist_o]. field. lra.
  - exists (ber_simulate1 s rid [ber_o s] [] []). split; [reflexivity|].
    unfold ber_simulate1. rewrite base_simulate_one, unrecorded_none by exact U.
    rewrite !ber_pred_fin by exact D. injection SU as <-.
    split; [apply choices_sobind; [apply choices_log_pflip|intros; exact I]|].
    intros g. rewrite expect_sobind. cbn [expect dist_o].
    assert (FL := flip_law [0; 1] (fun z => cell_density (DBer s) (vz z)) 0
      (fun x => match x with Ok z => g (Ok [(ber_o s, vz z)]) | Err e => g (Err e) end) NN S1).
    cbv beta in FL. etransitivity; [|exact FL]. clear FL.
    assert (E : map (fun z => xlog (cell_density (DBer s) (vz z))) [0; 1] =
      [Fin (ln ((IZR (occurrences 0 (ber_data s)) + qr (ber_beta s)) / (count_of (ber_data s) + qr (ber_alpha s) + qr (ber_beta s))));
       Fin (ln ((IZR (occurrences 1 (ber_data s)) + qr (ber_alpha s)) / (count_of (ber_data s) + qr (ber_alpha s) + qr (ber_beta s))))]%R).
    { cbn [map cell_density vz prim_density dist_data]. rewrite !is_int_qz, !trunc_qz. cbn [andb Z.eqb].
      rewrite !xlog_pos; [reflexivity| |]; [apply (ber_density_pos s true D)|apply (ber_density_pos s false D)]. }
    rewrite E. apply expect_always with (P := fun i => match i with Ok n => (n < 2)%nat | Err _ => True end).
    + apply choices_log_pflip.
    + generalize (flip_index [Fin (ln ((IZR (occurrences 0 (ber_data s)) + qr (ber_beta s)) / (count_of (ber_data s) + qr (ber_alpha s) + qr (ber_beta s))));
       Fin (ln ((IZR (occurrences 1 (ber_data s)) + qr (ber_alpha s)) / (count_of (ber_data s) + qr (ber_alpha s) + qr (ber_beta s))))]%R).
      apply always_imp. intros [n|e]; cbn [if_ok List.length]; [|auto]. tauto.
    + intros [[|[|n]]|e] Hn; try reflexivity. lia.
Qed.

Lemma cat_choices : forall s, dinv (DCat s) ->
  finite_choices (pflip (map (fun c => (IZR c + qr (cat_alpha s))%R) (cat_counts s))).
Proof.
  intros s D. destruct (prim_draw (DCat s) None (cat_support s) D I eq_refl) as (m & E & F & _).
  assert (X := E None). cbn [dist_simulate simulate_many dist_o] in X.
  pose proof D as (_ & _ & S & [HK HA]). cbn [kind_of dist_data dist_suffstats] in S. destruct S as [_ SC].
  assert (NN : forall w, In w (map (fun c => (IZR c + qr (cat_alpha s))%R) (cat_counts s)) -> (0 < w)%R).
  { intros w Hw. apply in_map_iff in Hw. destruct Hw as (c & <- & Hc). rewrite SC in Hc. apply in_map_iff in Hc.
    destruct Hc as (z & <- & _). pose proof (IZR_le _ _ (occ_nonneg z (cat_data s))). lra. }
  cbn. split; [intros w Hw; left; auto|]. split; [|auto].
  destruct (cat_sum s D) as [_ SL]. destruct (cat_counts s) as [|c l]; [cbn in SL; lia|].
  apply Rlt_le_trans with (IZR c + qr (cat_alpha s))%R; [apply NN; now left|].
  apply rsum_ge; [intros y Hy; left; auto|now left].
Qed.

Lemma choices_many : forall (m : samp (out row)) N, finite_choices m -> finite_choices (simulate_many m N).
Proof.
  intros m [n|] F; cbn [simulate_many]; apply choices_sobind; auto using choices_srepeat; intros; exact I.
Qed.

Lemma base_simulate_target : forall o ts C ins, base_simulate o ts C ins = Ok tt -> In o ts.
Proof.
  intros o ts C ins H. unfold base_simulate in H. destruct C; [|discriminate]. destruct ins; [|discriminate].
  cbn [oassert obind] in H. destruct (eqb ts [o]) eqn:E; [|discriminate]. apply eqb_true in E. subst. now left.
Qed.

Lemma dist_choices : forall d rid ts C ins N, dinv d -> (In (dist_o d) ts -> exists K, dist_support d = Ok K) ->
  finite_choices (dist_simulate d rid ts C ins N).
Proof.
  intros d rid ts C ins N D H.
  destruct (base_simulate (dist_o d) ts C ins) as [[]|e] eqn:B.
  - destruct (H (base_simulate_target _ _ _ _ B)) as [K SU].
    destruct d as [s|s|s|s|s|s]; try discriminate SU; cbn [dist_simulate]; apply choices_many.
    + unfold crp_simulate1. cbn [dist_o] in B. rewrite B. destruct (match rid with None => None | Some r => lookup r (crp_data s) end); [exact I|].
      destruct (oseq _); [|exact I]. apply choices_sobind; [apply choices_log_pflip|intros; exact I].
    + unfold cat_simulate1. cbn [dist_o] in B. rewrite B. destruct (recorded rid (cat_data s)); [exact I|].
      apply choices_bind; [apply cat_choices; exact D|intros; exact I].
    + unfold ber_simulate1. cbn [dist_o] in B. rewrite B. destruct (recorded rid (ber_data s)); [exact I|].
      destruct (ber_predictive false _ _ _ _); [|exact I]. destruct (ber_predictive true _ _ _ _); [|exact I].
      apply choices_sobind; [apply choices_log_pflip|intros; exact I].
  - destruct d as [s|s|s|s|s|s]; cbn [dist_simulate dist_o] in *; try apply choices_many;
      unfold crp_simulate1, cat_simulate1, ber_simulate1, poi_simulate1, nrm_simulate1, nuc_simulate; rewrite B; exact I.
Qed.

Lemma discrete_interl : forall c l ts, (forall k, In k l -> In k (outputs c) -> In k ts) -> wf c -> discrete c ts -> discrete c l.
Proof.
  assert (MIX : forall flex div arr r2c, wf (CMix flex div arr r2c) ->
    (forall c, In c (components arr) -> forall l ts, (forall k, In k l -> In k (outputs c) -> In k ts) -> discrete c ts -> discrete c l) ->
    forall l ts, (forall k, In k l -> In k (outputs (CMix flex div arr r2c)) -> In k ts) ->
      discrete (CMix flex div arr r2c) ts -> discrete (CMix flex div arr r2c) l).
  { intros flex div arr r2c W IH l ts H Q. destruct (wf_mix _ _ _ _ W) as (_ & _ & A & _ & CO & _ & _).
    assert (H' : forall c, In c (components arr) -> forall k, In k l -> In k (outputs c) -> In k ts).
    { intros c Hc k Hl Hk. apply H; auto. destruct (CO c Hc) as [_ O]. rewrite O in Hk. cbn. auto. }
    cbn [discrete] in *. destruct arr as [| |? cs ?|? b cs ?|]; try contradiction; cbn [discrete components] in *.
    - rewrite each_In in Q |- *. intros c Hc. apply (IH c Hc l ts); auto. apply H'. exact Hc.
    - destruct Q as [Q1 Q2]. rewrite each_In in Q2. split; [apply (IH b (or_introl eq_refl) l ts); [apply H'; left; reflexivity|exact Q1]|]. apply each_In.
      intros [k c] Hc. assert (Hv : In c (b :: values cs)) by (right; apply in_map_iff; exists (k, c); auto).
      apply (IH c Hv l ts); [apply H'; exact Hv|]. apply (Q2 (k, c) Hc). }
  intros c l ts H W. revert l ts H.
  induction W as [d D|cs Wc IH ND|div cs r2i r2c D F SU NE Wc IH O|div b cs r2i r2c D HS Wb IHb NI ND Wc IH O]; intros l ts H.
  - cbn. intros Q Hl. apply Q. apply H; cbn; auto.
  - cbn [discrete]. rewrite !each_In. intros Q c Hc. apply (IH c Hc l ts); auto. intros k Hl Hk. apply H; auto.
    cbn. apply in_flat_map. eauto.
  - apply MIX; auto. econstructor; eauto.
  - apply MIX; auto; [econstructor; eauto|].
    intros c [<-|Hc]; [exact IHb|]. unfold values in Hc. apply in_map_iff in Hc. destruct Hc as ([k c'] & <- & Hc).
    apply (IH k c' Hc).
Qed.

Lemma discrete_comp : forall arr ts c, discrete arr ts -> In c (components arr) -> discrete c ts.
Proof.
  intros arr ts c Q Hc. destruct arr as [| |? cs ?|? b cs ?|]; cbn [discrete components] in *; try contradiction.
  - rewrite each_In in Q. auto.
  - destruct Q as [Q1 Q2]. rewrite each_In in Q2. destruct Hc as [<-|Hc]; [exact Q1|].
    unfold values in Hc. apply in_map_iff in Hc. destruct Hc as ([k c'] & <- & Hc). apply (Q2 (k, c') Hc).
Qed.

Lemma interl_discrete : forall c ts l, wf c -> discrete c ts -> discrete c (interl l ts).
Proof.
  intros c ts l W. apply discrete_interl; auto. intros k Hk _. apply filter_In in Hk. tauto.
Qed.

Lemma mix_one_choices : forall flex div arr r2c, wf (CMix flex div arr r2c) ->
  (forall c, In c (components arr) -> forall rid ts C N, discrete c ts -> finite_choices (simulate c rid ts C [] N)) ->
  forall rid ts C N z, discrete arr ts ->
  finite_choices (mix_simulate_one (dist_o div) (outputs arr) (simulate arr) rid ts C [] N z).
Proof.
  intros flex div arr r2c W IH rid ts C N z Q. destruct (wf_mix _ _ _ _ W) as (_ & _ & A & _ & CO & _ & _).
  unfold mix_simulate_one. apply choices_sobind; [|intros; exact I].
  assert (H : finite_choices (simulate arr rid (interl (outputs arr) ts) (interd (outputs arr) C)
         (merged (interd (outputs arr) []) [(dist_o div, z)]) N)).
  { change (merged (interd (outputs arr) []) [(dist_o div, z)]) with [(dist_o div, z)].
    destruct (SimShape.arr_simulate _ _ z A) as [(e & He)|(c & Hc & Ec & _)]; [rewrite He; exact I|].
    rewrite Ec. destruct (CO c Hc) as [Wc _]. apply IH; auto. apply interl_discrete; auto.
    eapply discrete_comp; eauto. }
  destruct (interl (outputs arr) ts); [exact I|exact H].
Qed.

Lemma sim_choices : forall c, wf c -> forall rid ts C N, discrete c ts -> finite_choices (simulate c rid ts C [] N).
Proof.
  assert (MIX : forall flex div arr r2c, wf (CMix flex div arr r2c) ->
    (forall c, In c (components arr) -> forall rid ts C N, discrete c ts -> finite_choices (simulate c rid ts C [] N)) ->
    forall rid ts C N, discrete (CMix flex div arr r2c) ts -> finite_choices (simulate (CMix flex div arr r2c) rid ts C [] N)).
  { intros flex div arr r2c W IH rid ts C N Q. cbn [discrete] in Q.
    assert (ONE := mix_one_choices flex div arr r2c W IH).
    cbn [simulate]. unfold mix_simulate. destruct (match rid with None => None | Some r => lookup r r2c end) as [z|].
    { destruct (oassert _); [|exact I]. apply ONE; auto. }
    destruct (lookup (dist_o div) C) as [z|].
    { destruct (dist_support div) as [l|]; [|exact I]. destruct (in_support z l); [|exact I]. apply ONE; auto. }
    destruct (obind _ _) as [[sup ws]|e]; [|exact I]. apply choices_sobind; [apply choices_srepeat; apply choices_log_pflip|].
    intros is. apply choices_sobind; [|intros; exact I]. apply choices_soseq. intros m Hm. apply in_map_iff in Hm.
    destruct Hm as (p & <- & _). apply ONE; auto. }
  induction 1 as [d D|cs Wc IH ND|div cs r2i r2c D F SU NE Wc IH O|div b cs r2i r2c D HS Wb IHb NI ND Wc IH O]; intros rid ts C N Q.
  - cbn. apply dist_choices; auto.
  - cbn [discrete] in Q. rewrite each_In in Q. cbn [simulate]. unfold prod_simulate. apply choices_sobind; [|intros; exact I].
    apply choices_soseq. rewrite map_map. intros m Hm. apply in_map_iff in Hm. destruct Hm as (c & <- & Hc).
    unfold simulate_one. destruct (interl (outputs c) ts) eqn:E; [exact I|]. rewrite <- E.
    change (interd (inputs c) (@nil (Z * val))) with (@nil (Z * val)). apply IH; auto. apply interl_discrete; auto.
  - apply MIX; auto. econstructor; eauto.
  - apply MIX; auto; [econstructor; eauto|].
    intros c [<-|Hc]; [exact IHb|]. unfold values in Hc. apply in_map_iff in Hc. destruct Hc as ([k c'] & <- & Hc).
    eapply IH; eauto.
Qed.

(** ** Products *)

Definition numbers (T : row) : Prop := forall k x, In (k, x) T -> exists z, x = vz z.

Definition single (N : option nat) : Prop := N = None \/ N = Some 1%nat.

(** The law, stated for a call with any targets. *)
Definition law (c : cgpm) : Prop := forall rid T C N, single N -> unknown c rid ->
  labelled c (T ++ C) -> disjoint_rows T C -> numbers T -> T <> [] ->
  (forall k, In k (keys T) -> In k (outputs c)) -> (forall k, In k (keys C) -> In k (outputs c)) ->
  discrete c (keys T) -> solid c C -> (0 < dens c C)%R ->
  expect (simulate c rid (keys T) C [] N) (agrees T) = (dens c (T ++ C) / dens c C)%R.

Lemma hit_true : forall T s, hit T s = true <-> forall k x, In (k, x) T -> lookup k s = Some x.
Proof.
  intros T s. unfold hit. rewrite forallb_forall. split.
  - intros H k x Hk. specialize (H (k, x) Hk). cbn in H. destruct (lookup k s) as [y|]; [|discriminate].
    apply eqb_true in H. congruence.
  - intros H [k x] Hk. cbn. rewrite (H k x Hk). apply eqb_refl.
Qed.

Lemma interl_keys : forall l (T : row), interl l (keys T) = keys (interd l T).
Proof. intros l T. rewrite keys_interd. reflexivity. Qed.

Lemma numbers_interd : forall l T, numbers T -> numbers (interd l T).
Proof. intros l T H k x Hk. apply In_interd in Hk. apply (H k x). tauto. Qed.

Lemma law_one : forall c, wf c -> law c -> forall rid T C N, single N -> unknown c rid ->
  labelled c (T ++ C) -> disjoint_rows T C -> numbers T ->
  discrete c (keys T) -> solid c C -> (0 < dens c C)%R ->
  expect (simulate_one (outputs c) [] (simulate c) rid (keys T) C [] N) (agrees (interd (outputs c) T)) =
  (dens c (T ++ C) / dens c C)%R.
Proof.
  intros c W L rid T C N SN U LB DJ NU DI SD P. unfold simulate_one. rewrite interl_keys.
  destruct (interd (outputs c) T) as [|a l] eqn:E.
  - cbn [keys map]. rewrite interd_nil_lookup in E.
    replace (dens c (T ++ C)) with (dens c C).
    2:{ apply dens_ext; auto. intros k Hk. rewrite lookup_app, (E k Hk). reflexivity. }
    unfold Rdiv. rewrite Rinv_r by lra. destruct SN as [-> | ->]; reflexivity.
  - assert (NE : interd (outputs c) T <> []) by congruence.
    destruct (keys (a :: l)) as [|k0 ks] eqn:Ek; [discriminate|]. rewrite <- Ek, <- E.
    change (interd [] []) with (@nil (Z * val)). rewrite L; auto using disjoint_interd, numbers_interd.
    + rewrite <- interd_app, !dens_interd by auto. reflexivity.
    + rewrite <- interd_app. apply labelled_interd. exact LB.
    + intros k Hk. apply In_keys_interd in Hk. tauto.
    + intros k Hk. apply In_keys_interd in Hk. tauto.
    + rewrite <- interl_keys. apply interl_discrete; auto.
    + eapply solid_ext; [exact W| |exact SD]. intros k Hk. rewrite lookup_interd.
      replace (memb k (outputs c)) with true; [reflexivity|]. symmetry. apply memb_In. exact Hk.
    + rewrite dens_interd by auto. exact P.
Qed.

Lemma soseq_expect : forall {A B} (cs : list A) (m : A -> samp (out B)) (P : A -> B -> Prop)
  (f : A -> out B -> R),
  (forall a, In a cs -> finite_choices (m a) /\ always (m a) (if_ok (P a))) -> (forall a e, f a (Err e) = 0%R) ->
  forall (F : out (list B) -> R) c, (forall e, F (Err e) = 0%R) ->
  (forall l, Forall2 P cs l -> F (Ok l) = (c * rprod (map (fun p => f (fst p) (Ok (snd p))) (combine cs l)))%R) ->
  expect (soseq (map m cs)) F = (c * rprod (map (fun a => expect (m a) (f a)) cs))%R.
Proof.
  intros A B cs m P f. induction cs as [|a cs IH]; intros HM F0 F c FE H.
  - cbn [map soseq expect]. rewrite (H [] (Forall2_nil _)). reflexivity.
  - cbn [map soseq]. rewrite expect_sobind.
    change (rprod (map (fun a => expect (m a) (f a)) (a :: cs))) with
      (expect (m a) (f a) * rprod (map (fun a => expect (m a) (f a)) cs))%R.
    destruct (HM a (or_introl eq_refl)) as [FC AL].
    rewrite (expect_always _ _ _ (fun x => (c * rprod (map (fun a => expect (m a) (f a)) cs) * f a x)%R) FC AL).
    + rewrite (expect_scale (m a) (f a)).
      change (rprod (?x :: ?y)) with (x * rprod y)%R. ring.

    + intros [b|e] Pb; [|rewrite FE, F0; lra]. cbn in Pb. rewrite expect_sobind.
      set (G := fun x : out (list B) => match x with Ok r => F (Ok (b :: r)) | Err e => F (Err e) end).
      assert (EG : expect (soseq (map m cs)) (fun x => match x with Ok r => expect (Ret (Ok (b :: r))) F | Err e => F (Err e) end)
                   = expect (soseq (map m cs)) G) by reflexivity.
      rewrite EG. rewrite (IH (fun a' Ha => HM a' (or_intror Ha)) F0 G (c * f a (Ok b))%R).
      * lra.
      * exact FE.
      * intros l Hl. unfold G. rewrite (H (b :: l)) by (constructor; auto). cbn [combine map fst snd].
        change (rprod (?x :: ?y)) with (x * rprod y)%R. lra.
Qed.

Lemma rprod_ind : forall {A} (b : A -> bool) l,
  rprod (map (fun x => if b x then 1 else 0)%R l) = (if forallb b l then 1 else 0)%R.
Proof.
  induction l as [|x l IH]; [reflexivity|]. cbn [map forallb]. change (rprod (?x :: ?y)) with (x * rprod y)%R.
  rewrite IH. destruct (b x), (forallb b l); cbn; lra.
Qed.

Lemma hit_pieces : forall cs ds T rid C, Forall2 (piece (keys T) rid C) cs ds -> NoDup (flat_map outputs cs) ->
  NoDup (keys T) -> (forall k, In k (keys T) -> In k (flat_map outputs cs)) ->
  hit T (mergedl ds) = forallb (fun p => hit (interd (outputs (fst p)) T) (snd p)) (combine cs ds).
Proof.
  intros cs ds T rid C F ND NT SUB.
  assert (PM : Permutation (keys (List.concat ds)) (keys T)).
  { rewrite <- (interl_parts cs (keys T) ND NT SUB). rewrite keys_concat. apply concat_perm. clear - F.
    induction F as [|c s cs ds [P _] F IH]; cbn; constructor; auto. }
  rewrite mergedl_concat by (apply (Permutation_NoDup (Permutation_sym PM)); auto).
  apply Bool.eq_iff_eq_true. rewrite hit_true, forallb_forall. split.
  - intros H [c s] Hc. cbn [fst snd]. apply hit_true. intros k x Hk. apply In_interd in Hk. destruct Hk as [Hk Ho].
    rewrite <- (lookup_concat _ _ _ _ _ F ND c s k Hc Ho). auto.
  - intros H k x Hk. assert (Ik : In k (keys T)) by (apply in_map_iff; exists (k, x); auto).
    destruct (proj1 (in_flat_map _ _ _) (SUB k Ik)) as (c & Hc & Ho).
    destruct (Forall2_combine _ _ _ F c Hc) as (s & Hs & _).
    rewrite (lookup_concat _ _ _ _ _ F ND c s k Hs Ho). specialize (H (c, s) Hs). cbn [fst snd] in H.
    apply (proj1 (hit_true _ _) H). apply In_interd. auto.
Qed.

Lemma unknown_uc : forall c rid b, unknown c rid -> uc_ok c rid b.
Proof.
  apply (cgpm_ind_In (fun c => forall rid b, unknown c rid -> uc_ok c rid b)).
  - intros [s|s|s|s|s|s] rid b U; cbn; auto. right. intros q H. cbn in U. destruct rid as [r|]; [|discriminate].
    cbn in H, U. apply U. eapply lookup_Some_keys. exact H.
  - intros cs IH rid b. cbn [uc_ok unknown]. rewrite !each_In. intros H c Hc. apply IH; auto.
  - intros ix cs r2i IH rid b. cbn [uc_ok unknown]. rewrite !each_In. intros H c Hc. apply IH; auto.
  - intros ix bs cs r2i IHb IH rid b. cbn [uc_ok unknown]. rewrite !each_In. intros [H1 H2]. split; [auto|].
    intros [k c] Hc. eapply IH; eauto. apply (H2 (k, c)). auto.
  - intros flex div arr r2c IH rid b. cbn [uc_ok unknown]. intros (_ & _ & U). apply IH. exact U.
Qed.

Lemma child_shape : forall c rid ts C N, wf c -> unknown c rid -> N <> Some 0%nat -> NoDup ts ->
  always (simulate_one (outputs c) [] (simulate c) rid ts C [] N)
    (if_ok (well_shaped (interl (outputs c) ts) N
        (fun s => cells_of (outputs c) s = [] \/ sample_ok c rid (cells_of (outputs c) C) s))).
Proof.
  intros c rid ts C N W U N0 NT. unfold simulate_one.
  assert (SUBc : forall k, In k (interl (outputs c) ts) -> In k (outputs c)).
  { intros k Hk. apply filter_In in Hk. apply memb_In. tauto. }
  assert (NTc : NoDup (interl (outputs c) ts)) by (apply NoDup_filter; auto).
  destruct (interl (outputs c) ts) as [|t0 tc] eqn:E.
  - cbn [always if_ok]. unfold empty_samples. destruct N as [n|]; cbn.
    + split; [apply repeat_length|]. intros s Hs. apply repeat_spec in Hs. subst. split; [reflexivity|]. left. reflexivity.
    + split; [reflexivity|]. left. reflexivity.
  - rewrite <- E in *. change (interd [] (@nil (Z * val))) with (@nil (Z * val)).
    generalize (simulate_shape c W rid (interl (outputs c) ts) (interd (outputs c) C) N NTc SUBc N0 (unknown_uc _ _ _ U)).
    apply always_imp. intros [r|e]; [|auto]. cbn [if_ok]. rewrite cells_of_interd.
    destruct N, r; cbn; try tauto.
    intros [L R]. split; [exact L|]. intros s Hs. destruct (R s Hs). auto.
Qed.

Lemma prod_law : forall cs, (forall c, In c cs -> wf c) -> NoDup (flat_map outputs cs) ->
  (forall c, In c cs -> law c) -> law (CProd cs).
Proof.
  intros cs W ND LW rid T C N SN U LB DJ NU NE ST SC DI SD P.
  cbn [unknown labelled solid discrete] in *. rewrite each_In in U, LB, SD, DI.
  destruct (disjoint_parts _ _ DJ) as (NT & NC & X).
  assert (N0 : N <> Some 0%nat) by (destruct SN as [-> | ->]; discriminate).
  assert (PC : forall c, In c cs -> (0 < dens c C)%R).
  { intros c Hc. cbn [dens] in P. apply (rprod_pos (map (fun c' => dens c' C) cs)); auto.
    - intros r Hr. apply in_map_iff in Hr. destruct Hr as (c' & <- & Hc'). apply dens_nonneg. auto.
    - apply in_map_iff. eauto. }
  cbn [simulate]. unfold prod_simulate. rewrite map_map, expect_sobind. cbn [expect].
  set (M := fun c => simulate_one (outputs c) [] (simulate c) rid (keys T) C [] N).
  assert (EM : map (fun c => simulate_one (outputs c) (inputs c) (simulate c) rid (keys T) C [] N) cs = map M cs).
  { apply map_ext_in. intros c Hc. unfold M. rewrite (wf_inputs c (W c Hc)). reflexivity. }
  rewrite EM. clear EM.
  rewrite (soseq_expect cs M (fun c => well_shaped (interl (outputs c) (keys T)) N
      (fun s => cells_of (outputs c) s = [] \/ sample_ok c rid (cells_of (outputs c) C) s))
      (fun c r => agrees (interd (outputs c) T) r)) with (c := 1%R).
  - rewrite Rmult_1_l. transitivity (rprod (map (fun c => dens c (T ++ C) / dens c C)%R cs)).
    { f_equal. apply map_ext_in. intros c Hc. apply law_one; auto. }
    cbn [dens]. clear - PC. induction cs as [|c cs IH]; [cbn; lra|].
    change (dens c (T ++ C) / dens c C * rprod (map (fun c => dens c (T ++ C) / dens c C) cs) =
            (dens c (T ++ C) * rprod (map (fun c' => dens c' (T ++ C)) cs)) /
            (dens c C * rprod (map (fun c' => dens c' C) cs)))%R.
    rewrite IH by (intros; apply PC; now right).
    assert (Q1 : dens c C <> 0%R) by (apply Rgt_not_eq, PC; now left).
    assert (Q2 : (0 < rprod (map (fun c' => dens c' C) cs))%R).
    { apply rprod_pos_all. intros p Hp. apply in_map_iff in Hp. destruct Hp as (c' & <- & Hc'). apply PC. now right. }
    field. split; [lra|exact Q1].
  - intros c Hc. split.
    + unfold M, simulate_one. destruct (interl (outputs c) (keys T)) eqn:E; [exact I|]. rewrite <- E.
      change (interd [] (@nil (Z * val))) with (@nil (Z * val)). apply sim_choices; auto. apply interl_discrete; auto.
    + apply child_shape; auto.
  - reflexivity.
  - reflexivity.
  - intros l F. rewrite Rmult_1_l.
    assert (CE : cs <> []).
    { destruct cs; [|discriminate]. destruct T as [|[k x] T]; [congruence|]. exfalso. apply (ST k). now left. }
    destruct cs as [|c0 cs0] eqn:ECS; [congruence|]. rewrite <- ECS in *.
    assert (LN : l <> []) by (rewrite ECS in F; inversion F; discriminate).
    destruct SN as [-> | ->].
    + assert (Q : exists ds, l = map SOne ds /\ Forall2 (piece (keys T) rid C) cs ds).
      { clear - F. induction F as [|c r cs l P F IH]; [exists []; auto|]. destruct IH as (ds & -> & H).
        destruct r as [s|]; [|destruct P]. exists (s :: ds). split; [reflexivity|]. constructor; auto. }
      destruct Q as (ds & -> & FP). destruct ds as [|d0 ds0] eqn:ED; [exfalso; apply LN; reflexivity|]. rewrite <- ED in *.
      replace (merge_samples (map SOne ds)) with (Ok (SOne (mergedl ds))).
      2:{ rewrite ED. cbn [map merge_samples]. unfold all_one. cbn [map]. rewrite map_map.
          cbn [oseq]. replace (oseq (map (fun x : row => Ok x) ds0)) with (Ok ds0); [reflexivity|].
          symmetry. rewrite (oseq_map_ok _ (fun x => x)); [rewrite map_id; reflexivity|auto]. }
      cbn [agrees]. rewrite (hit_pieces cs ds T rid C FP ND NT ST). rewrite <- rprod_ind.
      f_equal. clear. revert ds. induction cs as [|c cs IH]; intros [|d ds]; cbn; auto. f_equal. apply IH.
    + assert (Q : exists ds, l = map (fun s => SMany [s]) ds /\ Forall2 (piece (keys T) rid C) cs ds).
      { clear - F. induction F as [|c r cs l P F IH]; [exists []; auto|]. destruct IH as (ds & -> & H).
        destruct r as [|rs]; [destruct P|]. destruct P as [P1 P2]. destruct rs as [|s [|]]; try discriminate.
        exists (s :: ds). split; [reflexivity|]. constructor; auto. apply P2. now left. }
      destruct Q as (ds & -> & FP). destruct ds as [|d0 ds0] eqn:ED; [exfalso; apply LN; reflexivity|]. rewrite <- ED in *.
      replace (merge_samples (map (fun s => SMany [s]) ds)) with (Ok (SMany [mergedl ds])).
      2:{ rewrite ED. cbn [map merge_samples]. unfold all_many. cbn [map]. rewrite map_map.
          cbn [oseq]. replace (oseq (map (fun x : row => Ok [x]) ds0)) with (Ok (map (fun x : row => [x]) ds0)).
          2:{ symmetry. rewrite (oseq_map_ok _ (fun x => [x])); [reflexivity|auto]. }
          cbn [obind List.length]. f_equal. f_equal. cbn [zip_rows existsb].
          replace (existsb _ (map (fun x : row => [x]) ds0)) with false.
          2:{ symmetry. clear. induction ds0; cbn; auto. }
          cbn [orb map hd]. rewrite map_map. cbn [hd]. rewrite map_id. reflexivity. }
      cbn [agrees]. rewrite (hit_pieces cs ds T rid C FP ND NT ST). rewrite <- rprod_ind.
      f_equal. clear. revert ds. induction cs as [|c cs IH]; intros [|d ds]; cbn; auto. f_equal. apply IH.
Qed.

(** ** Mixtures *)

Definition names (ix : Z) (T : row) (t : Z) : R :=
  match lookup ix T with None => 1 | Some x => if eqb x (vz t) then 1 else 0 end%R.

Lemma hit_cluster : forall ix ox T s t, NoDup (keys T) -> (forall k, In k (keys T) -> k = ix \/ In k ox) -> ~ In ix ox ->
  In ix (keys T) ->
  (if hit T (dset ix (vz t) s) then 1 else 0)%R = (names ix T t * if hit (interd ox T) s then 1 else 0)%R.
Proof.
  intros ix ox T s t NT ST NI IT. unfold names. destruct (lookup_keys _ _ IT) as [x Lx]. rewrite Lx.
  assert (OT : forall k y, In (k, y) (interd ox T) -> In (k, y) T /\ k <> ix).
  { intros k y Hk. apply In_interd in Hk. destruct Hk as [Hk Ho]. split; auto. intros ->. auto. }
  destruct (eqb x (vz t)) eqn:E.
  - apply eqb_true in E. subst x.
    replace (hit T (dset ix (vz t) s)) with (hit (interd ox T) s); [destruct (hit _ _); lra|].
    apply Bool.eq_iff_eq_true. rewrite !hit_true. split.
    + intros H k y Hk. assert (Ik : In k (keys T)) by (apply in_map_iff; exists (k, y); auto).
      destruct (eq_dec k ix) as [->|N].
      * rewrite lookup_dset_eq. rewrite (In_lookup _ _ _ NT Hk) in Lx. congruence.
      * rewrite lookup_dset_neq by auto. apply H. apply In_interd. split; auto. destruct (ST k Ik); [contradiction|auto].
    + intros H k y Hk. destruct (OT k y Hk) as [H1 H2]. rewrite <- (H k y H1). rewrite lookup_dset_neq; auto.
  - apply eqb_false in E. replace (hit T (dset ix (vz t) s)) with false; [lra|].
    symmetry. apply not_true_is_false. intros H. rewrite hit_true in H. apply lookup_In in Lx.
    specialize (H _ _ Lx). rewrite lookup_dset_eq in H. congruence.
Qed.

Lemma hit_cells : forall ix ox T s, (forall k, In k (keys T) -> k = ix \/ In k ox) ->
  ~ In ix (keys T) -> hit T s = hit (interd ox T) s.
Proof.
  intros ix ox T s ST NI. rewrite all_in; [reflexivity|]. intros k Hk. destruct (ST k Hk) as [->|]; [contradiction|auto].
Qed.

Lemma mix_one_law : forall flex div arr r2c, wf (CMix flex div arr r2c) ->
  forall t c, component arr t = Some c -> law c ->
  forall rid T C N, single N -> unknown c rid -> labelled c (T ++ C) -> disjoint_rows T C -> numbers T ->
  (forall k, In k (keys T) -> In k (outputs (CMix flex div arr r2c))) ->
  discrete c (keys T) -> solid c C -> (0 < dens c C)%R ->
  expect (mix_simulate_one (dist_o div) (outputs arr) (simulate arr) rid (keys T) C [] N (vz t)) (agrees T) =
  (names (dist_o div) T t * (dens c (T ++ C) / dens c C))%R.
Proof.
  intros flex div arr r2c W t c E LW rid T C N SN U LB DJ NU ST DI SD P.
  destruct (wf_mix _ _ _ _ W) as (_ & _ & A & NI & CO & _ & _). destruct (CO c (comp_In _ _ _ E)) as [Wc Oc].
  destruct (disjoint_parts _ _ DJ) as (NT & NC & X).
  assert (ST' : forall k, In k (keys T) -> k = dist_o div \/ In k (outputs arr)).
  { intros k Hk. destruct (ST k Hk) as [<-|H]; auto. }
  assert (N0 : N <> Some 0%nat) by (destruct SN as [-> | ->]; discriminate).
  unfold mix_simulate_one. rewrite expect_sobind. cbn [expect].
  set (M := simulate_one (outputs c) [] (simulate c) rid (keys T) C [] N).
  assert (EM : match interl (outputs arr) (keys T) with
     | [] => Ret (Ok (empty_samples N))
     | _ :: _ => simulate arr rid (interl (outputs arr) (keys T)) (interd (outputs arr) C)
          (merged (interd (outputs arr) []) [(dist_o div, vz t)]) N end = M).
  { unfold M, simulate_one. rewrite Oc. destruct (interl (outputs arr) (keys T)); [reflexivity|].
    change (merged (interd (outputs arr) []) [(dist_o div, vz t)]) with [(dist_o div, vz t)].
    change (interd [] (@nil (Z * val))) with (@nil (Z * val)). eapply CompThm.arr_simulate; eauto. }
  etransitivity; [apply (f_equal (fun m => expect m _)); destruct (interl (outputs arr) (keys T)); exact EM|].
  rewrite <- (law_one c Wc LW rid T C N SN U LB DJ NU DI SD P). fold M.
  rewrite <- expect_scale. eapply expect_always.
  - unfold M, simulate_one. destruct (interl (outputs c) (keys T)) eqn:Ek; [exact I|]. rewrite <- Ek.
    change (interd [] (@nil (Z * val))) with (@nil (Z * val)). apply sim_choices; auto. apply interl_discrete; auto.
  - apply child_shape; auto.
  - intros [r|e] Hr; [|cbn; lra]. cbn [if_ok] in Hr. rewrite Oc in *. unfold add_cluster.
    destruct (memb (dist_o div) (keys T)) eqn:M'.
    + apply memb_In in M'. destruct SN as [-> | ->].
      * destruct r as [s|]; [|destruct Hr]. cbn [agrees]. apply hit_cluster; auto.
      * destruct r as [|rs]; [destruct Hr|]. destruct Hr as [L _]. destruct rs as [|s [|]]; try discriminate.
        cbn [map agrees]. apply hit_cluster; auto.
    + apply memb_false in M'. unfold names. apply lookup_None in M' as L. rewrite L, Rmult_1_l.
      destruct r as [s|rs]; cbn [agrees]; [rewrite (hit_cells _ _ _ _ ST' M'); reflexivity|].
      destruct rs as [|s [|]]; try reflexivity. rewrite (hit_cells _ _ _ _ ST' M'). reflexivity.
Qed.

Lemma cluster_counts_one : forall K z, NoDup K -> In z K -> cluster_counts K [z] = [(z, 1%nat)].
Proof.
  intros K z ND Hz. unfold cluster_counts.
  induction K as [|k K IH]; [destruct Hz|]. inversion ND as [|? ? NI ND']; subst. cbn [map count_occ].
  destruct (Z.eq_dec z k) as [->|N].
  - cbn [filter snd Nat.eqb negb]. f_equal.
    assert (E : forall l, ~ In k l -> filter (fun p : Z * nat => negb (Nat.eqb (snd p) 0))
       (map (fun z => (z, if Z.eq_dec k z then 1%nat else 0%nat)) l) = []).
    { induction l as [|x l IHl]; intros Hl; [reflexivity|]. cbn. destruct (Z.eq_dec k x) as [->|].
      - exfalso. apply Hl. now left.
      - cbn. apply IHl. intros H. apply Hl. now right. }
    cbn [count_occ] in E. apply E. exact NI.
  - cbn [filter snd Nat.eqb negb]. destruct Hz as [->|Hz]; [congruence|]. apply IH; auto.
Qed.

Lemma rsum_single : forall (K : list Z) (f : Z -> R) y, NoDup K ->
  rsum (map (fun t => (if eqb (vz y) (vz t) then 1 else 0) * f t)%R K) = (if memb y K then f y else 0)%R.
Proof.
  induction K as [|k K IH]; intros f y ND; [reflexivity|]. inversion ND as [|? ? NI ND']; subst. cbn [map].
  change (rsum (?x :: ?l)) with (x + rsum l)%R. rewrite IH by auto.
  destruct (eqb (vz y) (vz k)) eqn:E.
  - apply eqb_true in E. apply vz_inj in E. subst k.
    assert (M : memb y K = false) by (apply memb_false; exact NI). rewrite M.
    assert (M' : memb y (y :: K) = true) by (apply memb_In; now left). rewrite M'. lra.
  - apply eqb_false in E. assert (N : y <> k) by congruence.
    assert (M : memb y (k :: K) = memb y K).
    { apply Bool.eq_iff_eq_true. rewrite !memb_In. cbn. intuition congruence. }
    rewrite M. lra.
Qed.

Lemma expect_srepeat_1 : forall {A} (m : samp (out A)) g,
  expect (srepeat 1 m) g = expect m (fun x => match x with Ok a => g (Ok [a]) | Err e => g (Err e) end).
Proof. intros A m g. cbn [srepeat]. rewrite expect_sobind. reflexivity. Qed.

Lemma mix_law : forall flex div arr r2c, wf (CMix flex div arr r2c) ->
  (forall c, In c (components arr) -> law c) -> law (CMix flex div arr r2c).
Proof.
  intros flex div arr r2c W LW rid T C N SN U LB DJ NU NE ST SC DI SD P.
  destruct (wf_mix _ _ _ _ W) as (D & (K & SU) & A & NI & CO & CE & _).
  destruct (disjoint_parts _ _ DJ) as (NT & NC & X). pose proof LB as [LB1 LB2].
  assert (KN : NoDup K) by (eapply support_NoDup; eauto).
  set (m := CMix flex div arr r2c) in *. set (ix := dist_o div) in *.
  assert (RC : (match rid with None => None | Some r => lookup r r2c end) = None).
  { destruct U as (_ & U & _). destruct rid as [r|]; [|reflexivity]. apply lookup_None. exact U. }
  assert (ONE : forall t c M, component arr t = Some c -> single M -> (0 < dens c C)%R ->
    expect (mix_simulate_one ix (outputs arr) (simulate arr) rid (keys T) C [] M (vz t)) (agrees T) =
    (names ix T t * (dens c (T ++ C) / dens c C))%R).
  { intros t c M E SM Pc. assert (Ic := comp_In _ _ _ E). destruct (CO c Ic) as [Wc Oc].
    apply (mix_one_law flex div arr r2c W t c E); auto.
    - eapply unknown_comp; eauto.
    - exact (labelled_comp arr _ c LB2 Ic).
    - exact (discrete_comp arr _ c DI Ic).
    - apply (solid_comp arr C c SD Ic). }
  unfold m. cbn [simulate]. unfold mix_simulate. rewrite RC. fold ix.
  destruct (lookup ix C) as [x|] eqn:LC.
  - (* the constraints name the cluster *)
    assert (IT : ~ In ix (keys T)).
    { intros H. apply (X ix H). eapply lookup_Some_keys; eauto. }
    assert (LT : lookup ix T = None) by (apply lookup_None; exact IT).
    assert (LTC : lookup ix (T ++ C) = Some x) by (rewrite lookup_app, LT; exact LC).
    destruct (LB1 x LTC) as (t & -> & LZ). destruct (CE t LZ) as [c E].
    assert (DC : dens m C = (cell_density div (vz t) * dens c C)%R).
    { unfold m. rewrite (dens_mix_some flex div arr r2c W t C LC), (q_comp flex div arr r2c W t c C E). reflexivity. }
    assert (DTC : dens m (T ++ C) = (cell_density div (vz t) * dens c (T ++ C))%R).
    { unfold m. rewrite (dens_mix_some flex div arr r2c W t _ LTC), (q_comp flex div arr r2c W t c _ E). reflexivity. }
    assert (Wc : wf c) by (apply CO; eapply comp_In; eauto).
    assert (P1 := cell_nonneg div (vz t) D). assert (P2 := dens_nonneg c Wc C).
    assert (PP : (0 < cell_density div (vz t))%R /\ (0 < dens c C)%R).
    { rewrite DC in P. split.
      - destruct P1 as [|Z0]; [auto|rewrite <- Z0 in P; lra].
      - destruct P2 as [|Z0]; [auto|rewrite <- Z0 in P; lra]. }
    rewrite SU. replace (in_support (vz t) K) with true.
    2:{ symmetry. apply in_support_spec. apply (support_pos div K t D SU). apply PP. }
    rewrite (ONE t c N E SN (proj2 PP)). unfold names. fold m. rewrite LT, DC, DTC. field. lra.
  - (* the cluster is drawn *)
    assert (LCk : ~ In ix (keys C)) by (apply lookup_None; exact LC).
    set (pr := fun t => (dens m ((ix, vz t) :: C) / dens m C)%R).
    assert (EP : forall t c, component arr t = Some c -> pr t = (cell_density div (vz t) * dens c C / dens m C)%R).
    { intros t c E. unfold pr, m. rewrite (dens_mix_some flex div arr r2c W t _ (lookup_cons_eq _ _ _)).
      rewrite (q_comp flex div arr r2c W t c _ E). f_equal. f_equal.
      destruct (CO c (comp_In _ _ _ E)) as [Wc Oc]. apply dens_ext; auto.
      intros k Hk. apply lookup_cons_neq. intros ->. rewrite Oc in Hk. contradiction. }
    assert (PN : forall t, In t K -> (0 <= pr t)%R) by (intros; apply ratio_nonneg; auto).
    assert (PS : rsum (map pr K) = 1%R).
    { unfold pr. rewrite (rsum_div (fun t => dens m ((ix, vz t) :: C))). unfold m, ix.
      rewrite (cluster_marginal flex div arr r2c K C W SU LCk). fold m. field. lra. }
    rewrite SU. cbn [obind].
    rewrite (oseq_map_ok _ (fun t => xlog (pr t))).
    2:{ intros t Ht. apply (mixture_density flex div arr r2c rid [(ix, vz t)] C); auto.
        - cbn [app]. apply labelled_add; eauto. eapply labelled_sub; [|exact LB]. intros k x H. rewrite lookup_app.
          destruct (lookup k T) eqn:L'; [|exact H]. exfalso. apply (X k); eapply lookup_Some_keys; eauto.
        - unfold disjoint_rows. cbn. constructor; auto. }
    cbn [obind]. rewrite expect_sobind.
    assert (SZ : match N with None => 1%nat | Some O => 1%nat | Some n => n end = 1%nat) by (destruct SN as [-> | ->]; reflexivity).
    rewrite SZ, expect_srepeat_1.
    set (post := fun l : list sres => match N with
        | Some _ => omap SMany (chain_samples l)
        | None => do ll <- chain_samples l; match ll with d :: _ => Ok (SOne d) | [] => Err IndexError end end).
    set (g := fun x : out Z => match x with
       | Ok z => expect (sobind (soseq (map (fun p => mix_simulate_one ix (outputs arr) (simulate arr) rid (keys T) C []
                     (Some (snd p)) (vz (fst p))) (cluster_counts K [z]))) (fun l => Ret (post l))) (agrees T)
       | Err e => 0%R end).
    assert (FL := flip_law K pr 0 g PN PS). etransitivity; [exact FL|]. clear FL.
    assert (EG : forall t c, component arr t = Some c -> In t K -> (0 < dens c C)%R ->
       g (Ok t) = (names ix T t * (dens c (T ++ C) / dens c C))%R).
    { intros t c E Ht Pc. cbn [g]. rewrite cluster_counts_one by auto. cbn [map fst snd].
      rewrite <- (ONE t c (Some 1%nat) E (or_intror eq_refl) Pc). rewrite expect_sobind. cbn [soseq]. rewrite expect_sobind.
      eapply expect_always.
      - apply (mix_one_choices flex div arr r2c W); auto. intros c' Hc'. apply sim_choices. apply CO. exact Hc'.
      - apply (mix_simulate_one_shape flex div arr r2c W); auto.
        + intros c' Hc' rid' ts' C' N' H1 H2 H3 H4. apply simulate_shape; auto. apply CO. exact Hc'.
        + discriminate.
        + apply unknown_uc. apply U.
      - intros [r|e] Hr; [|reflexivity]. cbn [if_ok] in Hr. destruct r as [|rs]; [destruct Hr|].
        destruct Hr as [L _]. destruct rs as [|s [|]]; try discriminate.
        cbn [sobind sbind expect]. unfold post. destruct SN as [-> | ->]; reflexivity. }
    transitivity (rsum (map (fun t => (names ix T t * (cell_density div (vz t) * q_of div arr t (T ++ C)))%R) K) / dens m C)%R.
    { rewrite <- (rsum_div (fun t => (names ix T t * (cell_density div (vz t) * q_of div arr t (T ++ C)))%R)).
      apply rsum_ext. intros t Ht. destruct (CE t (or_intror (ex_intro _ K (conj SU Ht)))) as [c E].
      rewrite (EP t c E), (q_comp flex div arr r2c W t c _ E). assert (Ic := comp_In _ _ _ E). destruct (CO c Ic) as [Wc Oc].
      destruct (Rle_lt_or_eq_dec _ _ (dens_nonneg c Wc C)) as [Pc|Z0].
      - rewrite (EG t c E Ht Pc). field. lra.
      - destruct (solid_comp arr C c SD Ic) as [S1 S2].
        destruct (answers_of c rid T C Wc (wf_answers c Wc)) as (y & _ & EQ & _); auto.
        + eapply unknown_comp; eauto.
        + exact (labelled_comp arr _ c LB2 Ic).
        + rewrite <- EQ, <- Z0. unfold Rdiv. ring. }
    f_equal. destruct (lookup ix T) as [x|] eqn:LT.
    + assert (LTC : lookup ix (T ++ C) = Some x) by (rewrite lookup_app, LT; reflexivity).
      destruct (NU ix x (lookup_In _ _ _ LT)) as [y ->].
      unfold m. rewrite (dens_mix_some flex div arr r2c W y _ LTC).
      transitivity (if memb y K then cell_density div (vz y) * q_of div arr y (T ++ C) else 0)%R.
      { rewrite <- (rsum_single K (fun t => cell_density div (vz t) * q_of div arr t (T ++ C))%R y KN).
        apply rsum_ext. intros t _. unfold names. rewrite LT. reflexivity. }
      destruct (memb y K) eqn:MK; [reflexivity|]. apply memb_false in MK.
      destruct (cell_nonneg div (vz y) D) as [Py|Z0]; [|rewrite <- Z0; lra].
      exfalso. apply MK. apply (support_pos div K y D SU). exact Py.
    + assert (LTC : lookup ix (T ++ C) = None) by (rewrite lookup_app, LT; exact LC).
      unfold m. rewrite (dens_mix_none flex div arr r2c K _ SU LTC). apply rsum_ext. intros t _. unfold names.
      rewrite LT. lra.
Qed.

Lemma dist_law : forall d, dinv d -> law (CDist d).
Proof.
  intros d D rid T C N SN U LB DJ NU NE ST SC DI SD P. cbn [outputs unknown discrete] in *.
  destruct (disjoint_parts _ _ DJ) as (NT & NC & X).
  destruct T as [|[k x] T]; [congruence|]. assert (k = dist_o d) by (destruct (ST k) as [|[]]; [now left|auto]). subst k.
  destruct T as [|[k y] T].
  2:{ exfalso. assert (k = dist_o d) by (destruct (ST k) as [|[]]; [right; now left|auto]). subst k.
      inversion NT as [|? ? H _]; subst. apply H. now left. }
  destruct C as [|[k y] C].
  2:{ exfalso. assert (k = dist_o d) by (destruct (SC k) as [|[]]; [now left|auto]). subst k.
      apply (X (dist_o d)); now left. }
  destruct (NU (dist_o d) x (or_introl eq_refl)) as [y ->]. destruct (DI (or_introl eq_refl)) as [K SU].
  destruct (prim_draw d rid K D U SU) as (m & E & _ & EX). cbn [simulate keys map fst]. rewrite E.
  cbn [app dens]. rewrite lookup_cons_eq. replace (lookup (dist_o d) (@nil (Z * val))) with (@None val) by reflexivity.
  unfold Rdiv. rewrite Rinv_1, Rmult_1_r.
  assert (KN : NoDup K) by (eapply support_NoDup; eauto).
  assert (H : expect (simulate_many m N) (agrees [(dist_o d, vz y)]) =
     rsum (map (fun z => (if eqb (vz y) (vz z) then 1 else 0) * cell_density d (vz z))%R K)).
  { assert (G : forall z, (if hit [(dist_o d, vz y)] [(dist_o d, vz z)] then 1 else 0)%R = (if eqb (vz y) (vz z) then 1 else 0)%R).
    { intros z. replace (hit [(dist_o d, vz y)] [(dist_o d, vz z)]) with (eqb (vz y) (vz z)); [reflexivity|].
      apply Bool.eq_iff_eq_true. rewrite hit_true, eqb_true. split.
      - intros -> k x [Ek|[]]. injection Ek as <- <-. apply lookup_cons_eq.
      - intros H. specialize (H _ _ (or_introl eq_refl)). rewrite lookup_cons_eq in H. congruence. }
    destruct SN as [-> | ->]; cbn [simulate_many]; rewrite expect_sobind; rewrite ?expect_srepeat_1; rewrite EX;
      apply rsum_ext; intros z _; cbn [expect agrees]; rewrite G; lra. }
  rewrite H, (rsum_single K (fun z => cell_density d (vz z)) y KN). destruct (memb y K) eqn:M; [reflexivity|].
  apply memb_false in M. destruct (cell_nonneg d (vz y) D) as [Py|Z0]; [|auto].
  exfalso. apply M. apply (support_pos d K y D SU). exact Py.
Qed.

Lemma wf_law : forall c, wf c -> law c.
Proof.
  induction 1 as [d D|cs Wc IH ND|div cs r2i r2c D F SU NE Wc IH O|div b cs r2i r2c D HS Wb IHb NI ND Wc IH O].
  - apply dist_law; auto.
  - apply prod_law; auto.
  - apply mix_law; auto. econstructor; eauto.
  - apply mix_law; auto; [econstructor; eauto|].
    intros c [<-|Hc]; [exact IHb|]. unfold values in Hc. apply in_map_iff in Hc. destruct Hc as ([k c'] & <- & Hc).
    eapply IH; eauto.
Qed.
