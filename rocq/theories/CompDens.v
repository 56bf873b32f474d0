(** The densities of composite models. *)
From Coq Require Import List ZArith QArith Qcanon Reals Bool String Lia Lra Permutation.
From Verif Require Import Base Xr Samp Lgamma Prims Cgpm Lib SpecPrims PrimsInv PrimsDens PrimsThm PrimsThm2 SpecComp CompInv.
Import ListNotations.
Local Open Scope Z_scope.

(** ** Arithmetic of log densities *)

Lemma xlog_nonpos : forall p, (p <= 0)%R -> xlog p = NInf.
Proof. intros p H. unfold xlog. destruct (Rlt_dec 0 p); [lra|reflexivity]. Qed.

Lemma xlog_1 : xlog 1 = Fin 0.
Proof. rewrite xlog_pos by lra. now rewrite ln_1. Qed.

Lemma xlog_mul : forall a b, (0 <= a)%R -> (0 <= b)%R -> xadd (xlog a) (xlog b) = xlog (a * b).
Proof.
  intros a b Ha Hb. destruct (Rle_lt_or_eq_dec _ _ Ha) as [Pa|<-].
  - destruct (Rle_lt_or_eq_dec _ _ Hb) as [Pb|<-].
    + rewrite !xlog_pos by (auto; apply Rmult_lt_0_compat; auto). cbn. rewrite ln_mult; auto.
    + rewrite Rmult_0_r, xlog_0, xlog_pos by auto. reflexivity.
  - rewrite Rmult_0_l, xlog_0. destruct (Rle_lt_or_eq_dec _ _ Hb) as [Pb|<-].
    + rewrite xlog_pos by auto. reflexivity.
    + rewrite xlog_0. reflexivity.
Qed.

Lemma xlog_sub : forall a b, (0 <= a)%R -> (0 < b)%R -> xsub (xlog a) (xlog b) = xlog (a / b).
Proof.
  intros a b Ha Pb. unfold xsub. rewrite (xlog_pos b) by auto. cbn.
  destruct (Rle_lt_or_eq_dec _ _ Ha) as [Pa|<-].
  - rewrite !xlog_pos by (auto; apply Rdiv_lt_0_compat; auto). cbn. rewrite ln_div; auto.
  - unfold Rdiv. rewrite Rmult_0_l, xlog_0. reflexivity.
Qed.

Lemma xlog_div_self : forall a, (0 < a)%R -> xlog (a / a) = Fin 0.
Proof. intros a Ha. replace (a / a)%R with 1%R by (field; lra). apply xlog_1. Qed.

Lemma xsum_xlog : forall l, (forall p, In p l -> (0 <= p)%R) -> xsum (map xlog l) = xlog (rprod l).
Proof.
  induction l as [|p l IH]; intros H; cbn.
  - symmetry. apply xlog_1.
  - unfold xsum in IH. rewrite IH by (intros; apply H; now right).
    apply xlog_mul; [apply H; now left|].
    clear IH. assert (H' : forall p, In p l -> (0 <= p)%R) by (intros; apply H; now right). clear H.
    induction l as [|q l IH]; cbn; [lra|]. apply Rmult_le_pos; [apply H'; now left|].
    apply IH. intros. apply H'. now right.
Qed.

Lemma rprod_nonneg : forall l, (forall p, In p l -> (0 <= p)%R) -> (0 <= rprod l)%R.
Proof.
  induction l as [|q l IH]; intros H; cbn; [lra|]. apply Rmult_le_pos; [apply H; now left|].
  apply IH. intros. apply H. now right.
Qed.

Lemma logsumexp_xlog : forall l, (forall p, In p l -> (0 <= p)%R) ->
  logsumexp (map xlog l) = xlog (rsum l).
Proof.
  intros l H. unfold logsumexp.
  assert (G : forall p, xlog p = Fin (ln p) \/ xlog p = NInf).
  { intros p. unfold xlog. destruct (Rlt_dec 0 p); auto. }
  replace (existsb (fun a => match a with XNan => true | _ => false end) (map xlog l)) with false.
  2:{ symmetry. apply not_true_is_false. intros E. apply existsb_exists in E. destruct E as (a & Ia & Ea).
      apply in_map_iff in Ia. destruct Ia as (p & <- & _). destruct (G p) as [-> | ->] in Ea; discriminate. }
  replace (existsb (fun a => match a with PInf => true | _ => false end) (map xlog l)) with false.
  2:{ symmetry. apply not_true_is_false. intros E. apply existsb_exists in E. destruct E as (a & Ia & Ea).
      apply in_map_iff in Ia. destruct Ia as (p & <- & _). destruct (G p) as [-> | ->] in Ea; discriminate. }
  assert (EX : map xexp (map xlog l) = l).
  { rewrite map_map. clear G. induction l as [|p l IH]; [reflexivity|]. cbn. f_equal.
    - apply xexp_xlog. apply H. now left.
    - apply IH. intros. apply H. now right. }
  rewrite EX.
  destruct (existsb is_fin (map xlog l)) eqn:E.
  - apply existsb_exists in E. destruct E as (a & Ia & Ea). apply in_map_iff in Ia.
    destruct Ia as (p & <- & Ip). symmetry. apply xlog_pos.
    apply Rlt_le_trans with p; [|apply rsum_ge; auto].
    unfold xlog in Ea. destruct (Rlt_dec 0 p); [auto|discriminate].
  - symmetry. apply xlog_nonpos. apply Req_le. apply rsum_zero. intros p Ip.
    destruct (Rle_lt_or_eq_dec _ _ (H p Ip)) as [Pp|<-]; [|reflexivity].
    exfalso. assert (X : existsb is_fin (map xlog l) = true); [|congruence].
    apply existsb_exists. exists (xlog p). split; [apply in_map; auto|]. rewrite xlog_pos by auto. reflexivity.
Qed.

Lemma logsumexp_nan : forall l, In XNan l -> logsumexp l = XNan.
Proof.
  intros l H. unfold logsumexp. replace (existsb _ l) with true; [reflexivity|]. symmetry.
  apply existsb_exists. exists XNan. auto.
Qed.

Lemma xadds_map : forall {A} (f g : A -> xr) l, xadds (map f l) (map g l) = map (fun a => xadd (f a) (g a)) l.
Proof. induction l; cbn; f_equal; auto. Qed.

(** ** Cells *)

Definition crp_missing (d : dist) (x : val) : Prop := match d with DCrp _ => x = VNan | _ => False end.

Lemma crp_missing_vz : forall d z, ~ crp_missing d (vz z).
Proof. intros [] z H; cbn in H; try exact H; discriminate H. Qed.

Lemma cell_logpdf : forall d rid x, dinv d -> unrecorded rid (dist_data d) -> ~ crp_missing d x ->
  dist_logpdf d rid [(dist_o d, x)] [] [] = Ok (xlog (cell_density d x)).
Proof.
  intros d rid [|q] D U N.
  - rewrite missing_logpdf by auto. cbn. destruct d; rewrite ?xlog_1, ?xlog_0; auto.
    exfalso. apply N. reflexivity.
  - apply logpdf_density; auto.
Qed.

Lemma cell_nonneg : forall d x, dinv d -> (0 <= cell_density d x)%R.
Proof. intros d [|q] D; cbn; [destruct d; lra|apply density_nonneg; auto]. Qed.

Lemma support_domain : forall d K z, dinv d -> dist_support d = Ok K ->
  (In z K <-> in_domain (kind_of d) (dist_data d) (vz z)).
Proof.
  intros d K z D SU. destruct d; cbn in SU; try discriminate; injection SU as <-.
  - rewrite crp_support_In by auto. cbn [kind_of in_domain vz]. rewrite trunc_qz.
    rewrite (first_free_next _ z); [reflexivity|]. apply D.
  - cbn. unfold cat_support. rewrite zrange_In. split.
    + intros H. exists z. split; [reflexivity|lia].
    + intros (z' & E & H). apply qz_inj in E. subst. lia.
  - cbn. split.
    + intros [<-|[<-|[]]]; auto.
    + intros [E|E]; apply qz_inj in E; auto.
Qed.

Lemma support_pos : forall d K z, dinv d -> dist_support d = Ok K ->
  (In z K <-> (0 < cell_density d (vz z))%R).
Proof. intros d K z D SU. rewrite (support_domain d K z D SU). cbn. symmetry. apply density_pos. exact D. Qed.

Lemma support_sum : forall d K, dinv d -> dist_support d = Ok K ->
  rsum (map (fun z => cell_density d (vz z)) K) = 1%R.
Proof.
  intros d K D SU. destruct (support_normalised d K None D I SU) as (ls & E & _ & S1).
  rewrite (oseq_map_ok _ (fun z => xlog (cell_density d (vz z)))) in E.
  - injection E as <-. rewrite <- S1, map_map. apply rsum_ext. intros z _.
    symmetry. apply xexp_xlog. apply cell_nonneg. exact D.
  - intros z _. apply cell_logpdf; [exact D|exact I|apply crp_missing_vz].
Qed.

Lemma in_support_spec : forall z K, in_support (vz z) K = true <-> In z K.
Proof.
  intros. unfold in_support. rewrite memb_In, in_map_iff. split.
  - intros (x & E & H). apply vz_inj in E. subst. exact H.
  - intros H. exists z. auto.
Qed.

(** ** The component behind a label *)

Definition is_array (ix : Z) (arr : cgpm) : Prop :=
  match arr with CFinArr i _ _ => i = ix | CFlexArr i _ _ _ => i = ix | _ => False end.

Lemma nth_map_error : forall {A} (f : A -> R) l n,
  nth n (map f l) 0%R = match nth_error l n with Some c => f c | None => 0%R end.
Proof. induction l; intros [|n]; cbn; auto. Qed.

Lemma arr_dens : forall ix arr S z, is_array ix arr -> lookup ix S = Some (vz z) ->
  dens arr S = match component arr z with Some c => dens c S | None => 0%R end.
Proof.
  intros ix arr S z A L. destruct arr as [| |i cs m|i b cs m|]; try contradiction; cbn in A; subst i.
  - cbn [dens component]. rewrite L. cbn [vz]. rewrite is_int_qz, trunc_qz. cbn.
    destruct (0 <=? z); [|reflexivity]. apply nth_map_error.
  - cbn [dens component]. rewrite L, lookup_dict_map. destruct (lookup (vz z) cs); reflexivity.
Qed.

Lemma arr_logpdf : forall ix arr rid T C z c, is_array ix arr -> component arr z = Some c ->
  logpdf arr rid T C [(ix, vz z)] = logpdf c rid T C [].
Proof.
  intros ix arr rid T C z c A E. destruct arr as [| |i cs m|i b cs m|]; try contradiction; cbn in A; subst i.
  - cbn [logpdf component] in *. unfold finarr_logpdf. cbn [lookup ddel]. destruct (eq_dec ix ix); [|congruence].
    destruct (0 <=? z) eqn:Z0; [|discriminate]. apply Z.leb_le in Z0.
    unfold py_index. cbn [vz]. rewrite is_int_qz, trunc_qz, map_length.
    assert (L : (Z.to_nat z < List.length cs)%nat) by (apply nth_error_Some; congruence).
    replace ((0 <=? z) && (z <? Z.of_nat (List.length cs))) with true by (symmetry; lia).
    cbn [obind]. rewrite nth_error_map, E. reflexivity.
  - cbn [logpdf component] in *. unfold flexarr_logpdf. cbn [lookup ddel]. destruct (eq_dec ix ix); [|congruence].
    rewrite lookup_dict_map. injection E as <-. destruct (lookup (vz z) cs); reflexivity.
Qed.

Lemma comp_In : forall arr z c, component arr z = Some c -> In c (components arr).
Proof.
  intros arr z c E. destruct arr as [| |i cs m|i b cs m|]; cbn in *; try discriminate.
  - destruct (0 <=? z); [|discriminate]. eapply nth_error_In; eauto.
  - injection E as <-. destruct (lookup (vz z) cs) eqn:L; [right|now left].
    apply lookup_In in L. apply (in_map snd) in L. exact L.
Qed.

(** What a well-formed mixture guarantees about its parts. *)
Lemma wf_mix : forall flex div arr r2c, wf (CMix flex div arr r2c) ->
  dinv div /\ (exists K, dist_support div = Ok K) /\ is_array (dist_o div) arr /\
  ~ In (dist_o div) (outputs arr) /\
  (forall c, In c (components arr) -> wf c /\ outputs c = outputs arr) /\
  (forall z, (flex = true \/ exists K, dist_support div = Ok K /\ In z K) -> exists c, component arr z = Some c) /\
  NoDup (outputs arr).
Proof.
  intros flex div arr r2c W.
  assert (ND := wf_outputs_NoDup _ W). cbn in ND. inversion ND as [|? ? NI ND']; subst.
  inversion W as [| |? cs ? ? D F SU NE Wc O|? b cs ? ? D HS Wb NI' NDk Wc O]; subst.
  - split; [auto|]. split; [eauto|]. split; [reflexivity|]. split; [auto|]. split; [|split; [|auto]].
    + intros c Hc. split; auto. cbn in Hc. cbn [outputs].
      apply outputs_same; auto. intros x Hx. apply O. exact Hx.
    + intros z [Hf|(K & EK & IK)]; [discriminate|]. rewrite SU in EK. injection EK as <-.
      apply zrange_In in IK. cbn. replace (0 <=? z) with true by (symmetry; lia).
      destruct (nth_error cs (Z.to_nat z)) eqn:E; [eauto|]. apply nth_error_None in E. lia.
  - split; [auto|]. split; [destruct div; cbn in *; try contradiction; eauto|].
    split; [reflexivity|]. split; [auto|]. split; [|split; [|auto]].
    + intros c [<-|Hc]; [auto|]. apply in_map_iff in Hc. destruct Hc as ([k c'] & <- & Hk). cbn.
      split; [eapply Wc; eauto|eapply O; eauto].
    + intros z _. cbn. eauto.
Qed.

(** ** Elementary facts on [dens] *)

Lemma dens_ext : forall c, wf c -> forall S S',
  (forall k, In k (outputs c) -> lookup k S = lookup k S') -> dens c S = dens c S'.
Proof.
  assert (MIX : forall flex div arr r2c, wf (CMix flex div arr r2c) ->
    (forall c, In c (components arr) -> forall S S',
       (forall k, In k (outputs c) -> lookup k S = lookup k S') -> dens c S = dens c S') ->
    forall S S', (forall k, In k (dist_o div :: outputs arr) -> lookup k S = lookup k S') ->
    dens (CMix flex div arr r2c) S = dens (CMix flex div arr r2c) S').
  { intros flex div arr r2c W IH S S' E.
    destruct (wf_mix _ _ _ _ W) as (D & (K & SU) & A & NI & CO & CE & _).
    assert (AE : forall x S1 S2, lookup (dist_o div) S1 = Some x -> lookup (dist_o div) S2 = Some x ->
      (forall k, In k (outputs arr) -> lookup k S1 = lookup k S2) -> dens arr S1 = dens arr S2).
    { intros x S1 S2 L1 L2 EE. clear E W.
      destruct arr as [| |i cs m|i b cs m|]; try contradiction; cbn in A; subst i; cbn [dens]; rewrite L1, L2.
      - destruct x as [|q]; [reflexivity|]. destruct (is_int q && (0 <=? trunc q)); [|reflexivity].
        rewrite !nth_map_error. destruct (nth_error cs (Z.to_nat (trunc q))) eqn:N; [|reflexivity].
        apply nth_error_In in N. apply IH; auto. intros k Hk. apply EE. destruct (CO c N) as [_ <-]. exact Hk.
      - rewrite !lookup_dict_map. destruct (lookup x cs) eqn:L; cbn [option_map].
        + apply lookup_In in L. apply (in_map snd) in L.
          apply IH; [now right|]. intros k Hk. apply EE. destruct (CO c (or_intror L)) as [_ <-]. exact Hk.
        + apply IH; [now left|]. intros k Hk. apply EE. exact Hk. }
    cbn [dens]. rewrite <- (E (dist_o div) (or_introl eq_refl)).
    destruct (lookup (dist_o div) S) as [x|] eqn:L.
    - f_equal. apply AE with x; auto.
      + rewrite <- E; auto. now left.
      + intros k Hk. apply E. now right.
    - rewrite SU. apply rsum_ext. intros z _. f_equal. apply AE with (vz z).
      + cbn. destruct (eq_dec (dist_o div) (dist_o div)); congruence.
      + cbn. destruct (eq_dec (dist_o div) (dist_o div)); congruence.
      + intros k Hk. cbn. destruct (eq_dec k (dist_o div)); [reflexivity|]. apply E. now right. }
  induction 1 as [d D|cs Wc IH ND|div cs r2i r2c D F SU NE Wc IH O|div b cs r2i r2c D HS Wb IHb NI ND Wc IH O];
    intros S S' E.
  - cbn. rewrite (E (dist_o d)); [reflexivity|]. now left.
  - cbn [dens]. f_equal. apply map_ext_in. intros c Hc. apply IH; auto.
    intros k Hk. apply E. cbn. apply in_flat_map. eauto.
  - apply MIX; auto. constructor; auto.
  - apply MIX; auto.
    + constructor; auto.
    + intros c [<-|Hc]; [exact IHb|]. apply in_map_iff in Hc. destruct Hc as ([k c'] & <- & Hk). cbn. eauto.
Qed.

Lemma arr_dens_nonneg : forall arr S, (forall c, In c (components arr) -> forall S, (0 <= dens c S)%R) ->
  match arr with CFinArr _ _ _ | CFlexArr _ _ _ _ => True | _ => False end -> (0 <= dens arr S)%R.
Proof.
  intros arr S IH A. destruct arr as [| |i cs m|i b cs m|]; try contradiction; cbn [dens].
  - destruct (lookup i S) as [[|q]|]; try lra. destruct (is_int q && (0 <=? trunc q)); [|lra].
    rewrite nth_map_error. destruct (nth_error cs (Z.to_nat (trunc q))) eqn:N; [|lra].
    apply IH. apply nth_error_In in N. exact N.
  - destruct (lookup i S) as [x|]; [|lra]. rewrite lookup_dict_map. destruct (lookup x cs) eqn:L; cbn [option_map].
    + apply IH. right. apply lookup_In in L. apply (in_map snd) in L. exact L.
    + apply IH. now left.
Qed.

Lemma dens_nonneg : forall c, wf c -> forall S, (0 <= dens c S)%R.
Proof.
  assert (MIX : forall flex div arr r2c S, dinv div -> (forall S, (0 <= dens arr S)%R) ->
    (0 <= dens (CMix flex div arr r2c) S)%R).
  { intros flex div arr r2c S D HA. cbn [dens]. destruct (lookup (dist_o div) S) as [x|].
    - apply Rmult_le_pos; auto using cell_nonneg.
    - destruct (dist_support div); [|lra]. apply rsum_nonneg. intros p Hp. apply in_map_iff in Hp.
      destruct Hp as (z & <- & _). apply Rmult_le_pos; auto using cell_nonneg. }
  induction 1 as [d D|cs Wc IH ND|div cs r2i r2c D F SU NE Wc IH O|div b cs r2i r2c D HS Wb IHb NI ND Wc IH O];
    intros S.
  - cbn. destruct (lookup (dist_o d) S); [apply cell_nonneg; auto|lra].
  - cbn. apply rprod_nonneg. intros p Hp. apply in_map_iff in Hp. destruct Hp as (c & <- & Hc). auto.
  - apply MIX; auto. intros S'. apply arr_dens_nonneg; [|exact I]. exact IH.
  - apply MIX; auto. intros S'. apply arr_dens_nonneg; [|exact I].
    intros c [<-|Hc]; [exact IHb|]. apply in_map_iff in Hc. destruct Hc as ([k c'] & <- & Hk). cbn. eauto.
Qed.

Lemma rprod_ones : forall l, (forall p, In p l -> p = 1%R) -> rprod l = 1%R.
Proof.
  induction l as [|p l IH]; intros H; [reflexivity|]. change (p * rprod l = 1)%R.
  rewrite (H p), IH by (auto using in_eq, in_cons). lra.
Qed.

Lemma dens_none : forall c, wf c -> forall S, (forall k, In k (outputs c) -> lookup k S = None) -> dens c S = 1%R.
Proof.
  induction 1 as [d D|cs Wc IH ND|div cs r2i r2c D F SU NE Wc IH O|div b cs r2i r2c D HS Wb IHb NI ND Wc IH O];
    intros S E.
  - cbn. rewrite (E (dist_o d)); [reflexivity|]. now left.
  - cbn. apply rprod_ones. intros p Hp. apply in_map_iff in Hp. destruct Hp as (c & <- & Hc).
    apply IH; auto. intros k Hk. apply E. cbn. apply in_flat_map. eauto.
  - assert (W : wf (CMix false div (CFinArr (dist_o div) cs r2i) r2c)) by (constructor; auto).
    destruct (wf_mix _ _ _ _ W) as (_ & _ & A & NI & CO & CE & _).
    cbn [dens]. rewrite (E (dist_o div)) by now left. rewrite SU.
    rewrite <- (support_sum div _ D SU). apply rsum_ext. intros z Hz.
    rewrite <- (Rmult_1_r (cell_density div (vz z))) at 2. f_equal.
    change (dens (CFinArr (dist_o div) cs r2i) ((dist_o div, vz z) :: S) = 1%R).
    rewrite (arr_dens (dist_o div) _ _ z); auto.
    2:{ cbn. destruct (eq_dec (dist_o div) (dist_o div)); congruence. }
    destruct (CE z) as [c Hc]; [right; eauto|]. rewrite Hc. assert (Ic := comp_In _ _ _ Hc).
    destruct (CO c Ic) as [_ Oc]. apply IH; auto.
    intros k Hk. rewrite Oc in Hk. cbn. destruct (eq_dec k (dist_o div)) as [->|]; [contradiction|].
    apply E. now right.
  - assert (W : wf (CMix true div (CFlexArr (dist_o div) b cs r2i) r2c)) by (constructor; auto).
    destruct (wf_mix _ _ _ _ W) as (_ & (K & SU) & A & NI' & CO & CE & _).
    cbn [dens]. rewrite (E (dist_o div)) by now left. rewrite SU.
    rewrite <- (support_sum div _ D SU). apply rsum_ext. intros z Hz.
    rewrite <- (Rmult_1_r (cell_density div (vz z))) at 2. f_equal.
    change (dens (CFlexArr (dist_o div) b cs r2i) ((dist_o div, vz z) :: S) = 1%R).
    rewrite (arr_dens (dist_o div) _ _ z); auto.
    2:{ cbn. destruct (eq_dec (dist_o div) (dist_o div)); congruence. }
    destruct (CE z) as [c Hc]; [now left|]. rewrite Hc. assert (Ic := comp_In _ _ _ Hc).
    destruct (CO c Ic) as [_ Oc].
    assert (EK : forall k, In k (outputs c) -> lookup k ((dist_o div, vz z) :: S) = None).
    { intros k Hk. rewrite Oc in Hk. cbn. destruct (eq_dec k (dist_o div)) as [->|]; [contradiction|].
      apply E. now right. }
    destruct Ic as [<-|Ic]; [apply IHb; auto|].
    apply in_map_iff in Ic. destruct Ic as ([k c'] & <- & Hk). cbn in *. eapply IH; eauto.
Qed.

(** ** Rows *)

Lemma NoDup_app_parts : forall {A} (l l' : list A), NoDup (l ++ l') -> NoDup l /\ NoDup l'.
Proof.
  induction l as [|x l IH]; cbn; intros l' H; [split; [constructor|auto]|].
  inversion H; subst. destruct (IH l' H3). split; auto. constructor; auto.
  intros Hx. apply H2. apply in_or_app. now left.
Qed.

Lemma disjoint_parts : forall T C, disjoint_rows T C ->
  NoDup (keys T) /\ NoDup (keys C) /\ forall k, In k (keys T) -> ~ In k (keys C).
Proof.
  intros T C H. unfold disjoint_rows, keys in H. rewrite map_app in H. split; [|split].
  - apply NoDup_app_parts in H. apply H.
  - apply NoDup_app_parts in H. apply H.
  - intros k Hk Hk'. induction T as [|p T IH]; [destruct Hk|]. cbn in H. inversion H; subst.
    destruct Hk as [<-|Hk]; [|auto]. apply H2. apply in_or_app. now right.
Qed.

Lemma interd_single : forall o (S : row), NoDup (keys S) ->
  interd [o] S = match lookup o S with Some x => [(o, x)] | None => [] end.
Proof.
  intros o S. induction S as [|[k x] S IH]; intros ND; [reflexivity|].
  cbn in ND. inversion ND as [|? ? NI ND']; subst.
  assert (E : interd [o] ((k, x) :: S) = if memb k [o] then (k, x) :: interd [o] S else interd [o] S) by reflexivity.
  rewrite E, IH by exact ND'. clear E IH. cbn [memb lookup].
  destruct (eq_dec k o) as [->|NE].
  - destruct (eq_dec o o); [|congruence]. f_equal.
    destruct (lookup o S) eqn:L; [|reflexivity]. apply lookup_Some_keys in L. contradiction.
  - destruct (eq_dec o k); [congruence|]. reflexivity.
Qed.

Lemma interd_nil_lookup : forall l (S : row), interd l S = [] <-> forall k, In k l -> lookup k S = None.
Proof.
  intros l S. split.
  - intros H k Hk. assert (L := lookup_interd l S k). rewrite H in L. cbn in L.
    assert (M : memb k l = true) by (apply memb_In; exact Hk). rewrite M in L. auto.
  - intros H. destruct (interd l S) as [|[k x] r] eqn:E; [reflexivity|].
    assert (Hi : In (k, x) (interd l S)) by (rewrite E; now left). apply In_interd in Hi. destruct Hi as [Hi Hl].
    specialize (H k Hl). apply lookup_None in H. exfalso. apply H. apply (in_map fst) in Hi. exact Hi.
Qed.

Lemma dens_interd : forall c S, wf c -> dens c (interd (outputs c) S) = dens c S.
Proof.
  intros c S W. apply dens_ext; auto. intros k Hk. rewrite lookup_interd.
  replace (memb k (outputs c)) with true; [reflexivity|]. symmetry. apply memb_In. exact Hk.
Qed.

Lemma interd_app : forall l (T C : row), interd l (T ++ C) = interd l T ++ interd l C.
Proof. intros. unfold interd. apply filter_app. Qed.

Lemma disjoint_interd : forall l T C, disjoint_rows T C -> disjoint_rows (interd l T) (interd l C).
Proof. intros l T C H. unfold disjoint_rows in *. rewrite <- interd_app. apply NoDup_keys_interd. exact H. Qed.

Lemma disjoint_nil : forall T : row, NoDup (keys T) -> disjoint_rows T [].
Proof. intros. unfold disjoint_rows. rewrite app_nil_r. auto. Qed.

(** ** Labels *)

Lemma each_map : forall {A B} (f : A -> B) (P : B -> Prop) l, each P (map f l) <-> each (fun x => P (f x)) l.
Proof. induction l; cbn; tauto. Qed.

Lemma labelled_ext : forall c S S', (forall k, lookup k S = lookup k S') -> labelled c S -> labelled c S'.
Proof.
  intros c S S' E. induction c as [d|cs IH|ix cs m IH|ix b cs m IHb IH|flex div arr m IH] using cgpm_ind_In; cbn [labelled].
  - destruct d; auto; rewrite E; auto.
  - rewrite !each_In. auto.
  - rewrite !each_In. auto.
  - rewrite !each_In. intros [Hb H]. split; auto. intros [k c] Hc. specialize (H _ Hc). cbn in *. eauto.
  - intros [H1 H2]. split; auto. intros x. rewrite <- E. auto.
Qed.

Lemma labelled_app : forall c T C, labelled c T -> labelled c C -> labelled c (T ++ C).
Proof.
  intros c T C. induction c as [d|cs IH|ix cs m IH|ix b cs m IHb IH|flex div arr m IH] using cgpm_ind_In; cbn [labelled].
  - destruct d; auto. rewrite lookup_app. destruct (lookup _ T); auto.
  - rewrite !each_In. auto.
  - rewrite !each_In. auto.
  - rewrite !each_In. intros [Hb H] [Hb' H']. split; auto.
    intros [k c] Hc. specialize (H _ Hc). specialize (H' _ Hc). cbn in *. eauto.
  - intros [H1 H2] [H3 H4]. split; auto. intros x. rewrite lookup_app. destruct (lookup (dist_o div) T) eqn:E; auto.
Qed.

Lemma labelled_nil : forall c, labelled c [].
Proof.
  intros c. induction c as [d|cs IH|ix cs m IH|ix b cs m IHb IH|flex div arr m IH] using cgpm_ind_In; cbn [labelled].
  - destruct d; auto. discriminate.
  - rewrite !each_In. auto.
  - rewrite !each_In. auto.
  - rewrite !each_In. split; auto. intros [k c] Hc. cbn. eauto.
  - split; auto. discriminate.
Qed.

Lemma labelled_sub : forall c S S', (forall k x, lookup k S' = Some x -> lookup k S = Some x) -> labelled c S -> labelled c S'.
Proof.
  intros c S S' E. induction c as [d|cs IH|ix cs m IH|ix b cs m IHb IH|flex div arr m IH] using cgpm_ind_In; cbn [labelled].
  - destruct d; cbn [labelled]; auto.
  - rewrite !each_In. auto.
  - rewrite !each_In. auto.
  - rewrite !each_In. intros [Hb H]. split; auto. intros [k c] Hc. specialize (H _ Hc). cbn in *. eauto.
  - intros [H1 H2]. split; auto.
Qed.

Lemma labelled_interd : forall c l S, labelled c S -> labelled c (interd l S).
Proof.
  intros c l S. apply labelled_sub. intros k x. rewrite lookup_interd. destruct (memb k l); congruence.
Qed.

(** ** Products of primitives *)

Lemma dist_logpdf_one : forall d rid T C, dinv d ->
  (In (dist_o d) (keys T) -> unrecorded rid (dist_data d)) -> disjoint_rows T C ->
  labelled (CDist d) T ->
  logpdf_one [dist_o d] [] (dist_logpdf d) rid T C [] = Ok (xlog (dens (CDist d) T)).
Proof.
  intros d rid T C D U DJ LB. destruct (disjoint_parts _ _ DJ) as (NT & NC & X).
  unfold logpdf_one. rewrite !interd_single by auto. cbn [dens].
  destruct (lookup (dist_o d) T) as [x|] eqn:L.
  - assert (LC : lookup (dist_o d) C = None).
    { apply lookup_None. apply X. eapply lookup_Some_keys; eauto. }
    rewrite LC. apply cell_logpdf; auto; [|destruct d; cbn in *; auto; congruence].
    apply U. eapply lookup_Some_keys; eauto.
  - rewrite xlog_1. reflexivity.
Qed.

Lemma interd_sub : forall l l' (S : row), (forall k, In k l -> In k l') -> interd l (interd l' S) = interd l S.
Proof.
  intros l l' S H. induction S as [|[k x] S IH]; [reflexivity|].
  assert (E : forall l (S : row), interd l ((k, x) :: S) = if memb k l then (k, x) :: interd l S else interd l S)
    by reflexivity.
  rewrite !E. destruct (memb k l') eqn:M'.
  - rewrite E, IH. reflexivity.
  - rewrite IH. destruct (memb k l) eqn:M; [|reflexivity].
    exfalso. apply memb_In in M. apply H in M. apply memb_In in M. congruence.
Qed.

Lemma rprod_mul : forall {A} (f g : A -> R) l, rprod (map (fun x => f x * g x)%R l) = (rprod (map f l) * rprod (map g l))%R.
Proof.
  induction l as [|x l IH]; [cbn; lra|].
  change (f x * g x * rprod (map (fun x => f x * g x) l) = (f x * rprod (map f l)) * (g x * rprod (map g l)))%R.
  rewrite IH. ring.
Qed.

Lemma rprod_pos : forall l, (forall p, In p l -> (0 <= p)%R) -> (0 < rprod l)%R -> forall p, In p l -> (0 < p)%R.
Proof.
  induction l as [|x l IH]; intros H P p Hp; [destruct Hp|].
  change (0 < x * rprod l)%R in P.
  assert (Hx : (0 <= x)%R) by (apply H; now left).
  assert (Hl : (0 <= rprod l)%R) by (apply rprod_nonneg; intros; apply H; now right).
  assert (0 < x)%R by (destruct Hx as [|<-]; [auto|lra]).
  assert (0 < rprod l)%R by (destruct Hl as [|E]; [auto|rewrite <- E in P; lra]).
  destruct Hp as [<-|Hp]; auto. apply IH; auto. intros; apply H; now right.
Qed.

(** What a component of a mixture must answer. *)
Definition answers (c : cgpm) (rid : option Z) (T C : row) : Prop :=
  exists t, (0 <= t)%R /\ (t * dens c C = dens c (T ++ C))%R /\
    logpdf_one (outputs c) [] (logpdf c) rid T C [] = Ok (xlog t).

Lemma prim_factors : forall d T C, disjoint_rows T C ->
  dens (CDist d) (T ++ C) = (dens (CDist d) T * dens (CDist d) C)%R.
Proof.
  intros d T C DJ. destruct (disjoint_parts _ _ DJ) as (NT & NC & X). cbn. rewrite lookup_app.
  destruct (lookup (dist_o d) T) as [x|] eqn:L.
  - replace (lookup (dist_o d) C) with (@None val); [ring|]. symmetry. apply lookup_None. apply X.
    eapply lookup_Some_keys; eauto.
  - ring.
Qed.

Lemma flat_factors : forall c T C, flat c -> disjoint_rows T C -> dens c (T ++ C) = (dens c T * dens c C)%R.
Proof.
  intros c T C F DJ. destruct F as [d|ds]; [apply prim_factors; auto|]. cbn [dens]. rewrite !map_map.
  rewrite <- rprod_mul. f_equal. apply map_ext. intros d. apply prim_factors. exact DJ.
Qed.

Lemma keys_interd_sub : forall l (S : row) k, In k (keys (interd l S)) -> In k (keys S).
Proof.
  intros l S k H. unfold keys in *. apply in_map_iff in H. destruct H as ([k' x] & <- & H).
  apply In_interd in H. destruct H as [H _]. apply (in_map fst) in H. exact H.
Qed.

Lemma leaves_ds : forall ds, leaves (CProd (map CDist ds)) = ds.
Proof. intros. cbn. induction ds; cbn; f_equal; auto. Qed.

Lemma flat_answers_free : forall c rid T C, flat c -> wf c ->
  (forall d, In d (leaves c) -> In (dist_o d) (keys T) -> unrecorded rid (dist_data d)) ->
  labelled c T -> disjoint_rows T C ->
  logpdf_one (outputs c) [] (logpdf c) rid T C [] = Ok (xlog (dens c T)).
Proof.
  intros c rid T C F W U LB DJ. destruct F as [d|ds].
  - inversion W; subst. apply dist_logpdf_one; auto. apply U. now left.
  - inversion W as [|? Wc ND| |]; subst. rewrite leaves_ds in U. cbn [labelled] in LB. rewrite each_map in LB.
    rewrite each_In in LB.
    assert (D : forall d, In d ds -> dinv d).
    { intros d Hd. assert (X := Wc _ (in_map CDist _ _ Hd)). inversion X; auto. }
    unfold logpdf_one. destruct (interd (outputs (CProd (map CDist ds))) T) as [|p l] eqn:E.
    + rewrite dens_none; [rewrite xlog_1; reflexivity|auto|]. apply interd_nil_lookup. exact E.
    + rewrite <- E. clear E p l. cbn [interd filter logpdf]. unfold prod_logpdf. rewrite !map_map.
      rewrite (oseq_map_ok _ (fun d => xlog (dens (CDist d) T))).
      * cbn [omap dens]. f_equal. rewrite map_map. rewrite <- (map_map (fun d => dens (CDist d) T) xlog).
        apply xsum_xlog. intros p Hp. apply in_map_iff in Hp. destruct Hp as (d & <- & Hd).
        apply dens_nonneg. constructor. auto.
      * intros d Hd. cbn [outputs inputs logpdf].
        rewrite dist_logpdf_one; auto using disjoint_interd, labelled_interd.
        -- f_equal. f_equal. apply dens_ext; [constructor; auto|]. intros k [<-|[]]. rewrite lookup_interd.
           replace (memb (dist_o d) (flat_map outputs (map CDist ds))) with true; [reflexivity|].
           symmetry. apply memb_In. apply in_flat_map. exists (CDist d). split; [|now left].
           apply in_map. exact Hd.
        -- intros Hk. apply (U d Hd). eapply keys_interd_sub; eauto.
Qed.

Lemma flat_answers : forall c rid T C, flat c -> wf c -> unknown c rid -> labelled c T -> disjoint_rows T C ->
  logpdf_one (outputs c) [] (logpdf c) rid T C [] = Ok (xlog (dens c T)).
Proof.
  intros c rid T C F W U LB DJ. apply flat_answers_free; auto. intros d Hd _. destruct F as [d'|ds].
  - destruct Hd as [<-|[]]. exact U.
  - rewrite leaves_ds in Hd. cbn [unknown] in U. rewrite each_map, each_In in U. apply (U d Hd).
Qed.

(** ** Row mixtures *)

Lemma mix_one_eq : forall ix ox arr rid T C z c, is_array ix arr -> component arr z = Some c ->
  mix_logpdf_one ix ox (logpdf arr) rid T C [] (vz z) = logpdf_one ox [] (logpdf c) rid T C [].
Proof.
  intros ix ox arr rid T C z c A E. unfold mix_logpdf_one, logpdf_one. cbn [interd filter].
  replace (merged [] [(ix, vz z)]) with [(ix, vz z)] by reflexivity.
  destruct (interd ox T); [reflexivity|]. apply arr_logpdf; auto.
Qed.

Definition q_of (div : dist) (arr : cgpm) (z : Z) (S : row) : R := dens arr ((dist_o div, vz z) :: S).

Lemma lookup_cons_eq : forall {V} (k : Z) (x : V) d, lookup k ((k, x) :: d) = Some x.
Proof. intros. cbn. destruct (eq_dec k k); congruence. Qed.

Lemma lookup_cons_neq : forall {V} (k k' : Z) (x : V) d, k <> k' -> lookup k ((k', x) :: d) = lookup k d.
Proof. intros. cbn. destruct (eq_dec k k'); congruence. Qed.

Section Mix.
  Variables (flex : bool) (div : dist) (arr : cgpm) (r2c : dict Z val) (rid : option Z).
  Hypothesis W : wf (CMix flex div arr r2c).
  Hypothesis UN : unknown (CMix flex div arr r2c) rid.

  Let ix := dist_o div.
  Let p z := cell_density div (vz z).
  Let q := q_of div arr.
  Let label z := flex = true \/ exists K, dist_support div = Ok K /\ In z K.

  Lemma unknown_comp : forall c, In c (components arr) -> unknown c rid.
  Proof.
    assert (U : unknown arr rid) by apply UN. clear UN W. intros c Hc.
    destruct arr as [| |i cs m|i b cs m|]; try contradiction; cbn [unknown components] in U, Hc.
    - rewrite each_In in U. auto.
    - destruct U as [Ub U]. destruct Hc as [<-|Hc]; [auto|]. rewrite each_In in U.
      unfold values in Hc. apply in_map_iff in Hc. destruct Hc as ([k c'] & <- & Hk). apply (U (k, c')). exact Hk.
  Qed.

  Lemma labelled_comp : forall S c, labelled arr S -> In c (components arr) -> labelled c S.
  Proof.
    clear. intros S c U Hc.
    destruct arr as [| |i cs m|i b cs m|]; try contradiction; cbn [labelled components] in U, Hc.
    - rewrite each_In in U. auto.
    - destruct U as [Ub U]. destruct Hc as [<-|Hc]; [auto|]. rewrite each_In in U.
      unfold values in Hc. apply in_map_iff in Hc. destruct Hc as ([k c'] & <- & Hk). apply (U (k, c')). exact Hk.
  Qed.

  Lemma q_comp : forall z c S, component arr z = Some c -> q z S = dens c S.
  Proof.
    intros z c S E. destruct (wf_mix _ _ _ _ W) as (D & (K & SU) & A & NI & CO & CE & _).
    unfold q, q_of. rewrite (arr_dens ix arr _ z A (lookup_cons_eq _ _ _)), E.
    destruct (CO c (comp_In _ _ _ E)) as [Wc Oc]. apply dens_ext; auto.
    intros k Hk. apply lookup_cons_neq. intros ->. rewrite Oc in Hk. contradiction.
  Qed.

  Lemma arr_q : forall z S, lookup ix S = Some (vz z) -> dens arr S = q z S.
  Proof.
    intros z S L. destruct (wf_mix _ _ _ _ W) as (D & (K & SU) & A & NI & CO & CE & _).
    unfold q, q_of. rewrite (arr_dens ix arr _ z A (lookup_cons_eq _ _ _)), (arr_dens ix arr S z A L).
    destruct (component arr z) as [c|] eqn:E; [|reflexivity].
    destruct (CO c (comp_In _ _ _ E)) as [Wc Oc]. apply dens_ext; auto.
    intros k Hk. symmetry. apply lookup_cons_neq. intros ->. rewrite Oc in Hk. contradiction.
  Qed.

  Lemma q_nonneg : forall z S, (0 <= q z S)%R.
  Proof.
    intros z S. destruct (wf_mix _ _ _ _ W) as (D & _ & A & _ & CO & _).
    unfold q, q_of. apply arr_dens_nonneg.
    - intros c Hc S'. apply dens_nonneg. apply CO. exact Hc.
    - destruct arr; try contradiction; exact I.
  Qed.

  Lemma q_nil : forall z, label z -> q z [] = 1%R.
  Proof.
    intros z LZ. destruct (wf_mix _ _ _ _ W) as (D & (K & SU) & A & NI & CO & CE & _).
    destruct (CE z LZ) as [c E]. rewrite (q_comp z c) by auto.
    apply dens_none; [|reflexivity]. apply CO. eapply comp_In; eauto.
  Qed.

  Definition all_answer T C := forall c, In c (components arr) -> answers c rid T C.

  Lemma mix_one : forall T C, all_answer T C -> exists t : Z -> R,
    (forall z, label z -> (0 <= t z)%R /\ (t z * q z C = q z (T ++ C))%R /\
       mix_logpdf_one ix (outputs arr) (logpdf arr) rid T C [] (vz z) = Ok (xlog (t z))).
  Proof.
    intros T C AN. destruct (wf_mix _ _ _ _ W) as (D & (K & SU) & A & NI & CO & CE & _).
    exists (fun z => match component arr z with
                     | Some c => match logpdf_one (outputs c) [] (logpdf c) rid T C [] with
                                 | Ok r => xexp r | Err _ => 0 end
                     | None => 0 end)%R.
    intros z LZ. destruct (CE z LZ) as [c E]. rewrite E.
    destruct (AN c (comp_In _ _ _ E)) as (t & t0 & tC & tL). rewrite tL, xexp_xlog by exact t0.
    split; [exact t0|]. split; [rewrite !(q_comp z c) by auto; exact tC|].
    rewrite (mix_one_eq _ _ _ _ _ _ _ c A E). destruct (CO c (comp_In _ _ _ E)) as [Wc Oc].
    rewrite <- Oc. exact tL.
  Qed.

  Lemma mix_one_nil : forall z T, all_answer T [] -> label z ->
    mix_logpdf_one ix (outputs arr) (logpdf arr) rid T [] [] (vz z) = Ok (xlog (q z T)).
  Proof.
    intros z T AN LZ. destruct (mix_one T [] AN) as [t H]. destruct (H z LZ) as (t0 & tC & tL).
    rewrite q_nil, Rmult_1_r, app_nil_r in tC by exact LZ. rewrite <- tC. exact tL.
  Qed.

  Lemma mix_prior : forall z, dist_logpdf div rid [(ix, vz z)] [] [] = Ok (xlog (p z)).
  Proof.
    intros z. destruct (wf_mix _ _ _ _ W) as (D & _). destruct UN as (U & _).
    apply cell_logpdf; auto using crp_missing_vz.
  Qed.

  Lemma dens_mix_none : forall K S, dist_support div = Ok K -> lookup ix S = None ->
    dens (CMix flex div arr r2c) S = rsum (map (fun z => p z * q z S)%R K).
  Proof. clear. intros K S SU L. cbn [dens]. fold ix. rewrite L, SU. reflexivity. Qed.

  Lemma dens_mix_some : forall z S, lookup ix S = Some (vz z) ->
    dens (CMix flex div arr r2c) S = (p z * q z S)%R.
  Proof. intros z S L. cbn [dens]. fold ix. rewrite L. rewrite (arr_q z S L). reflexivity. Qed.

  Lemma p_nonneg : forall z, (0 <= p z)%R.
  Proof. intros. destruct (wf_mix _ _ _ _ W) as (D & _). apply cell_nonneg. exact D. Qed.

  Lemma pq_nonneg : forall z S, (0 <= p z * q z S)%R.
  Proof. intros. apply Rmult_le_pos; auto using p_nonneg, q_nonneg. Qed.

  (** The marginal path, whatever the density of the constraints. *)
  Lemma mix_marg : forall K T C, dist_support div = Ok K -> all_answer T C -> all_answer C [] ->
    lookup ix T = None -> lookup ix C = None ->
    mix_logpdf_marg div (outputs arr) (logpdf arr) rid T C [] =
    Ok (if Rlt_dec 0 (dens (CMix flex div arr r2c) C)
        then xlog (dens (CMix flex div arr r2c) (T ++ C) / dens (CMix flex div arr r2c) C) else XNan).
  Proof.
    intros K T C SU AT AC LT LC.
    destruct (wf_mix _ _ _ _ W) as (D & _).
    rewrite (dens_mix_none K C SU LC), (dens_mix_none K (T ++ C) SU) by (rewrite lookup_app, LT; exact LC).
    unfold mix_logpdf_marg. rewrite SU. cbn [obind]. fold ix.
    assert (LK : forall z, In z K -> label z) by (intros; right; eauto).
    rewrite (oseq_map_ok _ (fun z => xlog (p z))) by (intros; apply mix_prior). cbn [obind].
    rewrite (oseq_map_ok _ (fun z => xlog (q z C))) by (intros; apply mix_one_nil; auto).
    cbn [obind]. destruct (mix_one T C AT) as [t Ht].
    rewrite (oseq_map_ok _ (fun z => xlog (t z))) by (intros z Hz; apply Ht; auto).
    cbn [obind]. f_equal. rewrite xadds_map.
    rewrite (map_ext_in (fun z => xadd (xlog (p z)) (xlog (q z C))) (fun z => xlog (p z * q z C))) by (intros; apply xlog_mul; auto using p_nonneg, q_nonneg).
    set (s := rsum (map (fun z => p z * q z C)%R K)).
    assert (LS : logsumexp (map (fun z => xlog (p z * q z C)) K) = xlog s).
    { rewrite <- (map_map (fun z => p z * q z C)%R xlog). apply logsumexp_xlog.
      intros r Hr. apply in_map_iff in Hr. destruct Hr as (z & <- & _). apply pq_nonneg. }
    unfold log_normalize. rewrite LS, map_map, xadds_map.
    destruct (Rlt_dec 0 s) as [P|N].
    - assert (HS : forall z, (0 <= p z * q z C / s)%R).
      { intros z. apply Rmult_le_pos; [apply pq_nonneg|]. apply Rlt_le, Rinv_0_lt_compat. exact P. }
      rewrite (map_ext_in _ (fun z => xlog (t z * (p z * q z C / s)))).
      2:{ intros z Hz. rewrite xlog_sub by auto using pq_nonneg.
          apply xlog_mul; auto. apply Ht. auto. }
      rewrite <- (map_map (fun z => t z * (p z * q z C / s))%R xlog).
      rewrite logsumexp_xlog.
      2:{ intros r Hr. apply in_map_iff in Hr. destruct Hr as (z & <- & Hz).
          apply Rmult_le_pos; auto. apply Ht. auto. }
      f_equal. rewrite <- rsum_div. apply rsum_ext. intros z Hz.
      destruct (Ht z (LK z Hz)) as (_ & <- & _). unfold Rdiv. ring.
    - assert (S0 : s = 0%R).
      { apply Rle_antisym; [lra|]. apply rsum_nonneg. intros r Hr. apply in_map_iff in Hr.
        destruct Hr as (z & <- & _). apply pq_nonneg. }
      rewrite S0, xlog_0. apply logsumexp_nan.
      assert (KN : K <> []).
      { intros ->. assert (E := support_sum div [] D SU). cbn in E. lra. }
      destruct K as [|z K]; [congruence|]. left.
      assert (Z0 : (p z * q z C = 0)%R).
      { assert (Hz : (p z * q z C <= s)%R).
        { apply rsum_ge; [|now left]. intros r Hr. apply in_map_iff in Hr.
          destruct Hr as (z' & <- & _). apply pq_nonneg. }
        rewrite S0 in Hz. apply Rle_antisym; [exact Hz|]. apply pq_nonneg. }
      rewrite Z0, xlog_0. unfold xlog. destruct (Rlt_dec 0 (t z)); reflexivity.
  Qed.

  Lemma not_recorded : (match rid with None => None | Some r => lookup r r2c end) = None.
  Proof.
    destruct UN as (_ & U & _). destruct rid as [r|]; [|reflexivity]. cbn in U.
    apply lookup_None. exact U.
  Qed.

  (** All paths of logpdf, for constraints of positive density. *)
  Lemma mix_density : forall T C, disjoint_rows T C -> labelled (CMix flex div arr r2c) (T ++ C) ->
    all_answer T C -> all_answer C [] -> all_answer (T ++ C) [] ->
    (0 < dens (CMix flex div arr r2c) C)%R ->
    logpdf (CMix flex div arr r2c) rid T C [] =
    Ok (xlog (dens (CMix flex div arr r2c) (T ++ C) / dens (CMix flex div arr r2c) C)).
  Proof.
    intros T C DJ LB AT AC ATC P. destruct (disjoint_parts _ _ DJ) as (NT & NC & X).
    destruct (wf_mix _ _ _ _ W) as (D & (K & SU) & A & NI & CO & CE & _).
    assert (NR := not_recorded).
    assert (AN : all_answer [] []).
    { intros c Hc. destruct (CO c Hc) as [Wc _]. exists 1%R. cbn [app]. rewrite dens_none by auto.
      split; [lra|]. split; [lra|]. rewrite xlog_1. reflexivity. }
    assert (ND : dens (CMix flex div arr r2c) [] = 1%R) by (apply dens_none; auto).
    cbn [logpdf]. unfold mix_logpdf. rewrite NR. fold ix.
    destruct LB as [LB _]. fold ix in LB.
    assert (MG : merged T C = T ++ C) by (apply merged_disj; auto; intros k Hk Hk'; exact (X k Hk' Hk)).
    destruct (lookup ix T) as [x|] eqn:LTx.
    - assert (LCx : lookup ix C = None).
      { apply lookup_None. apply X. eapply lookup_Some_keys; eauto. }
      assert (LTC : lookup ix (T ++ C) = Some x) by (rewrite lookup_app, LTx; reflexivity).
      destruct (LB x LTC) as (z & -> & LZ). fold (label z) in LZ.
      rewrite mix_prior, MG. cbn [obind].
      rewrite mix_one_nil by auto. cbn [obind].
      rewrite (dens_mix_some z (T ++ C) LTC).
      assert (E2 : (match C with [] => Ok (Fin 0%R) | _ => mix_logpdf0 div (outputs arr) (logpdf arr) rid C [] end)
                   = Ok (xlog (dens (CMix flex div arr r2c) C))).
      { destruct C as [|p0 C]; [rewrite ND, xlog_1; reflexivity|].
        unfold mix_logpdf0. fold ix. rewrite LCx.
        rewrite (mix_marg K (p0 :: C) []) by auto.
        rewrite ND, app_nil_r. destruct (Rlt_dec 0 1); [|lra]. f_equal. f_equal. field. }
      rewrite E2. cbn [obind]. f_equal. rewrite xlog_mul by auto using p_nonneg, q_nonneg.
      apply xlog_sub; auto using pq_nonneg.
    - destruct (lookup ix C) as [x|] eqn:LCx.
      + assert (LTC : lookup ix (T ++ C) = Some x) by (rewrite lookup_app, LTx; exact LCx).
        destruct (LB x LTC) as (z & -> & LZ). fold (label z) in LZ.
        rewrite SU. cbn [obind]. rewrite (dens_mix_some z C LCx) in *.
        assert (PP : (0 < p z)%R).
        { destruct (p_nonneg z) as [|E0]; [auto|]. rewrite <- E0 in P. lra. }
        assert (PQ : (0 < q z C)%R).
        { destruct (q_nonneg z C) as [|E0]; [auto|]. rewrite <- E0 in P. lra. }
        assert (Iz : In z K) by (apply (support_pos div K z D SU); exact PP).
        assert (IS : in_support (vz z) K = true) by (apply in_support_spec; exact Iz). rewrite IS, MG.
        rewrite !mix_one_nil by auto. cbn [obind]. f_equal.
        rewrite xlog_sub by auto using q_nonneg. f_equal.
        rewrite (dens_mix_some z (T ++ C) LTC). field. split; lra.
      + rewrite (mix_marg K T C) by auto.
        destruct (Rlt_dec 0 (dens (CMix flex div arr r2c) C)); [reflexivity|lra].
  Qed.
End Mix.

(** ** Every model *)

Lemma solid_nil : forall c, wf c -> solid c [].
Proof.
  induction 1 as [d D|cs Wc IH ND|div cs r2i r2c D F SU NE Wc IH O|div b cs r2i r2c D HS Wb IHb NI ND Wc IH O]; cbn [solid].
  - exact I.
  - rewrite each_In. auto.
  - rewrite each_In. intros c Hc. split; auto. right. rewrite dens_none by auto. lra.
  - rewrite each_In. split; [split; auto; right; rewrite dens_none by auto; lra|].
    intros [k c] Hc. split; eauto. right. rewrite dens_none by eauto. lra.
Qed.

Lemma solid_ext : forall c, wf c -> forall S S', (forall k, In k (outputs c) -> lookup k S = lookup k S') ->
  solid c S -> solid c S'.
Proof.
  induction 1 as [d D|cs Wc IH ND|div cs r2i r2c D F SU NE Wc IH O|div b cs r2i r2c D HS Wb IHb NI ND Wc IH O];
    intros S S' E.
  - auto.
  - cbn [solid]. rewrite !each_In. intros H c Hc. apply (IH c Hc S S'); auto. intros k Hk. apply E. cbn. apply in_flat_map. eauto.
  - assert (W : wf (CMix false div (CFinArr (dist_o div) cs r2i) r2c)) by (constructor; auto).
    destruct (wf_mix _ _ _ _ W) as (_ & _ & A & NI & CO & CE & _).
    cbn [solid]. rewrite !each_In. intros H c Hc. destruct (H c Hc) as [H1 H2].
    destruct (CO c Hc) as [_ Oc].
    assert (E' : forall k, In k (outputs c) -> lookup k S = lookup k S').
    { intros k Hk. apply E. right. rewrite <- Oc. exact Hk. }
    split; [|apply (IH c Hc S S'); auto]. rewrite <- (dens_ext c (Wc c Hc) S S' E'). exact H1.
  - assert (W : wf (CMix true div (CFlexArr (dist_o div) b cs r2i) r2c)) by (constructor; auto).
    destruct (wf_mix _ _ _ _ W) as (_ & _ & A & NI' & CO & CE & _).
    assert (E' : forall c, In c (components (CFlexArr (dist_o div) b cs r2i)) ->
                 forall k, In k (outputs c) -> lookup k S = lookup k S').
    { intros c Hc k Hk. apply E. right. destruct (CO c Hc) as [_ Oc]. rewrite <- Oc. exact Hk. }
    cbn [solid]. rewrite !each_In. intros [[Hb1 Hb2] H]. split.
    + rewrite <- (dens_ext b Wb S S' (E' b (or_introl eq_refl))). split; auto.
      apply (IHb S S'); auto. apply E'; now left.
    + intros [k c] Hk. destruct (H (k, c) Hk) as [H1 H2].
      assert (Ic : In c (components (CFlexArr (dist_o div) b cs r2i))) by (right; exact (in_map snd _ _ Hk)).
      rewrite <- (dens_ext c (Wc _ _ Hk) S S' (E' c Ic)). split; auto. apply (IH _ _ Hk S S'); auto. apply E'. exact Ic.
Qed.

Lemma wf_comp : forall flex div arr r2c c, wf (CMix flex div arr r2c) -> In c (components arr) -> wf c.
Proof. intros. destruct (wf_mix _ _ _ _ H) as (_ & _ & _ & _ & CO & _). apply CO. auto. Qed.

Lemma solid_comp : forall arr S c, solid arr S -> In c (components arr) ->
  (flat c \/ (0 < dens c S)%R) /\ solid c S.
Proof.
  intros arr S c U Hc.
  destruct arr as [| |i cs m|i b cs m|]; try contradiction; cbn [solid components] in U, Hc.
  - rewrite each_In in U. auto.
  - destruct U as [Ub U]. destruct Hc as [<-|Hc]; [auto|]. rewrite each_In in U.
    unfold values in Hc. apply in_map_iff in Hc. destruct Hc as ([k c'] & <- & Hk). apply (U (k, c')). exact Hk.
Qed.

Lemma labelled_split : forall c T C, disjoint_rows T C -> labelled c (T ++ C) -> labelled c T /\ labelled c C.
Proof.
  intros c T C DJ L. destruct (disjoint_parts _ _ DJ) as (NT & NC & X). split; apply (labelled_sub c (T ++ C)); auto.
  - intros k x H. rewrite lookup_app, H. reflexivity.
  - intros k x H. rewrite lookup_app. destruct (lookup k T) eqn:E; [|exact H].
    apply lookup_Some_keys in E. apply lookup_Some_keys in H. exfalso. exact (X k E H).
Qed.

Definition answers_all (c : cgpm) : Prop := forall rid T C,
  unknown c rid -> labelled c (T ++ C) -> disjoint_rows T C -> solid c C -> (0 < dens c C)%R ->
  logpdf_one (outputs c) [] (logpdf c) rid T C [] = Ok (xlog (dens c (T ++ C) / dens c C)).

Lemma answers_of : forall c rid T C, wf c -> answers_all c -> unknown c rid -> labelled c (T ++ C) ->
  disjoint_rows T C -> solid c C -> flat c \/ (0 < dens c C)%R -> answers c rid T C.
Proof.
  intros c rid T C W AA U LB DJ SD [F|P].
  - exists (dens c T). split; [apply dens_nonneg; auto|]. split; [symmetry; apply flat_factors; auto|].
    apply flat_answers; auto. apply (labelled_split c T C DJ LB).
  - exists (dens c (T ++ C) / dens c C)%R. split.
    { apply Rmult_le_pos; [apply dens_nonneg; auto|]. apply Rlt_le, Rinv_0_lt_compat. exact P. }
    split; [field; lra|]. apply AA; auto.
Qed.

Lemma all_answer_of : forall flex div arr r2c rid T C, wf (CMix flex div arr r2c) ->
  (forall c, In c (components arr) -> answers_all c) ->
  unknown (CMix flex div arr r2c) rid -> labelled arr (T ++ C) -> disjoint_rows T C -> solid arr C ->
  all_answer arr rid T C.
Proof.
  intros flex div arr r2c rid T C W AA U LB DJ SD c Hc. destruct (solid_comp arr C c SD Hc) as [S1 S2].
  apply answers_of; auto.
  - eapply wf_comp; eauto.
  - eapply unknown_comp; eauto.
  - eapply labelled_comp; eauto.
Qed.

Lemma mix_answers : forall flex div arr r2c, wf (CMix flex div arr r2c) ->
  (forall c, In c (components arr) -> answers_all c) ->
  forall rid T C, unknown (CMix flex div arr r2c) rid -> labelled (CMix flex div arr r2c) (T ++ C) ->
  disjoint_rows T C -> solid (CMix flex div arr r2c) C -> (0 < dens (CMix flex div arr r2c) C)%R ->
  logpdf (CMix flex div arr r2c) rid T C [] =
  Ok (xlog (dens (CMix flex div arr r2c) (T ++ C) / dens (CMix flex div arr r2c) C)).
Proof.
  intros flex div arr r2c W AA rid T C U LB DJ SD P.
  destruct (disjoint_parts _ _ DJ) as (NT & NC & X).
  assert (LA : labelled arr (T ++ C)) by apply LB.
  assert (SN : solid arr []) by exact (solid_nil _ W).
  apply mix_density; auto; eapply all_answer_of; eauto using disjoint_nil.
  - rewrite app_nil_r. apply (labelled_split arr T C DJ LA).
  - rewrite app_nil_r. exact LA.
Qed.

Lemma one_of_answers : forall c, wf c ->
  (forall rid T C, unknown c rid -> labelled c (T ++ C) -> disjoint_rows T C -> solid c C -> (0 < dens c C)%R ->
    logpdf c rid T C [] = Ok (xlog (dens c (T ++ C) / dens c C))) -> answers_all c.
Proof.
  intros c W H rid T C U LB DJ SD P. unfold logpdf_one. cbn [interd filter].
  destruct (interd (outputs c) T) as [|a l] eqn:E.
  - rewrite interd_nil_lookup in E.
    replace (dens c (T ++ C)) with (dens c C).
    2:{ apply dens_ext; auto. intros k Hk. rewrite lookup_app, (E k Hk). reflexivity. }
    unfold Rdiv. rewrite Rinv_r by lra. rewrite xlog_1. reflexivity.
  - rewrite <- E. clear E a l. rewrite H; auto using disjoint_interd.
    + rewrite <- interd_app, !dens_interd by auto. reflexivity.
    + rewrite <- interd_app. apply labelled_interd. exact LB.
    + eapply solid_ext; [exact W| |exact SD]. intros k Hk. rewrite lookup_interd.
      replace (memb k (outputs c)) with true; [reflexivity|]. symmetry. apply memb_In. exact Hk.
    + rewrite dens_interd by auto. exact P.
Qed.

Lemma prod_answers : forall cs, (forall c, In c cs -> wf c) -> (forall c, In c cs -> answers_all c) ->
  forall rid T C, unknown (CProd cs) rid -> labelled (CProd cs) (T ++ C) -> disjoint_rows T C ->
  solid (CProd cs) C -> (0 < dens (CProd cs) C)%R ->
  logpdf (CProd cs) rid T C [] = Ok (xlog (dens (CProd cs) (T ++ C) / dens (CProd cs) C)).
Proof.
  intros cs W AA rid T C U LB DJ SD P. cbn [unknown labelled solid] in *. rewrite each_In in *.
  assert (PC : forall c, In c cs -> (0 < dens c C)%R).
  { intros c Hc. cbn [dens] in P. apply (rprod_pos (map (fun c' => dens c' C) cs)); auto.
    - intros r Hr. apply in_map_iff in Hr. destruct Hr as (c' & <- & Hc'). apply dens_nonneg. auto.
    - apply in_map_iff. eauto. }
  cbn [logpdf]. unfold prod_logpdf. rewrite map_map.
  rewrite (oseq_map_ok _ (fun c => xlog (dens c (T ++ C) / dens c C))).
  2:{ intros c Hc. rewrite (wf_inputs c (W c Hc)). apply AA; auto. }
  cbn [omap]. f_equal. rewrite <- (map_map (fun c => dens c (T ++ C) / dens c C)%R xlog).
  rewrite xsum_xlog.
  2:{ intros r Hr. apply in_map_iff in Hr. destruct Hr as (c & <- & Hc).
      apply Rmult_le_pos; [apply dens_nonneg; auto|]. apply Rlt_le, Rinv_0_lt_compat. auto. }
  f_equal. cbn [dens]. clear - PC. induction cs as [|c cs IH]; [cbn; lra|].
  change (dens c (T ++ C) / dens c C * rprod (map (fun c => dens c (T ++ C) / dens c C) cs) =
          (dens c (T ++ C) * rprod (map (fun c' => dens c' (T ++ C)) cs)) / 
          (dens c C * rprod (map (fun c' => dens c' C) cs)))%R.
  rewrite IH by (intros; apply PC; now right).
  assert (Q1 : dens c C <> 0%R) by (apply Rgt_not_eq, PC; now left).
  assert (Q2 : rprod (map (fun c' => dens c' C) cs) <> 0%R).
  { assert (PC' : forall c', In c' cs -> (0 < dens c' C)%R) by (intros; apply PC; now right).
    clear - PC'. induction cs as [|x cs IH]; [cbn; lra|].
    change (dens x C * rprod (map (fun c' => dens c' C) cs) <> 0)%R.
    apply Rmult_integral_contrapositive_currified.
    - apply Rgt_not_eq, PC'. now left.
    - apply IH. intros; apply PC'; now right. }
  field. auto.
Qed.

Lemma dist_answers : forall d, dinv d -> answers_all (CDist d).
Proof.
  intros d D rid T C U LB DJ SD P.
  rewrite prim_factors by auto. unfold Rdiv. rewrite Rmult_assoc, Rinv_r, Rmult_1_r by lra.
  apply dist_logpdf_one; auto. apply (labelled_split (CDist d) T C DJ LB).
Qed.

Lemma wf_answers : forall c, wf c -> answers_all c.
Proof.
  induction 1 as [d D|cs Wc IH ND|div cs r2i r2c D F SU NE Wc IH O|div b cs r2i r2c D HS Wb IHb NI ND Wc IH O].
  - apply dist_answers. exact D.
  - apply one_of_answers; [constructor; auto|]. apply prod_answers; auto.
  - assert (W : wf (CMix false div (CFinArr (dist_o div) cs r2i) r2c)) by (constructor; auto).
    apply one_of_answers; auto. apply mix_answers; auto.
  - assert (W : wf (CMix true div (CFlexArr (dist_o div) b cs r2i) r2c)) by (constructor; auto).
    apply one_of_answers; auto. apply mix_answers; auto.
    intros c [<-|Hc]; [exact IHb|]. unfold values in Hc. apply in_map_iff in Hc. destruct Hc as ([k c'] & <- & Hk). cbn. eauto.
Qed.
