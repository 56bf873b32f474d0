(** Proof of C78: sweeps of Gibbs draws from grids converge. *)
From Coq Require Import List ZArith QArith Qcanon Reals Bool String Permutation Lia Lra.
From Verif Require Import Base Xr Samp Lgamma Prims Cgpm Lib Gibbs Hypers SpecHypers HypersThm SpecConv.
From Verif Require EntropyThm.
Import ListNotations.
Local Open Scope R_scope.

Lemma within : forall x b, Rabs x <= b -> - b <= x <= b.
Proof. intros x b X. assert (A := Rle_abs x). assert (B := Rle_abs (- x)). rewrite Rabs_Ropp in B. lra. Qed.

Lemma name_first : forall {V} (k : string) (x : V) d, lookup k ((k, x) :: d) = Some x.
Proof. intros. cbn [lookup]. destruct (eq_dec k k); congruence. Qed.
Lemma name_later : forall {V} (k k' : string) (x : V) d, k <> k' -> lookup k ((k', x) :: d) = lookup k d.
Proof. intros. cbn [lookup]. destruct (eq_dec k k'); congruence. Qed.

Lemma same_dict : forall (h h' : hypers), NoDup (keys h) -> keys h = keys h' ->
  (forall k, In k (keys h) -> lookup k h = lookup k h') -> h = h'.
Proof.
  induction h as [|[k x] h IH]; intros [|[k' x'] h'] ND E H; try discriminate; [reflexivity|]. cbn in E. injection E as <- E.
  inversion ND as [|? ? NI ND']; subst.
  assert (Ex := H k (or_introl eq_refl)). rewrite !name_first in Ex. injection Ex as <-. f_equal. apply IH; auto.
  intros j Hj. assert (N : j <> k) by (intros ->; contradiction).
  specialize (H j (or_intror Hj)). rewrite !name_later in H by exact N. exact H.
Qed.

Section Sweeps.
Variables (w : hypers -> R) (gs : grids) (all : list string) (h0 : hypers).
Hypotheses (W : forall h, 0 < w h) (ND : NoDup all) (K0 : keys h0 = all) (GN : forall k, In k all -> grid_of gs k <> []).

(** The points of the grids, listed. *)
Fixpoint points (names : list string) (h : hypers) : list hypers :=
  match names with [] => [h] | k :: ks => flat_map (fun g => points ks (dset k g h)) (grid_of gs k) end.

Lemma in_points : forall names h h', keys h = all -> keys h' = all -> incl names all ->
  (forall k, In k all -> ~ In k names -> lookup k h = lookup k h') ->
  (forall k, In k names -> exists v, lookup k h' = Some v /\ In v (grid_of gs k)) -> In h' (points names h).
Proof.
  induction names as [|k names IH]; intros h h' K K' IN AG VA; cbn [points].
  - left. apply same_dict; [rewrite K; exact ND|congruence|]. rewrite K. auto.
  - destruct (VA k (or_introl eq_refl)) as (v & Lv & Hv). apply in_flat_map. exists v. split; [exact Hv|].
    assert (Hk : In k all) by (apply IN; now left).
    apply IH; auto.
    + rewrite keys_dset_mem; [exact K|rewrite K; exact Hk].
    + intros x Hx. apply IN. now right.
    + intros j Hj Nj. rewrite lookup_dset. destruct (eq_dec j k) as [->|N]; [congruence|]. apply AG; [exact Hj|].
      intros [->|X]; [congruence|contradiction].
    + intros j Hj. apply VA. now right.
Qed.

Lemma bounds : forall l : list hypers, exists a b, 0 < a /\ 0 < b /\ forall h, In h l -> a <= w h <= b.
Proof.
  induction l as [|h l (a & b & A & B & H)]; [exists 1, 1; split; [lra|split; [lra|intros ? []]]|].
  exists (Rmin a (w h)), (Rmax b (w h)). assert (X := W h). split; [apply Rmin_glb_lt; assumption|].
  split; [apply Rlt_le_trans with b; [exact B|apply Rmax_l]|]. intros h' [<-|I].
  - split; [apply Rmin_r|apply Rmax_r].
  - specialize (H h' I). split; [apply Rle_trans with a; [apply Rmin_l|lra]|apply Rle_trans with b; [lra|apply Rmax_l]].
Qed.

Let P := on_grids gs all.

Lemma P_dset : forall h k g, P h -> In k all -> In g (grid_of gs k) -> P (dset k g h).
Proof.
  intros h k g [K V] Hk Hg. split; [rewrite keys_dset_mem; [exact K|rewrite K; exact Hk]|].
  intros j Hj. rewrite lookup_dset. destruct (eq_dec j k) as [->|N]; eauto.
Qed.

Lemma uniform : exists a b, 0 < a /\ 0 < b /\ forall h, P h -> a <= w h <= b.
Proof.
  destruct (bounds (points all h0)) as (a & b & A & B & H). exists a, b. split; [exact A|]. split; [exact B|].
  intros h [K V]. apply H. apply in_points; auto; [apply incl_refl|]. intros k Hk N. contradiction.
Qed.

Lemma norm_pos : forall k h, In k all -> 0 < rsum (map (fun g => w (dset k g h)) (grid_of gs k)).
Proof. intros k h Hk. apply rsum_pos; [apply GN; exact Hk|auto]. Qed.

Lemma shares : forall k h, In k all ->
  rsum (map (fun g => w (dset k g h) / rsum (map (fun g => w (dset k g h)) (grid_of gs k))) (grid_of gs k)) = 1.
Proof.
  intros k h Hk. assert (N := norm_pos k h Hk). set (Z := rsum (map (fun g => w (dset k g h)) (grid_of gs k))) in *.
  transitivity (rsum (map (fun g => / Z * w (dset k g h)) (grid_of gs k))); [apply rsum_ext; intros; unfold Rdiv; ring|].
  rewrite rsum_scal. fold Z. field. lra.
Qed.

Lemma share_pos : forall k h g, In k all -> 0 <= w (dset k g h) / rsum (map (fun g => w (dset k g h)) (grid_of gs k)).
Proof. intros k h g Hk. apply Rlt_le, Rdiv_lt_0_compat; [apply W|apply norm_pos; exact Hk]. Qed.

(** Sweeps are averages. *)
Lemma law_affine : forall names f h a s, incl names all ->
  gibbs_law w gs names (fun h => a + s * f h) h = a + s * gibbs_law w gs names f h.
Proof.
  induction names as [|k names IH]; intros f h a s IN; [reflexivity|]. cbn [gibbs_law].
  assert (Hk : In k all) by (apply IN; now left). set (Z := rsum (map (fun g => w (dset k g h)) (grid_of gs k))).
  assert (E := shares k h Hk). fold Z in E.
  transitivity (rsum (map (fun g => a * (w (dset k g h) / Z) + s * (w (dset k g h) / Z * gibbs_law w gs names f (dset k g h))) (grid_of gs k))).
  - apply rsum_ext. intros g _. rewrite IH by (intros x Hx; apply IN; now right). ring.
  - rewrite rsum_add, !rsum_scal, E. ring.
Qed.

(** What holds wherever all hyperparameters have been drawn holds of the mean. [done] are
    those drawn. *)
Lemma law_low : forall names f h b, incl names all -> keys h = all ->
  (forall k, In k all -> ~ In k names -> exists v, lookup k h = Some v /\ In v (grid_of gs k)) ->
  (forall h, P h -> b <= f h) -> b <= gibbs_law w gs names f h.
Proof.
  induction names as [|k names IH]; intros f h b IN K DN F; cbn [gibbs_law].
  - apply F. split; [exact K|]. intros k Hk. apply DN; auto.
  - assert (Hk : In k all) by (apply IN; now left). rewrite <- (Rmult_1_r b). rewrite <- (shares k h Hk), <- rsum_scal.
    apply EntropyThm.rsum_le. intros g Hg. rewrite (Rmult_comm b). apply Rmult_le_compat_l; [apply share_pos; exact Hk|].
    apply IH; auto.
    + intros x Hx. apply IN. now right.
    + rewrite keys_dset_mem; [exact K|rewrite K; exact Hk].
    + intros j Hj Nj. rewrite lookup_dset. destruct (eq_dec j k) as [->|N]; [eauto|]. apply DN; [exact Hj|].
      intros [->|X]; [congruence|contradiction].
Qed.

(** Each point is reached with at least a fixed chance. *)
Lemma law_reaches : exists c, 0 < c /\ forall names f h, incl names all -> P h -> (forall h, P h -> 0 <= f h) ->
  0 <= over_grids gs names f h /\ c ^ List.length names * over_grids gs names f h <= gibbs_law w gs names f h.
Proof.
  destruct uniform as (a & b & A & B & AB).
  set (L := S (list_sum (map (fun k => List.length (grid_of gs k)) all))).
  assert (LP : 0 < INR L) by (apply lt_0_INR; unfold L; lia).
  exists (a / (INR L * b)). assert (LB : 0 < INR L * b) by (apply Rmult_lt_0_compat; assumption).
  split; [apply Rdiv_lt_0_compat; assumption|].
  induction names as [|k names IH]; intros f h IN Ph F; cbn [over_grids gibbs_law List.length pow].
  - split; [apply F; exact Ph|lra].
  - assert (Hk : In k all) by (apply IN; now left). set (c := a / (INR L * b)) in *.
    assert (CP : 0 <= c) by (apply Rlt_le, Rdiv_lt_0_compat; assumption).
    assert (IH' : forall g, In g (grid_of gs k) -> 0 <= over_grids gs names f (dset k g h) /\
       c ^ List.length names * over_grids gs names f (dset k g h) <= gibbs_law w gs names f (dset k g h)).
    { intros g Hg. apply IH; auto; [intros x Hx; apply IN; now right|apply P_dset; assumption]. }
    split.
    + apply rsum_nonneg. intros x Hx. apply in_map_iff in Hx. destruct Hx as (g & <- & Hg). apply IH'. exact Hg.
    + rewrite <- rsum_scal. apply EntropyThm.rsum_le. intros g Hg. destruct (IH' g Hg) as [I1 I2].
      set (Z := rsum (map (fun g => w (dset k g h)) (grid_of gs k))).
      assert (ZP : 0 < Z) by (apply norm_pos; exact Hk).
      assert (ZB : Z <= INR L * b).
      { apply Rle_trans with (rsum (map (fun _ : Qc => b) (grid_of gs k))).
        - apply EntropyThm.rsum_le. intros g' Hg'. apply AB. apply P_dset; assumption.
        - rewrite rsum_const. apply Rmult_le_compat_r; [lra|]. apply le_INR. unfold L.
          clear - Hk. induction all as [|k' l IHl]; [destruct Hk|]. cbn [map list_sum fold_right]. unfold list_sum in IHl. cbn in *.
          destruct Hk as [->|Hk]; [lia|]. specialize (IHl Hk). lia. }
      assert (C1 : c <= w (dset k g h) / Z).
      { unfold c, Rdiv. apply Rmult_le_compat; [lra|apply Rlt_le, Rinv_0_lt_compat; exact LB|apply AB; apply P_dset; assumption|].
        apply Rinv_le_contravar; assumption. }
      assert (PN : 0 <= c ^ List.length names) by (apply pow_le; exact CP).
      rewrite Rmult_assoc. apply Rmult_le_compat; [exact CP|apply Rmult_le_pos; assumption|exact C1|exact I2].
Qed.

(** ** Sums over the grids *)

Lemma over_perm : forall names names', Permutation names names' -> NoDup names -> forall F h, incl names (keys h) ->
  over_grids gs names F h = over_grids gs names' F h.
Proof.
  induction 1 as [|k l l' PM IH|k k' l|l1 l2 l3 P1 IH1 P2 IH2]; intros N F h IN.
  - reflexivity.
  - inversion N; subst. cbn [over_grids]. apply rsum_ext. intros g _. apply IH; [assumption|].
    rewrite keys_dset_mem by (apply IN; now left). intros x Hx. apply IN. now right.
  - inversion N as [|? ? N1 N2]; subst. apply over_grids_swap; [intros ->; apply N1; now left|apply IN; now left].
  - rewrite IH1 by assumption. apply IH2; [eapply Permutation_NoDup; eauto|]. intros x Hx. apply IN.
    eapply Permutation_in; [apply Permutation_sym; exact P1|exact Hx].
Qed.

Lemma over_start : forall names F h h', keys h = all -> keys h' = all -> incl names all ->
  (forall k, In k all -> ~ In k names -> lookup k h = lookup k h') -> over_grids gs names F h = over_grids gs names F h'.
Proof.
  induction names as [|k names IH]; intros F h h' K K' IN AG; cbn [over_grids].
  - f_equal. apply same_dict; [rewrite K; exact ND|congruence|]. rewrite K. auto.
  - apply rsum_ext. intros g _. assert (Hk : In k all) by (apply IN; now left). apply IH.
    + rewrite keys_dset_mem; [exact K|rewrite K; exact Hk].
    + rewrite keys_dset_mem; [exact K'|rewrite K'; exact Hk].
    + intros x Hx. apply IN. now right.
    + intros j Hj Nj. rewrite !lookup_dset. destruct (eq_dec j k) as [->|N]; [reflexivity|]. apply AG; [exact Hj|].
      intros [->|X]; [congruence|contradiction].
Qed.

Lemma over_affine : forall names F G s h, over_grids gs names (fun h => F h + s * G h) h = over_grids gs names F h + s * over_grids gs names G h.
Proof.
  induction names as [|k names IH]; intros F G s h; [reflexivity|]. cbn [over_grids]. rewrite <- rsum_scal, <- rsum_add.
  apply rsum_ext. intros g _. apply IH.
Qed.

Lemma over_pos : forall names h, incl names all -> 0 < over_grids gs names w h.
Proof.
  induction names as [|k names IH]; intros h IN; [apply W|]. cbn [over_grids]. apply rsum_pos; [apply GN; apply IN; now left|].
  intros g _. apply IH. intros x Hx. apply IN. now right.
Qed.

(** ** Convergence *)

Definition pi (f : hypers -> R) : R := over_grids gs all (fun h => w h * f h) h0 / over_grids gs all w h0.

Lemma pi_affine : forall f a s, pi (fun h => a + s * f h) = a + s * pi f.
Proof.
  intros f a s. unfold pi. assert (T := over_pos all h0 (incl_refl _)).
  rewrite (over_grids_ext gs all (fun h => w h * (a + s * f h)) (fun h => (0 + a * w h) + s * (w h * f h))) by (intros; ring).
  rewrite (over_affine all (fun h => 0 + a * w h) (fun h => w h * f h)).
  rewrite (over_affine all (fun _ => 0) w).
  assert (Z0 : over_grids gs all (fun _ => 0) h0 = 0).
  { clear. generalize h0. induction all as [|k l IH]; intros h; [reflexivity|]. cbn [over_grids].
    transitivity (rsum (map (fun _ : Qc => 0) (grid_of gs k))); [apply rsum_ext; auto|]. rewrite rsum_const. lra. }
  rewrite Z0. field. lra.
Qed.

Lemma pi_law : forall names f, Permutation all names -> pi (gibbs_law w gs names f) = pi f.
Proof.
  intros names f PM. unfold pi. f_equal. apply gibbs_invariant; auto.
  - rewrite K0. apply incl_refl.
  - intros k Hk. apply (Permutation_in k (Permutation_sym PM) Hk).
  - intros k Hk. apply GN. apply (Permutation_in k (Permutation_sym PM) Hk).
Qed.

Fixpoint laws (orders : list (list string)) (f : hypers -> R) : hypers -> R :=
  match orders with [] => f | names :: rest => gibbs_law w gs names (laws rest f) end.

Lemma pi_laws : forall orders f, (forall o, In o orders -> Permutation all o) -> pi (laws orders f) = pi f.
Proof.
  induction orders as [|o orders IH]; intros f H; [reflexivity|]. cbn [laws]. rewrite pi_law by (apply H; now left).
  apply IH. intros x Hx. apply H. now right.
Qed.

(** One sweep takes a fixed part of the way. *)
Lemma minorised : exists d, 0 < d <= 1 /\ forall names f h, Permutation all names -> P h -> (forall h, P h -> 0 <= f h) ->
  d * pi f <= gibbs_law w gs names f h.
Proof.
  destruct law_reaches as (c & C & LR). destruct uniform as (a & b & A & B & AB).
  assert (T := over_pos all h0 (incl_refl _)). set (tot := over_grids gs all w h0) in *.
  set (d := c ^ List.length all * / b * tot).
  assert (CL : 0 < c ^ List.length all) by (apply pow_lt; exact C).
  assert (DP : 0 < d) by (unfold d; repeat apply Rmult_lt_0_compat; auto using Rinv_0_lt_compat).
  assert (X : forall names f h, Permutation all names -> P h -> (forall h, P h -> 0 <= f h) -> d * pi f <= gibbs_law w gs names f h).
  { intros names f h PM Ph F. assert (IN : incl names all) by (intros k Hk; apply (Permutation_in k (Permutation_sym PM) Hk)).
    destruct (LR names f h IN Ph F) as [_ L1]. eapply Rle_trans; [|exact L1].
    rewrite <- (Permutation_length PM). unfold d, pi. fold tot. 
    replace (c ^ List.length all * / b * tot * (over_grids gs all (fun h1 => w h1 * f h1) h0 / tot))
      with (c ^ List.length all * (/ b * over_grids gs all (fun h1 => w h1 * f h1) h0)) by (field; lra).
    apply Rmult_le_compat_l; [lra|].
    rewrite <- (over_perm all names PM ND f h) by (destruct Ph as [-> _]; apply incl_refl).
    rewrite (over_start all f h h0 (proj1 Ph) K0 (incl_refl _) (fun k H1 H2 => False_ind _ (H2 H1))).
    (* w f <= b f at the points *)
    assert (Y : forall ks h1, incl ks all -> keys h1 = all ->
      (forall k, In k all -> ~ In k ks -> exists v, lookup k h1 = Some v /\ In v (grid_of gs k)) ->
      over_grids gs ks (fun h => w h * f h) h1 <= b * over_grids gs ks f h1).
    { clear - AB F K0 GN. induction ks as [|k ks IH]; intros h1 IN K DN; cbn [over_grids].
      - assert (P1 : P h1) by (split; [exact K|intros k Hk; apply DN; auto]). apply Rmult_le_compat_r; [apply F; exact P1|apply AB; exact P1].
      - rewrite <- rsum_scal. apply EntropyThm.rsum_le. intros g Hg. assert (Hk : In k all) by (apply IN; now left). apply IH.
        + intros x Hx. apply IN. now right.
        + rewrite keys_dset_mem; [exact K|rewrite K; exact Hk].
        + intros j Hj Nj. rewrite lookup_dset. destruct (eq_dec j k) as [->|N]; [eauto|]. apply DN; [exact Hj|].
          intros [->|Q]; [congruence|contradiction]. }
    assert (Y0 := Y all h0 (incl_refl _) K0 (fun k H1 H2 => False_ind _ (H2 H1))).
    apply Rmult_le_reg_l with b; [exact B|]. rewrite <- Rmult_assoc, Rinv_r, Rmult_1_l by lra. exact Y0. }
  exists d. split; [split; [exact DP|]|exact X].
  (* the constant function 1 *)
  assert (PE : exists h, P h).
  { clear - GN ND. assert (G : forall ks, incl ks all -> exists h : hypers, keys h = ks /\ forall k, In k ks -> exists v, lookup k h = Some v /\ In v (grid_of gs k)).
    { induction ks as [|k ks IH]; intros IN; [exists []; split; [reflexivity|intros ? []]|].
      destruct IH as (h & K & V); [intros x Hx; apply IN; now right|].
      destruct (grid_of gs k) as [|g l] eqn:E; [exfalso; apply (GN k); [apply IN; now left|exact E]|].
      exists ((k, g) :: h). split; [change (k :: keys h = k :: ks); congruence|]. intros j Hj. destruct (eq_dec j k) as [->|N].
      - exists g. rewrite name_first, E. split; [reflexivity|now left].
      - rewrite name_later by exact N. destruct Hj as [->|Hj]; [congruence|]. apply V. exact Hj. }
    destruct (G all (incl_refl _)) as (h & K & V). exists h. split; assumption. }
  destruct PE as (h & Ph). assert (O1 := X all (fun _ => 1 + 0 * 0) h (Permutation_refl _) Ph ltac:(intros; lra)).
  rewrite (law_affine all (fun _ => 0) h 1 0 (incl_refl _)), (pi_affine (fun _ => 0) 1 0) in O1. lra.
Qed.

Theorem sweeps_converge : exists q, 0 <= q < 1 /\ forall f B, (forall h, P h -> Rabs (f h - pi f) <= B) ->
  forall orders, (forall o, In o orders -> Permutation all o) ->
  (forall h, P h -> Rabs (laws orders f h - pi f) <= q ^ List.length orders * B) /\
  forall o h, Permutation all o -> keys h = all -> Rabs (laws (o :: orders) f h - pi f) <= q ^ List.length orders * B.
Proof.
  destruct minorised as (d & D & M). exists (1 - d). split; [lra|]. intros f B FB orders.
  assert (X : (forall o, In o orders -> Permutation all o) -> forall h, P h -> Rabs (laws orders f h - pi f) <= (1 - d) ^ List.length orders * B).
  { induction orders as [|o orders IH]; intros PO h Ph; cbn [laws List.length pow]; [rewrite Rmult_1_l; apply FB; exact Ph|].
    assert (IH' := IH (fun x Hx => PO x (or_intror Hx))). clear IH.
    assert (PG := pi_laws orders f (fun x Hx => PO x (or_intror Hx))).
    set (g := laws orders f) in *. set (b := (1 - d) ^ List.length orders * B) in *.
    assert (Po : Permutation all o) by (apply PO; now left).
    assert (IN : incl o all) by (intros k Hk; apply (Permutation_in k (Permutation_sym Po) Hk)).
    assert (LO := M o (fun h => (b - pi f) + 1 * g h) h Po Ph).
    assert (HI := M o (fun h => (b + pi f) + -1 * g h) h Po Ph).
    rewrite law_affine, pi_affine, PG in LO by exact IN. rewrite law_affine, pi_affine, PG in HI by exact IN.
    assert (L1 : d * (b - pi f + 1 * pi f) <= b - pi f + 1 * gibbs_law w gs o g h).
    { apply LO. intros h' Ph'. assert (Q := IH' h' Ph'). apply within in Q. lra. }
    assert (H1 : d * (b + pi f + -1 * pi f) <= b + pi f + -1 * gibbs_law w gs o g h).
    { apply HI. intros h' Ph'. assert (Q := IH' h' Ph'). apply within in Q. lra. }
    replace ((1 - d) * (1 - d) ^ List.length orders * B) with ((1 - d) * b) by (unfold b; ring).
    apply Rabs_le. lra. }
  intros PO. assert (X' := X PO). clear X. split; [exact X'|].
  intros o h Po K. cbn [laws]. set (g := laws orders f) in *. set (b := (1 - d) ^ List.length orders * B) in *.
  assert (IN : incl o all) by (intros k Hk; apply (Permutation_in k (Permutation_sym Po) Hk)).
  assert (DN : forall k, In k all -> ~ In k o -> exists v, lookup k h = Some v /\ In v (grid_of gs k)).
  { intros k Hk N. exfalso. apply N. apply (Permutation_in k Po Hk). }
  assert (L1 := law_low o g h (pi f - b) IN K DN). assert (H1 := law_low o (fun h => 0 + -1 * g h) h (- pi f - b) IN K DN).
  rewrite law_affine in H1 by exact IN.
  assert (L2 : pi f - b <= gibbs_law w gs o g h).
  { apply L1. intros h' Ph'. assert (Q := X' h' Ph'). apply within in Q. lra. }
  assert (H2 : - pi f - b <= 0 + -1 * gibbs_law w gs o g h).
  { apply H1. intros h' Ph'. assert (Q := X' h' Ph'). apply within in Q. lra. }
  apply Rabs_le. lra.
Qed.

Lemma bounded : forall f : hypers -> R, exists B, 0 <= B /\ forall h, P h -> Rabs (f h) <= B.
Proof.
  intros f. assert (X : forall l : list hypers, exists B, 0 <= B /\ forall h, In h l -> Rabs (f h) <= B).
  { induction l as [|h l (B & B0 & X)]; [exists 0; split; [lra|intros ? []]|]. exists (Rmax B (Rabs (f h))).
    split; [apply Rle_trans with B; [exact B0|apply Rmax_l]|]. intros h' [<-|Hi]; [apply Rmax_r|].
    apply Rle_trans with B; [apply X; exact Hi|apply Rmax_l]. }
  destruct (X (points all h0)) as (B & B0 & Y). exists B. split; [exact B0|]. intros h [K V]. apply Y.
  apply in_points; auto; [apply incl_refl|]. intros k Hk N. contradiction.
Qed.

Lemma law_ext : forall names f g h, incl names all -> keys h = all ->
  (forall k, In k all -> ~ In k names -> exists v, lookup k h = Some v /\ In v (grid_of gs k)) ->
  (forall h, P h -> f h = g h) -> gibbs_law w gs names f h = gibbs_law w gs names g h.
Proof.
  induction names as [|k names IH]; intros f g h IN K DN F; cbn [gibbs_law].
  - apply F. split; [exact K|]. intros k Hk. apply DN; auto.
  - assert (Hk : In k all) by (apply IN; now left). apply f_equal. apply map_ext_in. intros v Hv. f_equal. apply IH; auto.
    + intros x Hx. apply IN. now right.
    + rewrite keys_dset_mem; [exact K|rewrite K; exact Hk].
    + intros j Hj Nj. rewrite lookup_dset. destruct (eq_dec j k) as [->|N]; [eauto|]. apply DN; [exact Hj|].
      intros [->|X]; [congruence|contradiction].
Qed.
End Sweeps.
