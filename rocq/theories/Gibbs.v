(** Row transitions of views. *)
From Coq Require Import List ZArith QArith Qcanon Reals Bool String Permutation Sorting.Sorted Lia Lra FunctionalExtensionality.
From Verif Require Import Base Xr Samp Lgamma Prims Cgpm Lib SpecPrims PrimsInv PrimsDens PrimsThm PrimsThm2
  SpecComp CompInv CompDens CompThm SimShape SimLaw SpecBook Book SpecTable Trans Table.
Import ListNotations.
Local Open Scope Z_scope.

Lemma unknown_none : forall c, unknown c None.
Proof.
  induction c as [d|cs IH|ix cs m IH|ix b cs m IHb IH|flex div arr m IH] using cgpm_ind_In; cbn [unknown unrecorded]; auto.
  - apply each_In. auto.
  - apply each_In. auto.
  - split; [exact IHb|]. apply each_In. intros [k c] H. apply (IH k c H).
Qed.

Lemma sheet_tidy : forall m, sheet m -> tidy m.
Proof.
  intros m S. destruct (sheet_inv m S) as (s & bs & cs & r2i & r2c & -> & NB & B & C). unfold tidy, mkview.
  assert (F : forall ds, flexible (CProd (map CDist ds)) /\ clean (CProd (map CDist ds))).
  { intros ds. cbn [flexible clean]. rewrite !each_In. split; intros c H; apply in_map_iff in H; destruct H as (d & <- & _); exact I. }
  cbn [flexible clean]. fold (flexible (CProd (map CDist bs))) (clean (CProd (map CDist bs))).
  split.
  - split; [apply F|]. apply each_In. intros [k c] H. destruct (C k c H) as (ds & -> & _). apply F.
  - split; [|split; [apply F|]].
    + cbn [vacant]. apply each_In. intros c H. apply in_map_iff in H. destruct H as (d & <- & Hd). apply B. exact Hd.
    + apply each_In. intros [k c] H. destruct (C k c H) as (ds & -> & _). apply F.
Qed.

(** The parts of a view seen from a cluster, the base being the component of unused ones. *)
Lemma component_leaf : forall bs cs c, NoDup (keys cs) -> In c (CProd (map CDist bs) :: values cs) -> 
  (forall k c, In (k, c) cs -> exists ds, c = CProd (map CDist ds) /\ alike bs ds) ->
  exists ds, c = CProd (map CDist ds) /\ (ds = bs \/ exists k, ds = cols bs cs k).
Proof.
  intros bs cs c ND [<-|H] C; [eauto|]. unfold values in H. apply in_map_iff in H. destruct H as ((k & c') & E & H). cbn in E. subst c'.
  destruct (C k c H) as (ds & -> & _). exists ds. split; [reflexivity|]. right. exists k. unfold cols. rewrite (In_lookup _ _ _ ND H).
  symmetry. apply leaves_prod.
Qed.

Lemma alike_kind_at : forall bs ds d, alike bs ds -> NoDup (map dist_o bs) -> In d ds -> exists b, In b bs /\ dist_o b = dist_o d /\ kind_of b = kind_of d.
Proof.
  intros bs ds d A ND H. assert (X : In (dist_o d, kind_of d) (map (fun d => (dist_o d, kind_of d)) bs)).
  { rewrite <- A. apply in_map_iff. eauto. }
  apply in_map_iff in X. destruct X as (b & E & Hb). injection E as E1 E2. eauto.
Qed.

Lemma kind_at_base : forall s bs cs r2i r2c b, NoDup (map dist_o bs) -> In b bs -> kind_at (mkview s bs cs r2i r2c) (dist_o b) = Some (kind_of b).
Proof.
  intros s bs cs r2i r2c b ND H. unfold kind_at, mkview. rewrite leaves_prod. induction bs as [|b0 bs IH]; [destruct H|].
  cbn [find]. inversion ND as [|? ? NI ND']; subst. destruct (Z.eqb_spec (dist_o b0) (dist_o b)) as [E|E].
  - destruct H as [->|H]; [reflexivity|]. exfalso. apply NI. rewrite E. now apply in_map.
  - destruct H as [->|H]; [congruence|]. apply IH; assumption.
Qed.

(** The row of a view, labelled with cluster [z], as seen by the view without the row. *)
Lemma removed_row : forall m rid, wf m -> sheet m -> consistent m -> seat m rid <> None ->
  exists m1 row s s1, unobserve m rid = (m1, Ok (row, [])) /\ dropped m rid m1 /\ whole_row m rid row /\
    divider m = Some (DCrp s) /\ divider m1 = Some (DCrp s1) /\ crp_o s1 = label_of m /\
    dist_data (DCrp s1) = ddel rid (dist_data (DCrp s)) /\ dinv (DCrp s1) /\ wf m1 /\ unknown m1 (Some rid) /\
    forall z, In z (crp_support s1) -> let S := dset (label_of m) (vz z) row in
      NoDup (keys S) /\ named m1 S /\ labelled m1 S /\
      (forall k, In k (keys S) -> In k (outputs m1)) /\
      logpdf m1 None S [] [] = Ok (xlog (dens m1 S)) /\
      (observable m rid -> (0 < dens m1 S)%R) /\
      (forall o, In o (columns_of m) -> cell m rid o = Some VNan -> kind_at m o = Some KBit \/ kind_at m o = Some KCount -> dens m1 S = 0%R).
Proof.
  intros m rid RE S K L. assert (W := RE).
  destruct (view_move m rid W S K L) as (m1 & row & s & s1 & EU & DR & WR & DV & DV1 & EO & ED & D1 & _).
  exists m1, row, s, s1. do 8 (split; [assumption|]). split; [exact (proj1 DR)|].
  assert (RE1 : wf m1) by exact (proj1 DR).
  destruct DR as (W1 & S1 & K1 & SC1 & OS1 & SE1). destruct WR as (R1 & R2 & R3 & R4).
  assert (KA := proj2 (proj2 SC1)).
  (* every recorded cell is of its column's type *)
  assert (TY : forall o x, In o (columns_of m) -> cell m rid o = Some x -> exists kd, kind_at m o = Some kd /\ kd <> KTable /\ in_domain kd [] x).
  { clear - W S K L. intros o x Ho CE. destruct (sheet_inv m S) as (s0 & bs & cs & r2i & r2c & -> & NB & B & C).
    assert (SH : shaped bs cs) by (split; [exact NB|split; assumption]).
    destruct (view_parts _ _ _ _ _ W) as (D & Db & NDb & NI & NDk & Dc).
    change (columns_of (mkview s0 bs cs r2i r2c)) with (outputs (CProd (map CDist bs))) in Ho. rewrite outputs_prod in Ho.
    rewrite cell_parts in CE by exact SH. destruct (lookup rid r2c) as [k|]; [|discriminate].
    destruct (cols_good s0 bs cs r2i r2c W B C k) as (GD & GN & GO). rewrite <- GO in Ho. apply in_map_iff in Ho.
    destruct Ho as (d & <- & Hd). rewrite in_column_Some in CE by assumption. destruct (GD d Hd) as [Dd Kd].
    destruct (alike_kind_at bs (cols bs cs k) d (cols_alike bs cs k C) NDb Hd) as (b & Hb & E1 & E2).
    exists (kind_of d). rewrite <- E1, kind_at_base by assumption. rewrite E2. split; [reflexivity|]. split; [exact Kd|].
    eapply leaf_typed; eauto. }
  (* now in terms of m1 alone *)
  destruct (sheet_inv m1 S1) as (s' & bs & cs & r2i & r2c & -> & NB & B & C). injection DV1 as ->.
  assert (SH : shaped bs cs) by (split; [exact NB|split; assumption]).
  assert (KW : kept_well s1 bs cs r2i r2c) by (apply (consistent_parts s1 bs cs r2i r2c SH); exact K1).
  destruct (view_parts _ _ _ _ _ W1) as (D & Db & NDb & NI & NDk & Dc).
  destruct SC1 as (SC1a & SC1b & _). change (columns_of (mkview s1 bs cs r2i r2c)) with (outputs (CProd (map CDist bs))) in SC1b.
  rewrite outputs_prod in SC1b. rewrite <- SC1b in *. cbn [label_of mkview dist_o] in SC1a.
  cbn [seat mkview] in SE1. destruct KW as (N1 & N2 & A3 & A4 & A5 & A6).
  assert (LF : forall ds, (ds = bs \/ exists k, ds = cols bs cs k) -> alike bs ds /\ forall d, In d ds -> lookup rid (dist_data d) = None).
  { intros ds [->|[k ->]].
    - split; [reflexivity|]. intros d Hd. destruct (B d Hd) as [_ ->]. reflexivity.
    - split; [apply cols_alike; exact C|]. intros d Hd. apply lookup_None. intros H. rewrite (A6 rid k d Hd H) in SE1. discriminate. }
  split.
  { unfold mkview. cbn [unknown unrecorded]. split; [apply lookup_None; rewrite A3; exact SE1|]. split; [apply lookup_None; exact SE1|].
    assert (X : forall ds, (ds = bs \/ exists k, ds = cols bs cs k) -> unknown (CProd (map CDist ds)) (Some rid)).
    { intros ds H. cbn [unknown]. apply each_In. intros c Hc. apply in_map_iff in Hc. destruct Hc as (d & <- & Hd).
      cbn. apply lookup_None. apply (LF ds H). exact Hd. }
    split; [apply X; auto|]. apply each_In. intros [k c] Hc. 
    destruct (component_leaf bs cs c NDk) as (ds & -> & H); [right; now apply (in_map snd) in Hc|exact C|]. apply X. exact H. }
  intros z Hz S0.
  assert (LO : forall o, lookup o S0 = if eq_dec o (crp_o s1) then Some (vz z) else lookup o row).
  { intros o. unfold S0. rewrite lookup_dset, EO. reflexivity. }
  assert (LZ : lookup (crp_o s1) S0 = Some (vz z)) by (rewrite LO; destruct (eq_dec (crp_o s1) (crp_o s1)); congruence).
  assert (LX : forall d ds, alike bs ds -> In d ds -> lookup (dist_o d) S0 = cell m rid (dist_o d) /\ kind_at m (dist_o d) = Some (kind_of d) /\ In (dist_o d) (map dist_o bs)).
  { intros d ds A Hd. destruct (alike_kind_at bs ds d A NDb Hd) as (b & Hb & E1 & E2).
    assert (Ho : In (dist_o b) (map dist_o bs)) by now apply in_map. rewrite <- E1, <- E2, LO.
    destruct (eq_dec (dist_o b) (crp_o s1)) as [EE|NE]; [rewrite EE in Ho; contradiction|]. rewrite R4 by exact Ho.
    split; [reflexivity|]. split; [|exact Ho]. rewrite <- KA. apply kind_at_base; assumption. }
  assert (NS : NoDup (keys S0)) by (apply NoDup_keys_dset; exact R1).
  assert (NM : named (mkview s1 bs cs r2i r2c) S0).
  { unfold mkview. cbn [named]. split; [exists z; exact LZ|].
    assert (X : forall ds, named (CProd (map CDist ds)) S0).
    { intros ds. cbn [named]. apply each_In. intros c Hc. apply in_map_iff in Hc. destruct Hc as (d & <- & _). right. exact I. }
    split; [apply X|]. apply each_In. intros [k c] Hc. destruct (C k c Hc) as (ds & -> & _). apply X. }
  assert (LB : labelled (mkview s1 bs cs r2i r2c) S0).
  { unfold mkview. cbn [labelled dist_o]. split; [intros x Hx; exists z; split; [congruence|now left]|].
    assert (X : forall ds, alike bs ds -> labelled (CProd (map CDist ds)) S0).
    { intros ds A. cbn [labelled]. apply each_In. intros c Hc. apply in_map_iff in Hc. destruct Hc as (d & <- & Hd).
      assert (ND : kind_of d <> KTable) by (eapply alike_kind; [exact A| |exact Hd]; intros; apply B; assumption).
      destruct d; cbn in ND |- *; try exact I; congruence. }
    split; [apply X; reflexivity|]. apply each_In. intros [k c] Hc. destruct (C k c Hc) as (ds & -> & A). apply X. exact A. }
  assert (KO : forall k, In k (keys S0) -> In k (outputs (mkview s1 bs cs r2i r2c))).
  { intros k Hk. change (outputs (mkview s1 bs cs r2i r2c)) with (crp_o s1 :: outputs (CProd (map CDist bs))). rewrite outputs_prod.
    apply keys_dset_In in Hk. destruct Hk as [->|Hk]; [left; congruence|]. apply R2 in Hk. destruct Hk as [->|Hk]; [left; congruence|right; exact Hk]. }
  split; [exact NS|]. split; [exact NM|]. split; [exact LB|]. split; [exact KO|]. split; [|split].
  - assert (D0 : dens (mkview s1 bs cs r2i r2c) [] = 1%R) by (apply (dens_none _ W1); reflexivity).
    assert (M := model_density (mkview s1 bs cs r2i r2c) None S0 [] RE1 (unknown_none _)). rewrite app_nil_r in M. rewrite M.
    + rewrite D0. do 3 f_equal. unfold Rdiv. rewrite Rinv_1. ring.
    + exact LB.
    + unfold disjoint_rows. rewrite app_nil_r. exact NS.
    + intros E. rewrite E in LZ. discriminate.
    + exact KO.
    + apply solid_nil. exact W1.
    + rewrite D0. lra.
  - intros OB. apply (plausible_good _ W1 S0). unfold mkview. cbn [plausible dist_o dist_support]. split.
    { intros x Hx. exists z, (crp_support s1). split; [congruence|]. split; [reflexivity|exact Hz]. }
    assert (X : forall ds, alike bs ds -> plausible (CProd (map CDist ds)) S0).
    { intros ds A. cbn [plausible]. apply each_In. intros c Hc. apply in_map_iff in Hc. destruct Hc as (d & <- & Hd). cbn [plausible].
      destruct (LX d ds A Hd) as (E1 & E2 & Ho). rewrite E1. intros x Hx. destruct (TY _ _ Ho Hx) as (kd & E3 & KT & DM).
      rewrite E2 in E3. injection E3 as <-. destruct x as [|q].
      - destruct (OB _ Hx) as [O1 O2]. rewrite E2 in O1, O2. destruct (kind_of d); try exact I; congruence.
      - eapply domain_data; eauto. }
    split; [apply X; reflexivity|]. apply each_In. intros [k c] Hc. destruct (C k c Hc) as (ds & -> & A). apply X. exact A.
  - intros o Ho CE KB. unfold mkview. cbn [dens dist_o]. rewrite LZ.
    assert (X : forall ds, alike bs ds -> dens (CProd (map CDist ds)) S0 = 0%R).
    { intros ds A. cbn [dens].
      assert (Hd : exists d, In d ds /\ dist_o d = o).
      { rewrite <- (alike_o _ _ A) in Ho. apply in_map_iff in Ho. destruct Ho as (d & E & H). eauto. }
      destruct Hd as (d & Hd & <-). destruct (LX d ds A Hd) as (E1 & E2 & _). rewrite E2 in KB. rewrite CE in E1.
      assert (Z0 : dens (CDist d) S0 = 0%R).
      { cbn [dens]. rewrite E1. destruct d; cbn in KB |- *; try reflexivity; destruct KB; congruence. }
      clear - Hd Z0. rewrite map_map. induction ds as [|a ds IH]; [destruct Hd|]. cbn [map]. change (rprod (?x :: ?l)) with (x * rprod l)%R.
      destruct Hd as [->|Hd]; [rewrite Z0; ring|rewrite IH by exact Hd; ring]. }
    rewrite lookup_dict_map with (f := fun c' => dens c' S0). change (rprod (map (fun c' => dens c' S0) (map CDist bs))) with (dens (CProd (map CDist bs)) S0).
    destruct (lookup (vz z) cs) as [c|] eqn:LC.
    + apply lookup_In in LC. destruct (C _ _ LC) as (ds & -> & A). cbn [option_map]. rewrite X by exact A. ring.
    + cbn [option_map]. rewrite X by reflexivity. ring.
Qed.

Lemma oseq_ok : forall {A B} (f : A -> out B) (g : A -> B) l, (forall a, In a l -> f a = Ok (g a)) -> oseq (map f l) = Ok (map g l).
Proof.
  intros A B f g l H. apply oseq_map_ok. exact H.
Qed.

(** What transition_rows does, given the row and the view without it. *)
Lemma transition_eq : forall m rid m1 row s1, unobserve m rid = (m1, Ok (row, [])) -> divider m1 = Some (DCrp s1) ->
  crp_o s1 = label_of m -> sheet m ->
  (forall z, In z (crp_support s1) -> logpdf m1 None (dset (label_of m) (vz z) row) [] [] = Ok (xlog (dens m1 (dset (label_of m) (vz z) row)))) ->
  transition_rows m rid =
    (let! i := log_pflip (map (fun z => xlog (dens m1 (dset (label_of m) (vz z) row))) (crp_support s1)) in
     match i with
     | Err e => Ret (m1, Err e)
     | Ok i => observe m1 rid (dset (label_of m) (vz (nth i (crp_support s1) 0)) row) []
     end).
Proof.
  intros m rid m1 row s1 EU DV EO S H. destruct (sheet_inv m S) as (s & bs & cs & r2i & r2c & E & _).
  unfold transition_rows. rewrite E. unfold mkview at 1. rewrite <- E. rewrite EU.
  destruct m1 as [| | | |fl div arr mp]; try discriminate DV. injection DV as ->.
  cbn [dist_support obind dist_o]. rewrite EO.
  rewrite (oseq_ok _ (fun z => xlog (dens (CMix fl (DCrp s1) arr mp) (dset (label_of m) (vz z) row)))) by exact H.
  reflexivity.
Qed.

Lemma xlog_weights : forall {A} (K : list A) (p : A -> R),
  existsb is_bad (map (fun a => xlog (p a)) K) = false.
Proof.
  intros A K p. apply not_true_is_false. intros E. apply existsb_exists in E. destruct E as (x & Hx & E).
  apply in_map_iff in Hx. destruct Hx as (a & <- & Ha). rewrite is_bad_xlog in E. discriminate.
Qed.

Lemma flip_always : forall {A} (K : list A) (p : A -> R) (P : out nat -> Prop),
  (forall i, (i < List.length K)%nat -> P (Ok i)) -> P (Err ValueError) ->
  always (log_pflip (map (fun a => xlog (p a)) K)) P.
Proof.
  intros A K p P H E. unfold log_pflip. rewrite xlog_weights. destruct (existsb is_fin _); cbn [always]; [|exact E].
  intros i Hi _. apply H. rewrite !map_length in Hi. exact Hi.
Qed.

Lemma flip_positive : forall {A} (K : list A) (p : A -> R), K <> [] -> (forall a, In a K -> (0 < p a)%R) ->
  log_pflip (map (fun a => xlog (p a)) K) = Flip (map p K) (fun i => Ret (Ok i)).
Proof.
  intros A K p NE H. unfold log_pflip. rewrite xlog_weights. replace (existsb is_fin _) with true.
  - rewrite map_map. f_equal. apply map_ext_in. intros a Ha. apply xexp_xlog. left. apply H. exact Ha.
  - destruct K as [|a K]; [congruence|]. cbn [map existsb]. symmetry. rewrite (is_fin_xlog (p a)) by (apply H; now left). reflexivity.
Qed.

Lemma flip_zero : forall {A} (K : list A) (p : A -> R), (forall a, In a K -> p a = 0%R) ->
  log_pflip (map (fun a => xlog (p a)) K) = Ret (Err ValueError).
Proof.
  intros A K p H. unfold log_pflip. rewrite xlog_weights. replace (existsb is_fin _) with false; [reflexivity|].
  symmetry. apply not_true_is_false. intros E. apply existsb_exists in E. destruct E as (x & Hx & E).
  apply in_map_iff in Hx. destruct Hx as (a & <- & Ha). rewrite (H a Ha) in E. unfold xlog in E. destruct (Rlt_dec 0 0); [lra|discriminate].
Qed.

Lemma support_nonempty : forall s, crp_support s <> [].
Proof. intros s. unfold crp_support. destruct (zsort _); discriminate. Qed.

Definition gibbs_outcome (m : cgpm) (rid : Z) (m1 : cgpm) (K : list Z) (r : cgpm * out unit) : Prop :=
  (snd r = Ok tt /\ exists z, In z K /\ moved m rid z (fst r)) \/ (r = (m1, Err ValueError)).

Lemma gibbs_moves : forall m rid, wf m -> sheet m -> consistent m -> seat m rid <> None ->
  exists m1 s s1, (dropped m rid m1 /\ exists row, unobserve m rid = (m1, Ok (row, []))) /\ divider m = Some (DCrp s) /\ divider m1 = Some (DCrp s1) /\ dinv (DCrp s1) /\
    crp_o s1 = crp_o s /\ dist_data (DCrp s1) = ddel rid (dist_data (DCrp s)) /\
    always (transition_rows m rid) (gibbs_outcome m rid m1 (crp_support s1)) /\
    (observable m rid -> always (transition_rows m rid) (fun r => snd r = Ok tt)) /\
    (forall o, In o (columns_of m) -> cell m rid o = Some VNan -> kind_at m o = Some KBit \/ kind_at m o = Some KCount ->
       transition_rows m rid = Ret (m1, Err ValueError)).
Proof.
  intros m rid RE S K L. assert (W := RE).
  destruct (removed_row m rid RE S K L) as (m1 & row & s & s1 & EU & DR & WR & DV & DV1 & EO & ED & D1 & RE1 & UN & RR).
  destruct (view_move m rid W S K L) as (m1' & row' & s' & s1' & EU' & _ & _ & _ & DV1' & _ & _ & _ & MV).
  rewrite EU in EU'. injection EU' as <- <-. rewrite DV1 in DV1'. injection DV1' as <-.
  assert (EQ := transition_eq m rid m1 row s1 EU DV1 EO S). 
  assert (EQ' := EQ (fun z Hz => proj1 (proj2 (proj2 (proj2 (proj2 (RR z Hz))))))). clear EQ.
  exists m1, s, s1. split; [split; [exact DR|exists row; exact EU]|]. split; [exact DV|]. split; [exact DV1|]. split; [exact D1|].
  split. { rewrite EO. destruct m; try discriminate DV. injection DV as ->. reflexivity. }
  split; [exact ED|].
  assert (ST : forall i, (i < List.length (crp_support s1))%nat ->
    exists m2, observe m1 rid (dset (label_of m) (vz (nth i (crp_support s1) 0)) row) [] = Ret (m2, Ok tt) /\
      moved m rid (nth i (crp_support s1) 0) m2) by (intros i Hi; apply MV; apply nth_In; exact Hi).
  split; [|split].
  - rewrite EQ'. apply always_bind. apply flip_always.
    + intros i Hi. destruct (ST i Hi) as (m2 & -> & M2). left. cbn. split; [reflexivity|].
      exists (nth i (crp_support s1) 0). split; [apply nth_In; exact Hi|exact M2].
    + right. reflexivity.
  - intros OB. rewrite EQ'. rewrite (flip_positive (crp_support s1) (fun z => dens m1 (dset (label_of m) (vz z) row)) (support_nonempty s1)).
    + cbn [sbind always]. intros i Hi _. rewrite map_length in Hi. destruct (ST i Hi) as (m2 & -> & M2). reflexivity.
    + intros z Hz. apply (RR z Hz). exact OB.
  - intros o Ho CE KB. rewrite EQ'. rewrite (flip_zero (crp_support s1) (fun z => dens m1 (dset (label_of m) (vz z) row))).
    + reflexivity.
    + intros z Hz. apply (proj2 (proj2 (proj2 (proj2 (proj2 (proj2 (RR z Hz)))))) o Ho CE KB).
Qed.

(** ** The law of the Gibbs step *)

Lemma flip_sum : forall {A} (K : list A) (p : A -> R) (d : A) (f : A -> R),
  rsum (map (fun i => (nth i (map p K) 0 / rsum (map p K) * f (nth i K d))%R) (seq 0 (List.length (map p K)))) =
  rsum (map (fun a => (p a / rsum (map p K) * f a)%R) K).
Proof.
  intros A K p d f. generalize (rsum (map p K)). intros t. rewrite map_length.
  assert (G : forall K' n, (forall i, (i < List.length K')%nat -> nth (n + i) K d = nth i K' d /\ nth (n + i) (map p K) 0%R = nth i (map p K') 0%R) ->
    rsum (map (fun i => (nth i (map p K) 0 / t * f (nth i K d))%R) (seq n (List.length K'))) = rsum (map (fun a => (p a / t * f a)%R) K')).
  { induction K' as [|a K' IH]; intros n H; cbn [List.length seq map]; [reflexivity|].
    change (rsum (?x :: ?l)) with (x + rsum l)%R. rewrite (IH (S n)).
    - destruct (H 0%nat) as [H1 H2]; [cbn; lia|]. rewrite Nat.add_0_r in H1, H2. rewrite H1, H2. cbn. reflexivity.
    - intros i Hi. destruct (H (S i)) as [H1 H2]; [cbn; lia|]. rewrite Nat.add_succ_r in H1, H2. cbn in *. auto. }
  apply (G K 0%nat). intros i Hi. auto.
Qed.

Lemma rsum_scale : forall l c, rsum (map (fun x => (c * x)%R) l) = (c * rsum l)%R.
Proof. induction l as [|a l IH]; intros c; unfold rsum in *; cbn in *; [ring|rewrite IH; ring]. Qed.

Lemma rsum_pos : forall {A} (K : list A) p, K <> [] -> (forall a, In a K -> (0 < p a)%R) -> (0 < rsum (map p K))%R.
Proof.
  intros A K p NE H. destruct K as [|a K]; [congruence|]. clear NE. cbn [map]. change (rsum (?x :: ?l)) with (x + rsum l)%R.
  assert (0 <= rsum (map p K))%R.
  { assert (G : forall b, In b K -> (0 < p b)%R) by (intros; apply H; now right). clear - G. induction K as [|b K IH]; unfold rsum in *; cbn; [lra|].
    assert (0 < p b)%R by (apply G; now left). assert (0 <= fold_right Rplus 0 (map p K))%R by (apply IH; intros; apply G; now right). lra. }
  assert (0 < p a)%R by (apply H; now left). lra.
Qed.

Lemma gibbs_law : forall m rid, wf m -> sheet m -> consistent m -> seat m rid <> None -> observable m rid ->
  exists m1 row s s1 (mz : Z -> cgpm), unobserve m rid = (m1, Ok (row, [])) /\
    divider m = Some (DCrp s) /\ divider m1 = Some (DCrp s1) /\ dinv (DCrp s1) /\
    dist_data (DCrp s1) = ddel rid (dist_data (DCrp s)) /\
    let K := crp_support s1 in
    let S z := dset (label_of m) (vz z) row in
    (forall z, In z K -> observe m1 rid (S z) [] = Ret (mz z, Ok tt) /\ moved m rid z (mz z) /\ wf (mz z) /\
      (0 < dens m1 (S z))%R /\ total_score (mz z) = (total_score m1 + ln (dens m1 (S z)))%R) /\
    finite_choices (transition_rows m rid) /\
    forall f, expect (transition_rows m rid) f =
      rsum (map (fun z => (dens m1 (S z) / rsum (map (fun z' => dens m1 (S z')) K) * f (mz z, Ok tt))%R) K).
Proof.
  intros m rid RE S K L OB. assert (W := RE).
  destruct (removed_row m rid RE S K L) as (m1 & row & s & s1 & EU & DR & WR & DV & DV1 & EO & ED & D1 & RE1 & UN & RR).
  destruct (view_move m rid W S K L) as (m1' & row' & s' & s1' & EU' & _ & _ & _ & DV1' & _ & _ & _ & MV).
  rewrite EU in EU'. injection EU' as <- <-. rewrite DV1 in DV1'. injection DV1' as <-.
  assert (EQ := transition_eq m rid m1 row s1 EU DV1 EO S). 
  assert (EQ' := EQ (fun z Hz => proj1 (proj2 (proj2 (proj2 (proj2 (RR z Hz))))))). clear EQ.
  set (Sz := fun z => dset (label_of m) (vz z) row) in *.
  assert (PO : forall z, In z (crp_support s1) -> (0 < dens m1 (Sz z))%R) by (intros z Hz; apply (RR z Hz); exact OB).
  assert (EQ2 : transition_rows m rid = Flip (map (fun z => dens m1 (Sz z)) (crp_support s1))
    (fun i => observe m1 rid (Sz (nth i (crp_support s1) 0)) [])).
  { rewrite EQ'. rewrite (flip_positive (crp_support s1) (fun z => dens m1 (dset (label_of m) (vz z) row)) (support_nonempty s1) PO). reflexivity. }
  exists m1, row, s, s1, (fun z => match observe m1 rid (Sz z) [] with Ret (m2, _) => m2 | _ => m1 end).
  split; [exact EU|]. split; [exact DV|]. split; [exact DV1|]. split; [exact D1|]. split; [exact ED|]. cbv zeta.
  fold Sz. split; [|split].
  - intros z Hz. destruct (MV z Hz) as (m2 & E2 & M2). fold (Sz z) in E2. rewrite E2.
    assert (P2 : possible (observe m1 rid (Sz z) []) (fun r => r = (m2, Ok tt))) by (rewrite E2; reflexivity).
    split; [reflexivity|]. split; [exact M2|]. split; [exact (proj1 M2)|]. split; [apply PO; exact Hz|].
    destruct (RR z Hz) as (NS & NM & LB & KO & _).
    destruct DR as (W1 & S1 & _). destruct (sheet_tidy m1 S1) as [FL CL].
    assert (AD := observe_adds m1 W1 FL CL rid (Sz z) NS UN NM). rewrite E2 in AD. cbn [always] in AD. apply AD; [reflexivity|apply PO; exact Hz].
  - rewrite EQ2. cbn [finite_choices]. split; [|split].
    + intros w Hw. apply in_map_iff in Hw. destruct Hw as (z & <- & Hz). left. apply PO. exact Hz.
    + apply rsum_pos; [apply support_nonempty|exact PO].
    + intros i Hi. rewrite map_length in Hi. destruct (MV (nth i (crp_support s1) 0)) as (m2 & E2 & _); [apply nth_In; exact Hi|].
      fold (Sz (nth i (crp_support s1) 0)) in E2. rewrite E2. exact I.
  - intros f. rewrite EQ2. cbn [expect].
    etransitivity; [|apply (flip_sum (crp_support s1) (fun z => dens m1 (Sz z)) 0
      (fun z => f (match observe m1 rid (Sz z) [] with Ret (m2, _) => m2 | _ => m1 end, Ok tt)))].
    apply rsum_ext. intros i Hi. apply in_seq in Hi. rewrite map_length in Hi. f_equal.
    destruct (MV (nth i (crp_support s1) 0)) as (m2 & E2 & _); [apply nth_In; lia|].
    fold (Sz (nth i (crp_support s1) 0)) in E2. rewrite E2. reflexivity.
Qed.

(** ** The score when a row is removed *)

Ltac cases_goal := repeat match goal with |- context [match ?x with _ => _ end] =>
  lazymatch x with context [match _ with _ => _ end] => fail | _ => destruct x end end.

Lemma leaf_settings : forall d rid obs ins, settings (fst (dist_observe d rid obs ins)) = settings d.
Proof.
  intros d rid obs ins. destruct d as [s|s|s|s|s|s]; cbn [dist_observe];
    [unfold crp_observe|unfold cat_observe|unfold ber_observe|unfold poi_observe|unfold nrm_observe|unfold nuc_observe];
    cbv zeta; cases_goal; reflexivity.
Qed.

Lemma leaf_settings_un : forall d rid, settings (fst (dist_unobserve d rid)) = settings d.
Proof.
  intros d rid. destruct d as [s|s|s|s|s|s]; cbn [dist_unobserve];
    [unfold crp_unobserve|unfold cat_unobserve|unfold ber_unobserve|unfold poi_unobserve|unfold nrm_unobserve|unfold nuc_unobserve];
    cbv zeta; cases_goal; reflexivity.
Qed.

Lemma ddel_perm : forall {K V} `{EqDec K} (d : dict K V) k v, lookup k d = Some v -> NoDup (keys d) -> Permutation (ddel k d ++ [(k, v)]) d.
Proof.
  intros K V E d k v. induction d as [|[k0 v0] d IH]; cbn [lookup ddel keys map fst]; intros L ND; [discriminate|].
  destruct (eq_dec k k0) as [->|NE].
  - injection L as ->. symmetry. apply Permutation_cons_append.
  - inversion ND; subst. cbn [app]. constructor. apply IH; assumption.
Qed.

(** Removing a value from a primitive takes its log density off the score. *)
Lemma leaf_remove : forall d rid x, dinv d -> lookup rid (dist_data d) = Some x ->
  in_domain (kind_of d) (dist_data (rm rid d)) x -> (0 < cell_density (rm rid d) x)%R ->
  prim_score d = (prim_score (rm rid d) + ln (cell_density (rm rid d) x))%R.
Proof.
  intros d rid x D L DM P.
  assert (D' : dinv (rm rid d)) by (unfold rm; apply unobserve_dinv; exact D).
  destruct (rm_frame rid d) as [FO FK].
  assert (NR : ~ In rid (keys (dist_data (rm rid d)))).
  { apply lookup_None. rewrite rm_lookup by exact D. destruct (eq_dec rid rid); congruence. }
  rewrite <- FK in DM. destruct (leaf_accepts (rm rid d) rid x D' NR DM) as (d2 & E2 & ED2).
  rewrite <- (prim_step (rm rid d) rid x d2 D' E2 P).
  assert (D2 := observe_dinv (rm rid d) rid [(dist_o (rm rid d), x)] [] D'). rewrite E2 in D2. cbn [fst] in D2.
  destruct (exchangeable d d2 D D2) as [_ (_ & _ & SC & _)].
  - assert (A := leaf_settings (rm rid d) rid [(dist_o (rm rid d), x)] []). rewrite E2 in A. cbn [fst] in A. rewrite A.
    unfold rm. symmetry. apply leaf_settings_un.
  - rewrite ED2, rm_data by exact D. symmetry.
    assert (ST : stored (kind_of (rm rid d)) x = x).
    { rewrite FK. apply lookup_In in L. destruct D as (_ & T & _). apply T in L. destruct (kind_of d), x; try reflexivity; cbn; try contradiction.
      destruct L as (t & -> & _). rewrite trunc_qz. reflexivity. }
    rewrite ST. apply ddel_perm; [exact L|apply D].
  - unfold prim_score. rewrite SC. reflexivity.
Qed.

Lemma rm_absent : forall rid d, lookup rid (dist_data d) = None -> rm rid d = d.
Proof. intros rid d L. unfold rm. rewrite leaf_unobserve_unknown; [reflexivity|apply lookup_None; exact L]. Qed.

Lemma columns_remove : forall rid (S : row) ds, (forall d, In d ds -> dinv d /\ kind_of d <> KTable) ->
  (forall d, In d ds -> lookup (dist_o d) S = lookup rid (dist_data d)) ->
  (0 < dens (CProd (map CDist (map (rm rid) ds))) S)%R ->
  total_score (CProd (map CDist ds)) = (total_score (CProd (map CDist (map (rm rid) ds))) + ln (dens (CProd (map CDist (map (rm rid) ds))) S))%R.
Proof.
  intros rid S ds. cbn [total_score dens]. rewrite !map_map. induction ds as [|d ds IH]; intros G LS P; cbn [map].
  { unfold rsum, rprod. cbn. rewrite ln_1. lra. }
  cbn [map] in P. change (rprod (?x :: ?l)) with (x * rprod l)%R in P |- *. change (rsum (?x :: ?l)) with (x + rsum l)%R.
  destruct (G d (or_introl eq_refl)) as [Dd Kd]. 
  assert (NN : (0 <= dens (CDist (rm rid d)) S)%R).
  { apply dens_nonneg. constructor. unfold rm. apply unobserve_dinv. exact Dd. }
  assert (NN2 : (0 <= rprod (map (fun x => dens (CDist (rm rid x)) S) ds))%R).
  { apply CompDens.rprod_nonneg. intros p Hp. apply in_map_iff in Hp. destruct Hp as (d' & <- & Hd'). apply dens_nonneg. constructor.
    unfold rm. apply unobserve_dinv. apply G. now right. }
  assert (P1 : (0 < dens (CDist (rm rid d)) S)%R).
  { destruct NN as [H|H]; [exact H|]. rewrite <- H in P. lra. }
  assert (P2 : (0 < rprod (map (fun x => dens (CDist (rm rid x)) S) ds))%R).
  { destruct NN2 as [H|H]; [exact H|]. rewrite <- H in P. lra. }
  rewrite ln_mult by assumption. rewrite IH; [|intros; apply G; now right|intros; apply LS; now right|exact P2].
  assert (X : prim_score d = (prim_score (rm rid d) + ln (dens (CDist (rm rid d)) S))%R).
  { cbn [dens] in P1 |- *. destruct (rm_frame rid d) as [FO _]. assert (LD := LS d (or_introl eq_refl)). rewrite FO, LD in P1 |- *.
    destruct (lookup rid (dist_data d)) as [x|] eqn:L.
    - apply leaf_remove; auto. eapply leaf_typed; eauto.
    - rewrite rm_absent by exact L. rewrite ln_1. lra. }
  cbn [total_score]. lra.
Qed.

Lemma removal_score : forall m rid m1 row s1 z, wf m -> sheet m -> consistent m -> seat m rid = Some (vz z) ->
  unobserve m rid = (m1, Ok (row, [])) -> divider m1 = Some (DCrp s1) -> In z (crp_support s1) ->
  (0 < dens m1 row)%R -> total_score m = (total_score m1 + ln (dens m1 row))%R.
Proof.
  intros m rid m1 row s1 z RE S K L EU DV Hz P. assert (W := RE).
  destruct (sheet_inv m S) as (s & bs & cs & r2i & r2c & -> & NB & B & C).
  assert (SH : shaped bs cs) by (split; [exact NB|split; assumption]).
  assert (KW : kept_well s bs cs r2i r2c) by (apply (consistent_parts s bs cs r2i r2c SH); exact K).
  destruct (view_parts _ _ _ _ _ W) as (D & Db & NDb & NI & NDk & Dc).
  cbn [seat mkview] in L. set (k := vz z) in *.
  destruct (cols_good s bs cs r2i r2c W B C k) as (GD & GN & GO).
  destruct (view_unobserve_exact s bs cs r2i r2c rid k W SH KW L) as (s' & EC & EO & ED & EX).
  rewrite EX in EU. injection EU as <- <-. injection DV as ->.
  set (row := (crp_o s, k) :: flat_map (got rid) (cols bs cs k)) in *.
  assert (LK : lookup (crp_o s1) row = Some k) by (rewrite EO; apply lookup_cons_eq).
  assert (LD : forall d, In d (cols bs cs k) -> lookup (dist_o d) row = lookup rid (dist_data d)).
  { intros d Hd. assert (NE : dist_o d <> crp_o s) by (intros E; apply NI; rewrite <- GO, <- E; now apply in_map).
    unfold row. rewrite lookup_cons_neq by exact NE. rewrite got_lookup by exact GN. apply in_column_Some; assumption. }
  unfold mkview in P |- *. cbn [dens dist_o total_score] in P |- *. rewrite LK in P |- *.
  change (rprod (map (fun c' => dens c' row) (map CDist bs))) with (dens (CProd (map CDist bs)) row) in P |- *.
  rewrite (lookup_dict_map (fun c' => dens c' row)) in P |- *. rewrite lookup_dset_eq in P |- *. cbn [option_map] in P |- *.
  fold (dens (CProd (map CDist (map (rm rid) (cols bs cs k)))) row) in P |- *.
  assert (D1 : dinv (DCrp s1)) by (assert (X := unobserve_dinv (DCrp s) rid D); rewrite EC in X; exact X).
  assert (RM : rm rid (DCrp s) = DCrp s1) by (unfold rm; rewrite EC; reflexivity).
  assert (N1 : (0 <= cell_density (DCrp s1) k)%R).
  { assert (X := dens_nonneg (CDist (DCrp s1)) (wf_dist _ D1) row). cbn [dens dist_o] in X. rewrite LK in X. exact X. }
  assert (N2 : (0 <= dens (CProd (map CDist (map (rm rid) (cols bs cs k)))) row)%R).
  { cbn [dens]. apply CompDens.rprod_nonneg. intros p Hp. rewrite !map_map in Hp. apply in_map_iff in Hp. destruct Hp as (d' & <- & Hd'). apply dens_nonneg. constructor.
    unfold rm. apply unobserve_dinv. apply GD. exact Hd'. }
  assert (P1 : (0 < cell_density (DCrp s1) k)%R) by (destruct N1 as [H|H]; [exact H|rewrite <- H in P; lra]).
  assert (P2 : (0 < dens (CProd (map CDist (map (rm rid) (cols bs cs k)))) row)%R) by (destruct N2 as [H|H]; [exact H|rewrite <- H in P; lra]).
  rewrite ln_mult by assumption. rewrite rsum_dset.
  assert (CR := columns_remove rid row (cols bs cs k) GD LD P2).
  assert (X1 : prim_score (DCrp s) = (prim_score (DCrp s1) + ln (cell_density (DCrp s1) k))%R).
  { rewrite <- RM. apply leaf_remove; [exact D|destruct KW as (_ & _ & A3 & _); rewrite A3; exact L| |rewrite RM; exact P1].
    rewrite RM. cbn [kind_of]. unfold k. cbn [in_domain]. change (vz z) with (VQ (qz z)). cbv iota. rewrite trunc_qz.
    apply crp_support_spec; [apply D1|apply D1|exact Hz]. }
  assert (X2 : match lookup k cs with Some w => total_score w | None => 0%R end = total_score (CProd (map CDist (cols bs cs k)))).
  { unfold cols. destruct (lookup k cs) as [c|] eqn:LC.
    - apply lookup_In in LC. destruct (C _ _ LC) as (ds & -> & _). rewrite leaves_prod. reflexivity.
    - symmetry. apply total_vacant.
      + inversion W; subst; assumption.
      + cbn [vacant]. apply each_In. intros c Hc. apply in_map_iff in Hc. destruct Hc as (d & <- & Hd). apply B. exact Hd. }
  rewrite X2, X1. rewrite CR. lra.
Qed.

(** ** Removing a row just put in *)

Lemma view_observe_exact : forall s bs cs r2i r2c rid obs z m2, let m := mkview s bs cs r2i r2c in
  wf m -> shaped bs cs -> kept_well s bs cs r2i r2c -> NoDup (keys obs) -> lookup rid r2c = None ->
  lookup (crp_o s) obs = Some (vz z) -> observe m rid obs [] = Ret (m2, Ok tt) ->
  exists s2 ds', dist_observe (DCrp s) rid [(crp_o s, vz z)] [] = (DCrp s2, Ok tt) /\
    Forall2 (takes rid (interd (map dist_o bs) obs)) (cols bs cs (vz z)) ds' /\
    m2 = mkview s2 bs (dset (vz z) (CProd (map CDist ds')) cs) (dset rid (vz z) r2i) (dset rid (vz z) r2c).
Proof.
  intros s bs cs r2i r2c rid obs z m2 m W SH KW ND L LZ. assert (SH0 := SH). destruct SH0 as (NB & B & C).
  destruct (cols_good s bs cs r2i r2c W B C (vz z)) as (GD & GN & GO).
  unfold m, mkview at 1. cbn [observe].
  change (flexarr_observe (crp_o s) (CProd (map CDist bs)) _ cs _ r2i) with (observe (CFlexArr (crp_o s) (CProd (map CDist bs)) cs r2i)).
  unfold mix_observe. cbv zeta. cbn [dist_o]. rewrite L, LZ. cbn [sbind].
  destruct (dist_observe (DCrp s) rid [(crp_o s, vz z)] []) as [div' [[]|e]] eqn:ED; [|discriminate].
  assert (FR := observe_frame (DCrp s) rid [(crp_o s, vz z)] []). rewrite ED in FR. cbn [fst] in FR. destruct FR as (FK & FO & _).
  destruct div' as [s2| | | | |]; try discriminate FK. cbn [dist_o] in FO.
  unfold mix_observe_x. cbn [dist_o]. rewrite FO, view_inputs, array_observe by exact SH.
  assert (OA : outputs (CFlexArr (crp_o s) (CProd (map CDist bs)) cs r2i) = map dist_o bs) by (apply outputs_prod).
  rewrite OA.
  destruct (columns_observe (cols bs cs (vz z)) rid (interd (map dist_o bs) obs)) as (ds' & res & E & H).
  { intros d Hd. apply GD. exact Hd. }
  { apply NoDup_keys_interd. exact ND. }
  rewrite E. cbn [sbind snd fst]. destruct H as [[-> F]|(e & ds1 & ds1' & d & ds2 & -> & _)].
  - cbn [sbind fst snd]. intros EQ. injection EQ as <-. exists s2, ds'. split; [reflexivity|]. split; [exact F|].
    unfold mkview. rewrite FO. reflexivity.
  - cbn [sbind fst snd]. discriminate.
Qed.

Lemma back_again : forall m1 rid S z m2 s1, wf m1 -> sheet m1 -> consistent m1 -> seat m1 rid = None -> NoDup (keys S) ->
  divider m1 = Some (DCrp s1) -> lookup (crp_o s1) S = Some (vz z) -> observe m1 rid S [] = Ret (m2, Ok tt) ->
  wf m2 -> sheet m2 -> consistent m2 -> 
  exists m1' row', unobserve m2 rid = (m1', Ok (row', [])) /\ total_score m1' = total_score m1 /\ divider m1' = divider m1 /\
    (forall T, dens m1' T = dens m1 T).
Proof.
  intros m1 rid S z m2 s1 W S1 K SE ND DV LZ OB W2 S2 K2.
  destruct (sheet_inv m1 S1) as (s & bs & cs & r2i & r2c & -> & NB & B & C). injection DV as ->.
  assert (SH : shaped bs cs) by (split; [exact NB|split; assumption]).
  assert (KW : kept_well s1 bs cs r2i r2c) by (apply (consistent_parts s1 bs cs r2i r2c SH); exact K).
  destruct (view_parts _ _ _ _ _ W) as (D & Db & NDb & NI & NDk & Dc).
  cbn [seat mkview] in SE.
  destruct (view_observe_exact s1 bs cs r2i r2c rid S z m2 W SH KW ND SE LZ OB) as (s2 & ds' & E1 & F & ->).
  set (k := vz z) in *. destruct (cols_good s1 bs cs r2i r2c W B C k) as (GD & GN & GO).
  set (cs2 := dset k (CProd (map CDist ds')) cs) in *.
  assert (SH2 : shaped bs cs2) by (apply (sheet_shaped s2 bs cs2 (dset rid k r2i) (dset rid k r2c)); exact S2).
  assert (KW2 : kept_well s2 bs cs2 (dset rid k r2i) (dset rid k r2c)) by (apply (consistent_parts s2 bs cs2 _ _ SH2); exact K2).
  destruct (view_unobserve_exact s2 bs cs2 (dset rid k r2i) (dset rid k r2c) rid k W2 SH2 KW2 (lookup_dset_eq _ _ _)) as (s' & EC & EO & ED & EX).
  rewrite EX. eexists. eexists. split; [reflexivity|].
  assert (CS2 : cols bs cs2 k = ds') by (unfold cs2; rewrite cols_set; destruct (eq_dec k k); congruence).
  rewrite CS2.
  clear CS2. assert (RM : map (rm rid) ds' = cols bs cs k).
  { assert (UN : forall d, In d (cols bs cs k) -> lookup rid (dist_data d) = None).
    { intros d Hd. apply lookup_None. intros H. destruct KW as (_ & _ & _ & _ & _ & A6). rewrite (A6 rid k d Hd H) in SE. discriminate. }
    clear - F GD UN. revert F GD UN. generalize (cols bs cs k). intros ds0 F GD UN. induction F as [|d d' ds ds' T F IH]; [reflexivity|]. cbn [map]. f_equal.
    - unfold takes in T. destruct (lookup (dist_o d) (interd (map dist_o bs) S)) as [x|].
      + destruct (unobserve_observe d rid _ [] d' (proj1 (GD d (or_introl eq_refl))) T) as (y & _ & E). unfold rm. rewrite E. reflexivity.
      + subst d'. apply rm_absent. apply UN. now left.
    - apply IH; intros; [apply GD|apply UN]; now right. }
  destruct (unobserve_observe (DCrp s1) rid _ [] (DCrp s2) D E1) as (y & _ & E3). rewrite E3 in EC. injection EC as <- _.
  split; [|split; [reflexivity|]].
  - unfold mkview. cbn [total_score]. rewrite RM. unfold cs2. rewrite !rsum_dset. rewrite lookup_dset_eq.
    assert (X2 : match lookup k cs with Some w => total_score w | None => 0%R end = total_score (CProd (map CDist (cols bs cs k)))).
    { unfold cols. destruct (lookup k cs) as [c|] eqn:LC.
      - apply lookup_In in LC. destruct (C _ _ LC) as (ds & -> & _). rewrite leaves_prod. reflexivity.
      - symmetry. apply total_vacant.
        + inversion W; subst; assumption.
        + cbn [vacant]. apply each_In. intros c Hc. apply in_map_iff in Hc. destruct Hc as (d & <- & Hd). apply B. exact Hd. }
    rewrite X2. lra.
  - intros T. rewrite RM.
    assert (LK : forall (a : val) (f : cgpm -> R), (match lookup a (map (fun p => let '(k0, c') := p in (k0, f c')) (dset k (CProd (map CDist (cols bs cs k))) cs2)) with Some r => r | None => f (CProd (map CDist bs)) end)
      = (match lookup a (map (fun p => let '(k0, c') := p in (k0, f c')) cs) with Some r => r | None => f (CProd (map CDist bs)) end)).
    { intros a f. rewrite !lookup_dict_map. unfold cs2. rewrite !lookup_dset. destruct (eq_dec a k) as [->|NE]; [|reflexivity].
      cbn [option_map]. unfold cols. destruct (lookup k cs) as [c|] eqn:LC; [|reflexivity].
      apply lookup_In in LC. destruct (C _ _ LC) as (ds & -> & _). rewrite leaves_prod. reflexivity. }
    unfold mkview. 
    assert (AR : forall T, dens (CFlexArr (crp_o s1) (CProd (map CDist bs)) (dset k (CProd (map CDist (cols bs cs k))) cs2) (ddel rid (dset rid k r2i))) T =
      dens (CFlexArr (crp_o s1) (CProd (map CDist bs)) cs r2i) T).
    { intros T0. cbn [dens]. destruct (lookup (crp_o s1) T0) as [a|]; [|reflexivity]. apply (LK a (fun c => dens c T0)). }
    change (dens (CMix true (DCrp s1) ?arr ?mp) T) with
      (match lookup (crp_o s1) T with
       | Some z => cell_density (DCrp s1) z * dens arr T
       | None => rsum (map (fun z => cell_density (DCrp s1) (vz z) * dens arr ((crp_o s1, vz z) :: T)) (crp_support s1))
       end)%R.
    destruct (lookup (crp_o s1) T); [rewrite AR; reflexivity|]. apply rsum_ext. intros a _. rewrite AR. reflexivity.
Qed.

(** ** Detailed balance *)

Lemma rsum_pick : forall (K : list Z) (p : Z -> R) z, NoDup K -> In z K ->
  rsum (map (fun a => (p a * (if eq_dec a z then 1 else 0))%R) K) = p z.
Proof.
  intros K p z ND Hz. induction K as [|a K IH]; [destruct Hz|]. cbn [map]. change (rsum (?x :: ?l)) with (x + rsum l)%R.
  inversion ND as [|? ? NI ND']; subst. destruct (eq_dec a z) as [->|NE].
  - rewrite rsum_zero; [lra|]. intros x Hx. apply in_map_iff in Hx. destruct Hx as (b & <- & Hb).
    destruct (eq_dec b z) as [->|]; [contradiction|lra].
  - destruct Hz as [->|Hz]; [congruence|]. rewrite IH by assumption. lra.
Qed.

Lemma gibbs_balance : forall m rid z0, wf m -> sheet m -> consistent m -> seat m rid = Some (vz z0) -> observable m rid ->
  exists K (mz : Z -> cgpm) (sz : Z -> R) sc, NoDup K /\
    (forall s, divider m = Some (DCrp s) -> exists s1, dist_unobserve (DCrp s) rid = (DCrp s1, Ok ([(crp_o s, vz z0)], [])) /\ crp_support s1 = K) /\
    (forall z, In z K -> moved m rid z (mz z) /\ wf (mz z) /\ score (mz z) = Ok (Fin (sz z)) /\
       (exists m1 row, unobserve m rid = (m1, Ok (row, [])) /\ observe m1 rid (dset (label_of m) (vz z) row) [] = Ret (mz z, Ok tt))) /\
    score m = Ok (Fin sc) /\ (In z0 K -> sz z0 = sc) /\
    finite_choices (transition_rows m rid) /\
    (forall f, expect (transition_rows m rid) f =
       rsum (map (fun z => (exp (sz z) / rsum (map (fun z' => exp (sz z')) K) * f (mz z, Ok tt))%R) K)) /\
    (forall z, In z K -> finite_choices (transition_rows (mz z) rid) /\
       exists mz', (forall z', In z' K -> moved m rid z' (mz' z') /\ score (mz' z') = Ok (Fin (sz z'))) /\
       forall f, expect (transition_rows (mz z) rid) f =
       rsum (map (fun z => (exp (sz z) / rsum (map (fun z' => exp (sz z')) K) * f (mz' z, Ok tt))%R) K)).
Proof.
  intros m rid z0 RE S KO SE OB. assert (W := RE). assert (L : seat m rid <> None) by congruence.
  destruct (gibbs_law m rid RE S KO L OB) as (m1 & row & s & s1 & mz & EU & DV & DV1 & D1 & ED & RR & FC & EX).
  set (Sz := fun z => dset (label_of m) (vz z) row) in *. set (K := crp_support s1) in *.
  destruct (view_unobserve m rid W S KO L) as (m1' & row' & EU' & DR & WR). rewrite EU in EU'. injection EU' as <- <-.
  set (c := total_score m1). set (p := fun z => dens m1 (Sz z)) in *.
  set (sz := fun z => (c + ln (p z))%R).
  assert (PO : forall z, In z K -> (0 < p z)%R) by (intros z Hz; apply (RR z Hz)).
  assert (TOT : (0 < rsum (map p K))%R) by (apply rsum_pos; [apply support_nonempty|exact PO]).
  assert (ESZ : forall z, In z K -> exp (sz z) = (exp c * p z)%R).
  { intros z Hz. unfold sz. rewrite exp_plus, exp_ln by (apply PO; exact Hz). reflexivity. }
  assert (ETOT : rsum (map (fun z' => exp (sz z')) K) = (exp c * rsum (map p K))%R).
  { rewrite <- rsum_scale, map_map. apply rsum_ext. exact ESZ. }
  assert (RAT : forall z, In z K -> (exp (sz z) / rsum (map (fun z' => exp (sz z')) K))%R = (p z / rsum (map p K))%R).
  { intros z Hz. rewrite ETOT, ESZ by exact Hz. assert (0 < exp c)%R by apply exp_pos. field. lra. }
  assert (SCO : forall x, wf x -> sheet x -> score x = Ok (Fin (total_score x))).
  { intros x RX SX. apply score_total; [exact RX|apply (sheet_tidy x SX)]. }
  exists K, mz, sz, (total_score m). split; [apply sorted_lt_NoDup; apply crp_support_sorted; exact D1|]. split; [|split; [|split; [|split; [|split; [|split]]]]].
  - intros s0 E0. rewrite DV in E0. injection E0 as <-.
    destruct (sheet_inv m S) as (s' & bs & cs & r2i & r2c & -> & NB & B & C). injection DV as ->.
    assert (SH : shaped bs cs) by (split; [exact NB|split; assumption]).
    assert (KW : kept_well s bs cs r2i r2c) by (apply (consistent_parts s bs cs r2i r2c SH); exact KO).
    destruct (view_unobserve_exact s bs cs r2i r2c rid (vz z0) W SH KW SE) as (s'' & EC & _ & _ & EX').
    rewrite EX' in EU. injection EU as <- _. injection DV1 as ->. exists s1. split; [exact EC|reflexivity].
  - intros z Hz. destruct (RR z Hz) as (R1 & R2 & R3 & R4 & R5). split; [exact R2|]. split; [exact R3|]. split.
    + rewrite SCO; [|exact R3|apply R2]. rewrite R5. reflexivity.
    + exists m1, row. auto.
  - apply SCO; assumption.
  - intros Hz. unfold sz, c, p.
    assert (E : Sz z0 = row).
    { unfold Sz. apply dset_same. destruct WR as (_ & _ & R3 & _). congruence. }
    rewrite E. symmetry. apply (removal_score m rid m1 row s1 z0 RE S KO SE EU DV1 Hz). rewrite <- E. apply PO. exact Hz.
  - exact FC.
  - intros f. rewrite EX. apply rsum_ext. intros z Hz. rewrite RAT by exact Hz. reflexivity.
  - intros z Hz. destruct (RR z Hz) as (R1 & R2 & R3 & R4 & R5).
    destruct R2 as (W2 & S2 & K2 & SC2 & OS2 & SE2 & CE2). destruct SC2 as (SC2a & SC2b & SC2c).
    assert (OB2 : observable (mz z) rid).
    { intros o Ho. rewrite SC2c. apply OB. rewrite <- CE2; [exact Ho|].
      destruct (sheet_inv (mz z) S2) as (s' & bs & cs & r2i & r2c & E & NB & B & C). rewrite <- SC2b. rewrite E in Ho |- *.
      assert (SH : shaped bs cs) by (split; [exact NB|split; assumption]). rewrite cell_parts in Ho by exact SH.
      change (columns_of (mkview s' bs cs r2i r2c)) with (outputs (CProd (map CDist bs))). rewrite outputs_prod.
      destruct (lookup rid r2c) as [k|]; [|discriminate]. rewrite E in W2.
      destruct (cols_good s' bs cs r2i r2c W2 B C k) as (GD & GN & GO). rewrite <- GO.
      destruct (in_dec Z.eq_dec o (map dist_o (cols bs cs k))) as [I1|I1]; [exact I1|]. rewrite in_column_None in Ho by exact I1. discriminate. }
    assert (L2 : seat (mz z) rid <> None) by congruence.
    destruct (gibbs_law (mz z) rid R3 S2 K2 L2 OB2) as (n1 & row2 & t & t1 & nz & FU & FV & FV1 & FD1 & FED & FR & FFC & FEX).
    destruct DR as (W1 & S1 & K1 & SC1 & OS1 & SE1).
    assert (EO : crp_o s1 = label_of m).
    { destruct SC1 as (X & _). destruct m1; try discriminate DV1. injection DV1 as ->. exact X. }
    assert (LZ : lookup (crp_o s1) (Sz z) = Some (vz z)) by (rewrite EO; apply lookup_dset_eq).
    assert (NS : NoDup (keys (Sz z))) by (apply NoDup_keys_dset; apply WR).
    destruct (back_again m1 rid (Sz z) z (mz z) s1 W1 S1 K1 SE1 NS DV1 LZ R1 W2 S2 K2) as (n1' & row2' & FU' & FT & FDV & FDE).
    rewrite FU in FU'. injection FU' as <- <-. rewrite FDV, DV1 in FV1. injection FV1 as <-. fold K in FR, FEX.
    split; [exact FFC|]. exists nz.
    destruct (view_unobserve (mz z) rid W2 S2 K2 L2) as (n1' & row2' & FU' & FDR & FWR). rewrite FU in FU'. injection FU' as <- <-.
    assert (DE : forall z', dens n1 (dset (label_of (mz z)) (vz z') row2) = p z').
    { intros z'. unfold p. rewrite FDE. apply dens_ext; [exact W1|]. intros o Ho. unfold Sz. rewrite !lookup_dset. rewrite SC2a.
      destruct (eq_dec o (label_of m)) as [->|NE]; [reflexivity|].
      assert (Hc : In o (columns_of m)).
      { destruct SC1 as (X1 & X2 & _). rewrite <- X2. destruct m1; try discriminate DV1. injection DV1 as ->. cbn [outputs] in Ho. destruct Ho as [Ho|Ho].
        - cbn [dist_o] in Ho. congruence.
        - exact Ho. }
      destruct WR as (_ & _ & _ & WR4). destruct FWR as (_ & _ & _ & FWR4). rewrite WR4 by exact Hc. rewrite FWR4 by (rewrite SC2b; exact Hc).
      apply CE2. exact Hc. }
    split.
    + intros z' Hz'. destruct (FR z' Hz') as (_ & FM & FRE & _ & FS). assert (SNZ := SCO (nz z') FRE (proj1 (proj2 FM))). split.
      2:{ rewrite SNZ, FS, FT, DE. reflexivity. }
      destruct FM as (M1 & M2 & M3 & M4 & M5 & M6 & M7).
      destruct M4 as (M4a & M4b & M4c).
      split; [exact M1|]. split; [exact M2|]. split; [exact M3|]. split; [split; [congruence|split; [congruence|intros o; rewrite M4c; apply SC2c]]|].
      split; [|split; [exact M6|]].
      * intros r NR. destruct (M5 r NR) as [A1 A2]. destruct (OS2 r NR) as [B1 B2]. split; [congruence|]. intros o. rewrite A2. apply B2.
      * intros o Ho. rewrite M7 by (rewrite SC2b; exact Ho). apply CE2. exact Ho.
    + intros f. rewrite FEX. apply rsum_ext. intros z' Hz'. rewrite RAT by exact Hz'. rewrite DE.
      rewrite (rsum_ext (fun z'0 => dens n1 (dset (label_of (mz z)) (vz z'0) row2)) p K) by (intros; apply DE). reflexivity.
Qed.

(** ** set_rowid_component *)

Lemma support_occupied : forall s r t, dinv (DCrp s) -> lookup r (dist_data (DCrp s)) = Some (vz t) -> In t (crp_support s).
Proof. intros s r t D L. apply crp_support_spec; [apply D|apply D|]. left. exists r. apply lookup_In. exact L. Qed.

Lemma support_last : forall s, dinv (DCrp s) -> In (last (crp_support s) 0) (crp_support s) /\
  forall r, lookup r (dist_data (DCrp s)) <> Some (vz (last (crp_support s) 0)).
Proof.
  intros s D. split.
  - assert (NE := support_nonempty s). destruct (exists_last NE) as (l & a & E). rewrite E, last_last. apply in_or_app. right. now left.
  - intros r L. assert (SO := crp_support_sorted s D). assert (SI := support_occupied s r _ D L).
    apply lookup_In in L. destruct D as (_ & T & S & _).
    assert (OC : In (last (crp_support s) 0) (keys (crp_counts s))) by (eapply counts_keys; [exact S|exists r; exact L]).
    revert OC SO. unfold crp_support. destruct (zsort (keys (crp_counts s))) as [|k ks] eqn:E; intros OC SO.
    + apply zsort_In in OC. rewrite E in OC. destruct OC.
    + rewrite last_last in OC. apply zsort_In in OC. rewrite E in OC. revert OC SO. generalize (zmax k ks + 1). intros a OC SO.
      assert (G : forall l, StronglySorted Z.lt (l ++ [a]) -> ~ In a l).
      { clear. induction l as [|b l IH]; intros SO H; [destruct H|]. cbn in SO. inversion SO as [|? ? SO' F]; subst.
        rewrite Forall_forall in F. destruct H as [->|H]; [|exact (IH SO' H)].
        assert (X : a < a) by (apply F; apply in_or_app; right; now left). lia. }
      exact (G (k :: ks) SO OC).
Qed.

Lemma view_divider : forall m s, sheet m -> consistent m -> divider m = Some (DCrp s) -> forall r, lookup r (dist_data (DCrp s)) = seat m r.
Proof.
  intros m s S K DV r. destruct (sheet_inv m S) as (s' & bs & cs & r2i & r2c & -> & _). injection DV as ->. apply K.
Qed.

Lemma set_component_join : forall m r0 r1 z, wf m -> sheet m -> consistent m -> seat m r0 <> None -> r0 <> r1 ->
  seat m r1 = Some (vz z) ->
  exists m', set_rowid_component m r0 (Some r1) = Ret (m', Ok tt) /\ moved m r0 z m'.
Proof.
  intros m r0 r1 z W S K L NE L1.
  destruct (view_move m r0 W S K L) as (m1 & row & s & s1 & EU & DR & WR & DV & DV1 & EO & ED & D1 & MV).
  assert (LD := view_divider m s S K DV).
  destruct (MV z) as (m2 & E2 & M2).
  { destruct DR as (_ & S1 & K1 & _ & OS & _). apply (support_occupied s1 r1 z D1). rewrite (view_divider m1 s1 S1 K1 DV1).
    destruct (OS r1) as [-> _]; [congruence|exact L1]. }
  exists m2. split; [|exact M2]. unfold set_rowid_component.
  destruct m as [| | | |flex div arr mp]; try discriminate DV. injection DV as ->.
  replace (int_is r0 r1) with false by (unfold int_is; destruct (Z.eqb_spec r0 r1); [congruence|reflexivity]).
  rewrite LD, L1, EU. exact E2.
Qed.

Lemma set_component_alone : forall m r0, wf m -> sheet m -> consistent m -> seat m r0 <> None ->
  exists m' z, set_rowid_component m r0 None = Ret (m', Ok tt) /\ moved m r0 z m' /\
    forall r, r <> r0 -> seat m' r <> Some (vz z).
Proof.
  intros m r0 W S K L.
  destruct (view_move m r0 W S K L) as (m1 & row & s & s1 & EU & DR & WR & DV & DV1 & EO & ED & D1 & MV).
  destruct (support_last s1 D1) as [SL1 SL2]. destruct (MV _ SL1) as (m2 & E2 & M2).
  exists m2, (last (crp_support s1) 0). split; [|split; [exact M2|]].
  - unfold set_rowid_component. destruct (sheet_inv m S) as (s' & bs & cs & r2i & r2c & E & _). rewrite E. unfold mkview at 1. rewrite <- E, EU.
    destruct m1 as [| | | |fl1 div1 arr1 mp1]; try discriminate DV1. injection DV1 as ->. cbn [dist_support dist_o]. rewrite EO. exact E2.
  - intros r NR H. destruct M2 as (_ & _ & _ & _ & OS2 & _). destruct (OS2 r NR) as [E _]. rewrite E in H.
    destruct DR as (_ & S1 & K1 & _ & OS & _). destruct (OS r NR) as [E' _]. rewrite <- E' in H.
    rewrite <- (view_divider m1 s1 S1 K1 DV1) in H. exact (SL2 r H).
Qed.
