(** Views as tables: proofs. *)
From Coq Require Import List ZArith QArith Qcanon Reals Bool String Permutation Lia Lra.
From Verif Require Import Base Xr Samp Lgamma Prims Cgpm Lib SpecPrims PrimsInv PrimsDens PrimsThm PrimsThm2
  SpecComp CompInv CompDens CompThm SpecSim SimShape SpecBook Book SpecTable Trans.
Import ListNotations.
Local Open Scope Z_scope.

(** ** Columns *)

Lemma leaves_prod : forall ds, leaves (CProd (map CDist ds)) = ds.
Proof. intros ds. cbn [leaves]. induction ds as [|d ds IH]; cbn; [reflexivity|]. f_equal. exact IH. Qed.

Lemma outputs_prod : forall ds, outputs (CProd (map CDist ds)) = map dist_o ds.
Proof. intros ds. cbn [outputs]. induction ds as [|d ds IH]; cbn; [reflexivity|]. f_equal. exact IH. Qed.

Lemma alike_o : forall ds ds', alike ds ds' -> map dist_o ds' = map dist_o ds.
Proof.
  unfold alike. induction ds as [|d ds IH]; intros [|d' ds'] E; cbn in *; try discriminate; [reflexivity|].
  injection E as E1 E2 E3. rewrite E1. f_equal. auto.
Qed.

Lemma alike_kind : forall ds ds', alike ds ds' -> (forall d, In d ds -> kind_of d <> KTable) -> forall d, In d ds' -> kind_of d <> KTable.
Proof.
  unfold alike. induction ds as [|d ds IH]; intros [|d' ds'] E H x Hx; cbn in *; try discriminate; [contradiction|].
  injection E as E1 E2 E3. destruct Hx as [<-|Hx]; [rewrite E2; apply H; auto|]. apply (IH ds'); auto.
Qed.

Lemma alike_trans : forall a b c, alike a b -> alike b c -> alike a c.
Proof. unfold alike. congruence. Qed.

Lemma alike_Forall2 : forall ds ds', Forall2 (fun d d' => dist_o d' = dist_o d /\ kind_of d' = kind_of d) ds ds' -> alike ds ds'.
Proof. unfold alike. induction 1 as [|d d' ds ds' [E1 E2] H IH]; cbn; [reflexivity|]. rewrite E1, E2, IH. reflexivity. Qed.

Lemma in_column_Some : forall ds d r, NoDup (map dist_o ds) -> In d ds -> in_column ds r (dist_o d) = lookup r (dist_data d).
Proof.
  intros ds d r. unfold in_column. induction ds as [|d0 ds IH]; cbn [map find]; intros ND H; [destruct H|].
  inversion ND as [|? ? NI ND']; subst. destruct H as [->|H].
  - rewrite Z.eqb_refl. reflexivity.
  - destruct (Z.eqb_spec (dist_o d0) (dist_o d)) as [E|NE]; [|apply IH; auto].
    exfalso. apply NI. rewrite E. now apply in_map.
Qed.

Lemma in_column_None : forall ds r o, ~ In o (map dist_o ds) -> in_column ds r o = None.
Proof.
  intros ds r o. unfold in_column. induction ds as [|d0 ds IH]; cbn [map find]; intros NI; [reflexivity|].
  destruct (Z.eqb_spec (dist_o d0) o) as [E|NE]; [exfalso; apply NI; now left|]. apply IH. intros H. apply NI. now right.
Qed.

Lemma stored_same : forall K x, K <> KTable -> stored K x = x.
Proof. intros [| | | |] x H; [congruence|reflexivity..]. Qed.

Lemma takes_frame : forall rid obs d d', takes rid obs d d' -> dist_o d' = dist_o d /\ kind_of d' = kind_of d.
Proof.
  intros rid obs d d' T. unfold takes in T. destruct (lookup (dist_o d) obs) as [x|]; [|subst; auto].
  assert (F := observe_frame d rid [(dist_o d, x)] []). rewrite T in F. cbn in F. tauto.
Qed.

Lemma takes_data : forall rid obs d d' r, dinv d -> kind_of d <> KTable -> takes rid obs d d' ->
  lookup r (dist_data d') = match lookup (dist_o d) obs with
                            | Some x => if eq_dec r rid then Some x else lookup r (dist_data d)
                            | None => lookup r (dist_data d)
                            end.
Proof.
  intros rid obs d d' r D K T. unfold takes in T. destruct (lookup (dist_o d) obs) as [x|]; [|subst; reflexivity].
  destruct (leaf_accepted _ _ _ _ D T) as (y & E & NI & DM & ->). injection E as <-. rewrite stored_same by exact K.
  rewrite lookup_app. destruct (eq_dec r rid) as [->|NE].
  - apply lookup_None in NI. rewrite NI. cbn. destruct (eq_dec rid rid); [reflexivity|congruence].
  - destruct (lookup r (dist_data d)); [reflexivity|]. cbn. destruct (eq_dec r rid); [congruence|reflexivity].
Qed.

Lemma takes_fresh : forall rid obs d d' x, dinv d -> takes rid obs d d' -> lookup (dist_o d) obs = Some x ->
  lookup rid (dist_data d) = None.
Proof.
  intros rid obs d d' x D T L. unfold takes in T. rewrite L in T.
  destruct (leaf_accepted _ _ _ _ D T) as (y & E & NI & _). apply lookup_None. exact NI.
Qed.

Lemma takes_columns : forall rid obs ds ds', Forall2 (takes rid obs) ds ds' ->
  (forall d, In d ds -> dinv d /\ kind_of d <> KTable) -> NoDup (map dist_o ds) ->
  forall r o, in_column ds' r o = match (if eq_dec r rid then (if memb o (map dist_o ds) then lookup o obs else None) else None) with
                                  | Some x => Some x | None => in_column ds r o end.
Proof.
  intros rid obs ds ds' F D ND r o.
  assert (E : map dist_o ds' = map dist_o ds).
  { clear D ND. induction F as [|d d' ds ds' T F IH]; cbn; [reflexivity|]. destruct (takes_frame _ _ _ _ T) as [-> _]. f_equal. exact IH. }
  destruct (memb o (map dist_o ds)) eqn:M.
  - apply memb_In in M. apply in_map_iff in M. destruct M as (d & <- & Hd).
    assert (X : exists d', In d' ds' /\ takes rid obs d d').
    { clear - F Hd. induction F as [|a a' ds ds' T F IH]; [destruct Hd|]. destruct Hd as [->|Hd]; [exists a'; split; [now left|exact T]|].
      destruct (IH Hd) as (d' & H1 & H2). exists d'. split; [now right|exact H2]. }
    destruct X as (d' & Hd' & T). destruct (D d Hd) as [Dd Kd].
    rewrite (in_column_Some ds d r ND Hd). destruct (takes_frame _ _ _ _ T) as [Eo _]. rewrite <- Eo at 1.
    rewrite in_column_Some; [|rewrite E; exact ND|exact Hd']. rewrite (takes_data rid obs d d' r Dd Kd T).
    destruct (lookup (dist_o d) obs); destruct (eq_dec r rid); reflexivity.
  - apply memb_false in M. rewrite !in_column_None; [destruct (eq_dec r rid); reflexivity|exact M|rewrite E; exact M].
Qed.

(** ** Shape of a well-formed sheet *)

Definition mkview (s : crp) (bs : list dist) (cs : dict val cgpm) (r2i r2c : dict Z val) : cgpm :=
  CMix true (DCrp s) (CFlexArr (crp_o s) (CProd (map CDist bs)) cs r2i) r2c.

Lemma sheet_inv : forall m, sheet m -> exists s bs cs r2i r2c, m = mkview s bs cs r2i r2c /\ bs <> [] /\
  (forall d, In d bs -> kind_of d <> KTable /\ dist_data d = []) /\
  (forall k c, In (k, c) cs -> exists ds, c = CProd (map CDist ds) /\ alike bs ds).
Proof. intros m [s bs cs r2i r2c H1 H2 H3]. exists s, bs, cs, r2i, r2c. auto. Qed.

Lemma view_parts : forall s bs cs r2i r2c, wf (mkview s bs cs r2i r2c) ->
  dinv (DCrp s) /\ (forall d, In d bs -> dinv d) /\ NoDup (map dist_o bs) /\ ~ In (crp_o s) (map dist_o bs) /\
  NoDup (keys cs) /\ forall k ds, In (k, CProd (map CDist ds)) cs -> forall d, In d ds -> dinv d.
Proof.
  intros s bs cs r2i r2c W. inversion W as [| | |? ? ? ? ? D HS Wb NI ND Wc O]; subst.
  inversion Wb as [|? Wl NDl| |]; subst. assert (OB := outputs_prod bs). rewrite OB in NI. cbn [outputs] in OB.
  rewrite OB in NDl.
  split; [exact D|]. split.
  { intros d H. assert (X : wf (CDist d)) by (apply Wl; now apply in_map). inversion X; assumption. }
  split; [exact NDl|]. split; [exact NI|]. split; [exact ND|].
  intros k ds H d Hd. assert (X := Wc _ _ H). inversion X as [|? Wl' ND'| |]; subst.
  assert (Y : wf (CDist d)) by (apply Wl'; now apply in_map). inversion Y; assumption.
Qed.

(** The columns of the component of a cluster. *)
Definition cols (bs : list dist) (cs : dict val cgpm) (k : val) : list dist :=
  match lookup k cs with Some c => leaves c | None => bs end.

Lemma component_cols : forall ix bs cs r2i k, (forall k c, In (k, c) cs -> exists ds, c = CProd (map CDist ds) /\ alike bs ds) ->
  component_at (CFlexArr ix (CProd (map CDist bs)) cs r2i) k = CProd (map CDist (cols bs cs k)).
Proof.
  intros ix bs cs r2i k H. cbn [component_at]. unfold cols. destruct (lookup k cs) as [c|] eqn:L; [|reflexivity].
  apply lookup_In in L. destruct (H _ _ L) as (ds & -> & _). rewrite leaves_prod. reflexivity.
Qed.

Lemma cols_alike : forall bs cs k, (forall k c, In (k, c) cs -> exists ds, c = CProd (map CDist ds) /\ alike bs ds) ->
  alike bs (cols bs cs k).
Proof.
  intros bs cs k H. unfold cols. destruct (lookup k cs) as [c|] eqn:L; [|reflexivity].
  apply lookup_In in L. destruct (H _ _ L) as (ds & -> & A). rewrite leaves_prod. exact A.
Qed.

Lemma cols_good : forall s bs cs r2i r2c, wf (mkview s bs cs r2i r2c) ->
  (forall d, In d bs -> kind_of d <> KTable /\ dist_data d = []) ->
  (forall k c, In (k, c) cs -> exists ds, c = CProd (map CDist ds) /\ alike bs ds) ->
  forall k, (forall d, In d (cols bs cs k) -> dinv d /\ kind_of d <> KTable) /\ NoDup (map dist_o (cols bs cs k)) /\
    map dist_o (cols bs cs k) = map dist_o bs.
Proof.
  intros s bs cs r2i r2c W B C k. destruct (view_parts _ _ _ _ _ W) as (D & Db & NDb & NI & ND & Dc).
  assert (A := cols_alike bs cs k C). assert (E := alike_o _ _ A). split; [|split; [rewrite E; exact NDb|exact E]].
  intros d Hd. split; [|apply (alike_kind bs (cols bs cs k) A); auto; intros d0 H0; apply B; exact H0].
  unfold cols in Hd. destruct (lookup k cs) as [c|] eqn:L; [|auto].
  apply lookup_In in L. destruct (C _ _ L) as (ds & -> & _). rewrite leaves_prod in Hd. eapply Dc; eauto.
Qed.

Lemma cols_set : forall bs cs k ds k', cols bs (dset k (CProd (map CDist ds)) cs) k' = if eq_dec k' k then ds else cols bs cs k'.
Proof.
  intros. unfold cols. rewrite lookup_dset. destruct (eq_dec k' k); [apply leaves_prod|reflexivity].
Qed.

(** ** Consistency in terms of the parts *)

Definition kept_well (s : crp) (bs : list dist) (cs : dict val cgpm) (r2i r2c : dict Z val) : Prop :=
  NoDup (keys r2c) /\ NoDup (keys r2i) /\
  (forall r, lookup r (dist_data (DCrp s)) = lookup r r2c) /\
  (forall r, lookup r r2i = lookup r r2c) /\
  (forall r k, lookup r r2c = Some k -> exists z, k = vz z) /\
  (forall r k d, In d (cols bs cs k) -> In r (keys (dist_data d)) -> lookup r r2c = Some k).

Definition shaped (bs : list dist) (cs : dict val cgpm) : Prop :=
  bs <> [] /\ (forall d, In d bs -> kind_of d <> KTable /\ dist_data d = []) /\
  (forall k c, In (k, c) cs -> exists ds, c = CProd (map CDist ds) /\ alike bs ds).

Lemma sheet_shaped : forall s bs cs r2i r2c, sheet (mkview s bs cs r2i r2c) <-> shaped bs cs.
Proof.
  intros. split.
  - intros H. inversion H as [s' bs' cs' r2i' r2c' H1 H2 H3 [E1 E2 E3]].
    assert (EB : bs' = bs). { apply (f_equal leaves) in E3 || idtac. 
      assert (X : leaves (CProd (map CDist bs')) = leaves (CProd (map CDist bs))) by (cbn [leaves]; congruence).
      rewrite !leaves_prod in X. exact X. }
    subst. split; [exact H1|split; assumption].
  - intros (H1 & H2 & H3). constructor; assumption.
Qed.

Lemma consistent_parts : forall s bs cs r2i r2c, shaped bs cs ->
  consistent (mkview s bs cs r2i r2c) <-> kept_well s bs cs r2i r2c.
Proof.
  intros s bs cs r2i r2c (_ & _ & C). unfold mkview. cbn [consistent row_index].
  assert (E : forall k, leaves (component_at (CFlexArr (crp_o s) (CProd (map CDist bs)) cs r2i) k) = cols bs cs k).
  { intros k. rewrite component_cols by exact C. apply leaves_prod. }
  unfold kept_well. split; intros (A1 & A2 & A3 & A4 & A5 & A6); repeat (split; [assumption|]); intros r k d Hd;
    [rewrite <- E in Hd|rewrite E in Hd]; eapply A6; eauto.
Qed.

Lemma cell_parts : forall s bs cs r2i r2c r o, shaped bs cs ->
  cell (mkview s bs cs r2i r2c) r o = match lookup r r2c with Some k => in_column (cols bs cs k) r o | None => None end.
Proof.
  intros s bs cs r2i r2c r o (_ & _ & C). unfold mkview. cbn [cell]. destruct (lookup r r2c) as [k|]; [|reflexivity].
  rewrite component_cols by exact C. rewrite leaves_prod. reflexivity.
Qed.

Lemma in_column_unseated : forall s bs cs r2i r2c k r o, kept_well s bs cs r2i r2c -> lookup r r2c <> Some k ->
  in_column (cols bs cs k) r o = None.
Proof.
  intros s bs cs r2i r2c k r o (_ & _ & _ & _ & _ & A6) N. unfold in_column.
  destruct (find (fun d => dist_o d =? o) (cols bs cs k)) as [d|] eqn:F; [|reflexivity].
  apply find_some in F. destruct F as [Hd _]. apply lookup_None. intros H. apply N. eapply A6; eauto.
Qed.

(** ** Recording cells of a row *)

Lemma view_put : forall s s' bs cs r2i r2c rid obs z ds',
  let k := vz z in
  let m := mkview s bs cs r2i r2c in
  let m' := mkview s' bs (dset k (CProd (map CDist ds')) cs) (dset rid k r2i) (dset rid k r2c) in
  wf m -> shaped bs cs -> kept_well s bs cs r2i r2c ->
  lookup rid r2c = None \/ lookup rid r2c = Some k -> crp_o s' = crp_o s ->
  (forall r, lookup r (dist_data (DCrp s')) = if eq_dec r rid then Some k else lookup r r2c) ->
  Forall2 (takes rid obs) (cols bs cs k) ds' ->
  shaped bs (dset k (CProd (map CDist ds')) cs) /\
  kept_well s' bs (dset k (CProd (map CDist ds')) cs) (dset rid k r2i) (dset rid k r2c) /\
  others_same rid m m' /\ seat m' rid = Some k /\
  (forall o, In o (map dist_o bs) -> cell m' rid o = match lookup o obs with Some x => Some x | None => cell m rid o end) /\
  (forall o x, In o (map dist_o bs) -> lookup o obs = Some x -> cell m rid o = None).
Proof.
  intros s s' bs cs r2i r2c rid obs z ds' k m m' W SH KW RS Eo LS F.
  assert (SH0 := SH). destruct SH as (NB & B & C). assert (KW0 := KW). destruct KW as (N1 & N2 & A3 & A4 & A5 & A6).
  destruct (cols_good s bs cs r2i r2c W B C k) as (GD & GN & GO).
  assert (AL : alike (cols bs cs k) ds').
  { apply alike_Forall2. clear - F. induction F as [|d d' ds ds' T F IH]; constructor; [eapply takes_frame; eauto|exact IH]. }
  assert (SH' : shaped bs (dset k (CProd (map CDist ds')) cs)).
  { split; [exact NB|split; [exact B|]]. intros k0 c H. apply dset_In in H. destruct H as [[-> ->]|H]; [|apply (C k0 c H)].
    exists ds'. split; [reflexivity|]. eapply alike_trans; [apply cols_alike; exact C|exact AL]. }
  assert (TC := takes_columns rid obs _ _ F GD GN).
  split; [exact SH'|]. split; [|split; [|split; [|split]]].
  - split; [apply NoDup_keys_dset; exact N1|]. split; [apply NoDup_keys_dset; exact N2|].
    split; [intros r; rewrite LS, lookup_dset; reflexivity|].
    split; [intros r; rewrite !lookup_dset; destruct (eq_dec r rid); [reflexivity|apply A4]|].
    split.
    + intros r k0 H. rewrite lookup_dset in H. destruct (eq_dec r rid); [exists z; injection H as <-; reflexivity|eapply A5; eauto].
    + intros r k0 d Hd Hr. rewrite cols_set in Hd. rewrite lookup_dset.
      destruct (eq_dec k0 k) as [->|NE].
      * destruct (eq_dec r rid) as [->|NR]; [reflexivity|].
        assert (X : exists d0, In d0 (cols bs cs k) /\ takes rid obs d0 d).
        { clear - F Hd. induction F as [|a a' ds ds' T F IH]; [destruct Hd|]. destruct Hd as [->|Hd]; [exists a; split; [now left|exact T]|].
          destruct (IH Hd) as (d' & H1 & H2). exists d'. split; [now right|exact H2]. }
        destruct X as (d0 & Hd0 & T). destruct (GD d0 Hd0) as [Dd Kd]. apply (A6 r k d0 Hd0).
        assert (L := takes_data rid obs d0 d r Dd Kd T). apply lookup_keys in Hr. destruct Hr as [v Hv]. rewrite Hv in L.
        destruct (lookup (dist_o d0) obs); [destruct (eq_dec r rid); [congruence|]|]; symmetry in L; eapply lookup_Some_keys; eauto.
      * assert (X := A6 r k0 d Hd Hr). destruct (eq_dec r rid) as [->|NR]; [|exact X].
        exfalso. destruct RS as [RS|RS]; congruence.
  - intros r NR. unfold m, m', seat, mkview. rewrite lookup_dset. destruct (eq_dec r rid); [congruence|]. split; [reflexivity|].
    intros o. fold (mkview s bs cs r2i r2c) (mkview s' bs (dset k (CProd (map CDist ds')) cs) (dset rid k r2i) (dset rid k r2c)).
    rewrite !cell_parts by assumption. rewrite lookup_dset. destruct (eq_dec r rid); [congruence|].
    destruct (lookup r r2c) as [k0|]; [|reflexivity]. rewrite cols_set. destruct (eq_dec k0 k) as [->|NE]; [|reflexivity].
    rewrite TC. destruct (eq_dec r rid); [congruence|reflexivity].
  - unfold m', seat, mkview. apply lookup_dset_eq.
  - intros o Ho. unfold m, m'. rewrite !cell_parts by assumption. rewrite lookup_dset_eq. rewrite cols_set.
    destruct (eq_dec k k) as [_|]; [|congruence]. rewrite TC. destruct (eq_dec rid rid) as [_|]; [|congruence].
    rewrite GO. assert (M : memb o (map dist_o bs) = true) by (apply memb_In; exact Ho). rewrite M.
    destruct (lookup o obs); [reflexivity|]. destruct RS as [RS|RS]; rewrite RS; [|reflexivity].
    eapply in_column_unseated; eauto. congruence.
  - intros o x Ho Lx. unfold m. rewrite cell_parts by assumption. destruct RS as [RS|RS]; rewrite RS; [reflexivity|].
    rewrite <- GO in Ho. apply in_map_iff in Ho. destruct Ho as (d & <- & Hd).
    rewrite in_column_Some by assumption.
    assert (X : exists d', takes rid obs d d').
    { clear - F Hd. induction F as [|a a' ds ds' T F IH]; [destruct Hd|]. destruct Hd as [->|Hd]; [exists a'; exact T|auto]. }
    destruct X as [d' T]. eapply takes_fresh; eauto. apply GD. exact Hd.
Qed.

Lemma array_observe : forall ix bs cs r2i rid obs k, shaped bs cs ->
  observe (CFlexArr ix (CProd (map CDist bs)) cs r2i) rid obs [(ix, k)] =
  (let! r := observe (CProd (map CDist (cols bs cs k))) rid obs [] in
   match snd r with
   | Err e => Ret (CFlexArr ix (CProd (map CDist bs)) (dset k (fst r) cs) r2i, Err e)
   | Ok _ => Ret (CFlexArr ix (CProd (map CDist bs)) (dset k (fst r) cs) (dset rid k r2i), Ok tt)
   end).
Proof.
  intros ix bs cs r2i rid obs k (_ & _ & C).
  change (observe (CFlexArr ix (CProd (map CDist bs)) cs r2i)) with
    (flexarr_observe ix (CProd (map CDist bs)) (observe (CProd (map CDist bs))) cs
       (map (fun p => let '(k, c') := p in (k, observe c')) cs) r2i).
  unfold flexarr_observe. rewrite lookup_cons_eq.
  replace (ddel ix [(ix, k)]) with (@nil (Z * val)) by (cbn [ddel]; destruct (eq_dec ix ix); [reflexivity|congruence]).
  rewrite lookup_dict_map. unfold cols. destruct (lookup k cs) as [c|] eqn:L; [|reflexivity].
  apply lookup_In in L. destruct (C _ _ L) as (ds & -> & _). rewrite leaves_prod. reflexivity.
Qed.

Lemma view_inputs : forall ix bs cs r2i (k : val), merged (interd (tl (inputs (CFlexArr ix (CProd (map CDist bs)) cs r2i))) []) [(ix, k)] = [(ix, k)].
Proof. intros. cbn [inputs tl]. replace (interd (flat_map inputs (map CDist bs)) []) with (@nil (Z * val)) by reflexivity. reflexivity. Qed.

Definition recorded_as (m : cgpm) (rid : Z) (obs : row) (m' : cgpm) : Prop :=
  wf m' /\ sheet m' /\ consistent m' /\ same_columns m m' /\ others_same rid m m' /\
  (exists z, seat m' rid = Some (vz z) /\ (forall w, seat m rid = Some w -> w = vz z) /\
     (seat m rid = None -> forall y, lookup (label_of m) obs = Some y -> y = vz z)) /\
  (forall o, In o (columns_of m) -> cell m' rid o = match lookup o obs with Some x => Some x | None => cell m rid o end) /\
  (forall o x, In o (columns_of m) -> lookup o obs = Some x -> cell m rid o = None).

Lemma lookup_interd_In : forall l (S : row) o, In o l -> lookup o (interd l S) = lookup o S.
Proof. intros l S o H. rewrite lookup_interd. apply memb_In in H. rewrite H. reflexivity. Qed.

(** The second half of observe. *)
Lemma view_observe_x : forall s s' bs cs r2i r2c rid obs z, let k := vz z in
  wf (mkview s bs cs r2i r2c) -> shaped bs cs -> kept_well s bs cs r2i r2c -> NoDup (keys obs) ->
  lookup rid r2c = None \/ lookup rid r2c = Some k -> crp_o s' = crp_o s -> dinv (DCrp s') ->
  (forall r, lookup r (dist_data (DCrp s')) = if eq_dec r rid then Some k else lookup r r2c) ->
  exists m' res,
    mix_observe_x true (DCrp s') (CFlexArr (crp_o s) (CProd (map CDist bs)) cs r2i)
      (observe (CFlexArr (crp_o s) (CProd (map CDist bs)) cs r2i)) (dset rid k r2c) rid obs [] k = Ret (m', res) /\
    (res = Ok tt ->
     wf m' /\ sheet m' /\ consistent m' /\ same_columns (mkview s bs cs r2i r2c) m' /\
     others_same rid (mkview s bs cs r2i r2c) m' /\ seat m' rid = Some k /\
     (forall o, In o (map dist_o bs) -> cell m' rid o = match lookup o obs with Some x => Some x | None => cell (mkview s bs cs r2i r2c) rid o end) /\
     (forall o x, In o (map dist_o bs) -> lookup o obs = Some x -> cell (mkview s bs cs r2i r2c) rid o = None)) /\
    ((forall d, In d (cols bs cs k) -> forall x, lookup (dist_o d) obs = Some x ->
        in_domain (kind_of d) (dist_data d) x /\ ~ In rid (keys (dist_data d))) -> res = Ok tt).
Proof.
  intros s s' bs cs r2i r2c rid obs z k W SH KW ND RS Eo D' LS. assert (SH0 := SH). destruct SH0 as (NB & B & C).
  destruct (cols_good s bs cs r2i r2c W B C k) as (GD & GN & GO).
  unfold mix_observe_x. cbn [dist_o]. rewrite Eo, view_inputs, array_observe by exact SH.
  assert (OA : outputs (CFlexArr (crp_o s) (CProd (map CDist bs)) cs r2i) = map dist_o bs) by (apply outputs_prod).
  rewrite OA.
  destruct (columns_observe (cols bs cs k) rid (interd (map dist_o bs) obs)) as (ds' & res & E & H).
  { intros d Hd. apply GD. exact Hd. }
  { apply NoDup_keys_interd. exact ND. }
  rewrite E. cbn [sbind snd fst]. destruct H as [[-> F]|(e & ds1 & ds1' & d & ds2 & -> & E1 & E2 & F & R)].
  - cbn [sbind fst snd]. eexists. exists (Ok tt). split; [reflexivity|]. split; [|auto]. intros _.
    destruct (view_put s s' bs cs r2i r2c rid _ z ds' W SH KW RS Eo LS F) as (P1 & P2 & P3 & P4 & P5 & P6).
    fold k in P1, P2, P3, P4, P5, P6.
    rewrite <- Eo. fold (mkview s' bs (dset k (CProd (map CDist ds')) cs) (dset rid k r2i) (dset rid k r2c)).
    split.
    { assert (X : kept (CMix true (DCrp s) (CFlexArr (dist_o (DCrp s)) (CProd (map CDist bs)) cs r2i) r2c)
        (CMix true (DCrp s') (CFlexArr (dist_o (DCrp s)) (CProd (map CDist bs)) (dset k (CProd (map CDist ds')) cs) (dset rid k r2i)) (dset rid k r2c))).
      { assert (KC := observe_wf (CProd (map CDist (cols bs cs k)))). assert (WC : wf (CProd (map CDist (cols bs cs k)))).
        { inversion W as [| | |? ? ? ? ? D0 HS Wb NI NDk Wc O]; subst. unfold cols. destruct (lookup k cs) as [c|] eqn:L; [|exact Wb].
          apply lookup_In in L. destruct (C _ _ L) as (ds & -> & _). rewrite leaves_prod. apply (Wc _ _ L). }
        specialize (KC WC rid (interd (map dist_o bs) obs) []). rewrite E in KC. cbn [always fst] in KC. destruct KC as [K1 K2].
        rewrite !outputs_prod in K2. apply wf_flex_set; auto. rewrite !outputs_prod. congruence. }
      destruct X as [X _]. cbn [dist_o] in X. unfold mkview. rewrite Eo. exact X. }
    split; [apply sheet_shaped; exact P1|]. split; [apply consistent_parts; assumption|].
    split; [split; [cbn; exact Eo|split; reflexivity]|]. split; [exact P3|]. split; [exact P4|]. split.
    + intros o Ho. rewrite P5 by exact Ho. rewrite lookup_interd_In by exact Ho. reflexivity.
    + intros o x Ho Lx. apply (P6 o x Ho). rewrite lookup_interd_In by exact Ho. exact Lx.
  - cbn [sbind fst snd]. eexists. exists (Err e). split; [reflexivity|]. split; [discriminate|]. intros OKs. exfalso.
    destruct R as (x & Lx & Ex). assert (Hd : In d (cols bs cs k)) by (rewrite E1; apply in_or_app; right; now left).
    assert (Ho : In (dist_o d) (map dist_o bs)) by (rewrite <- GO; now apply in_map).
    rewrite lookup_interd_In in Lx by exact Ho.
    destruct (OKs d Hd x Lx) as [DM NR]. destruct (GD d Hd) as [Dd _]. destruct (leaf_accepts d rid x Dd NR DM) as (d' & A & _). congruence.
Qed.

Lemma divider_label : forall s rid, dinv (DCrp s) -> lookup rid (dist_data (DCrp s)) = None ->
  always (dist_simulate (DCrp s) (Some rid) [crp_o s] [] [] None)
    (fun r => match (do x <- r; sres_get (crp_o s) x) with Ok y => exists z, y = vz z /\ In z (crp_support s) | Err _ => True end).
Proof.
  intros s rid D L. cbn [dist_simulate]. unfold simulate_many. unfold crp_simulate1.
  assert (OR := crp_on_record s (Some rid)). cbn [on_record] in OR. rewrite L in OR.
  destruct (base_simulate (crp_o s) [crp_o s] [] []) eqn:B; [|exact I].
  destruct (lookup rid (crp_data s)) as [x|]; [discriminate|].
  destruct (oseq _) as [ws|e] eqn:E; [|exact I].
  apply oseq_length in E. rewrite map_length in E.
  unfold sobind. apply always_bind. apply always_bind. assert (F := flip_index ws). revert F. apply always_imp.
  intros [i|e] F; cbn [always]; [|exact I]. cbn [obind]. unfold sres_get, dget. rewrite lookup_cons_eq.
  exists (nth i (crp_support s) 0). split; [reflexivity|]. apply nth_In. cbn in F. lia.
Qed.

Lemma view_observe : forall m rid obs, wf m -> sheet m -> consistent m -> NoDup (keys obs) ->
  (forall y, lookup (label_of m) obs = Some y -> exists z, y = vz z) ->
  always (observe m rid obs []) (fun r => snd r = Ok tt -> recorded_as m rid obs (fst r)).
Proof.
  intros m rid obs W S K ND LB. destruct (sheet_inv m S) as (s & bs & cs & r2i & r2c & -> & NB & B & C).
  assert (SH : shaped bs cs) by (split; [exact NB|split; assumption]).
  assert (KW : kept_well s bs cs r2i r2c) by (apply (consistent_parts s bs cs r2i r2c SH); exact K).
  destruct (view_parts _ _ _ _ _ W) as (D & Db & NDb & NI & NDk & Dc).
  assert (KW0 := KW). destruct KW0 as (N1 & N2 & A3 & A4 & A5 & A6).
  cbn [label_of mkview dist_o] in LB. unfold mkview at 1. cbn [observe].
  change (flexarr_observe (crp_o s) (CProd (map CDist bs)) _ cs _ r2i) with (observe (CFlexArr (crp_o s) (CProd (map CDist bs)) cs r2i)).
  unfold mix_observe. cbv zeta. cbn [dist_o].
  assert (COL : columns_of (mkview s bs cs r2i r2c) = map dist_o bs) by apply outputs_prod.
  destruct (lookup rid r2c) as [k|] eqn:L.
  - destruct (A5 _ _ L) as [z ->].
    destruct (view_observe_x s s bs cs r2i r2c rid obs z W SH KW ND (or_intror L) eq_refl D) as (m' & res & E & R & _).
    { intros r. rewrite A3. destruct (eq_dec r rid) as [->|]; [exact L|reflexivity]. }
    rewrite (dset_same r2c rid (vz z) L) in E. rewrite E. cbn [always fst snd]. intros ->.
    destruct (R eq_refl) as (R1 & R2 & R3 & R4 & R5 & R6 & R7 & R8). unfold recorded_as. rewrite COL.
    repeat (split; [assumption|]). split; [|split; assumption].
    exists z. split; [exact R6|]. split; [cbn; congruence|]. cbn. congruence.
  - assert (GO : forall y, (exists z, y = vz z) -> (forall y', lookup (crp_o s) obs = Some y' -> y' = y) ->
      always (match dist_observe (DCrp s) rid [(crp_o s, y)] [] with
       | (div', Ok _) => mix_observe_x true div' (CFlexArr (crp_o s) (CProd (map CDist bs)) cs r2i)
            (observe (CFlexArr (crp_o s) (CProd (map CDist bs)) cs r2i)) (dset rid y r2c) rid obs [] y
       | (div', Err e) => Ret (CMix true div' (CFlexArr (crp_o s) (CProd (map CDist bs)) cs r2i) r2c, Err e)
       end) (fun r => snd r = Ok tt -> recorded_as (mkview s bs cs r2i r2c) rid obs (fst r))).
    { intros y [z ->] LY. destruct (dist_observe (DCrp s) rid [(crp_o s, vz z)] []) as [div' [[]|e]] eqn:ED; [|cbn; discriminate].
      destruct (leaf_accepted _ _ _ _ D ED) as (y & EY & NR & DM & DD). injection EY as <-. 
      assert (FR := observe_frame (DCrp s) rid [(crp_o s, vz z)] []). rewrite ED in FR. cbn [fst] in FR. destruct FR as (FK & FO & _).
      assert (D' := observe_dinv (DCrp s) rid [(crp_o s, vz z)] [] D). rewrite ED in D'. cbn [fst] in D'.
      destruct div' as [s'| | | | |]; try discriminate FK.
      destruct (view_observe_x s s' bs cs r2i r2c rid obs z W SH KW ND (or_introl L) FO D') as (m' & res & E & R & _).
      { intros r. rewrite DD. rewrite lookup_app. rewrite A3. replace (stored (kind_of (DCrp s)) (vz z)) with (vz z) by (cbn; now rewrite trunc_qz).
        destruct (eq_dec r rid) as [->|NE].
        - rewrite L. cbn. destruct (eq_dec rid rid); [reflexivity|congruence].
        - destruct (lookup r r2c); [reflexivity|]. cbn. destruct (eq_dec r rid); [congruence|reflexivity]. }
      rewrite E. cbn [always fst snd]. intros ->.
      destruct (R eq_refl) as (R1 & R2 & R3 & R4 & R5 & R6 & R7 & R8). unfold recorded_as. rewrite COL.
      repeat (split; [assumption|]). split; [|split; assumption].
      exists z. split; [exact R6|]. split; [cbn; congruence|]. intros _ y' Hy'. apply LY. exact Hy'. }
    apply always_bind. destruct (lookup (crp_o s) obs) as [y|] eqn:LO.
    + cbn [always]. apply GO; [apply LB; reflexivity|]. intros y' H. congruence.
    + apply always_bind. eapply always_imp; [|apply divider_label; [exact D|rewrite A3; exact L]].
      intros r. cbn [always]. destruct (do x <- r; sres_get (crp_o s) x) as [y|e]; intros H.
      * apply GO; [destruct H as (z & -> & _); eauto|]. intros y' H'. congruence.
      * cbn. discriminate.
Qed.

(** ** Removing a row *)

Definition rm (rid : Z) (d : dist) : dist := fst (dist_unobserve d rid).
Definition got (rid : Z) (d : dist) : row :=
  match lookup rid (dist_data d) with Some x => [(dist_o d, x)] | None => [] end.

Lemma rm_frame : forall rid d, dist_o (rm rid d) = dist_o d /\ kind_of (rm rid d) = kind_of d.
Proof. intros rid d. unfold rm. assert (F := unobserve_frame d rid). cbn in F. tauto. Qed.

Lemma rm_data : forall rid d, dinv d -> dist_data (rm rid d) = ddel rid (dist_data d).
Proof.
  intros rid d D. unfold rm. destruct (lookup rid (dist_data d)) as [x|] eqn:L.
  - destruct (leaf_unobserve_known d rid x D L) as (d' & -> & E). exact E.
  - assert (NI : ~ In rid (keys (dist_data d))) by (apply lookup_None; exact L).
    rewrite leaf_unobserve_unknown by exact NI. cbn. symmetry. apply ddel_absent. exact L.
Qed.

Lemma rm_lookup : forall rid d r, dinv d -> lookup r (dist_data (rm rid d)) = if eq_dec r rid then None else lookup r (dist_data d).
Proof. intros rid d r D. rewrite rm_data by exact D. apply lookup_ddel. apply D. Qed.

Lemma leaf_unobserve_one : forall rid d, dinv d -> unobserve_one (unobserve (CDist d) rid) = (CDist (rm rid d), (got rid d, [])).
Proof.
  intros rid d D. cbn [unobserve]. unfold rm, got. destruct (lookup rid (dist_data d)) as [x|] eqn:L.
  - destruct (leaf_unobserve_known d rid x D L) as (d' & -> & E). reflexivity.
  - rewrite leaf_unobserve_unknown by (apply lookup_None; exact L). reflexivity.
Qed.

Lemma got_keys : forall rid ds, NoDup (map dist_o ds) -> NoDup (keys (flat_map (got rid) ds)) /\
  (forall o, In o (keys (flat_map (got rid) ds)) -> In o (map dist_o ds)).
Proof.
  intros rid ds. induction ds as [|d ds IH]; cbn [map flat_map]; intros ND; [split; [constructor|intros o []]|].
  inversion ND as [|? ? NI ND']; subst. destruct (IH ND') as [I1 I2]. unfold got at 1 3.
  destruct (lookup rid (dist_data d)); cbn; split; auto.
  - constructor; auto.
  - intros o [<-|H]; auto.
Qed.

Lemma got_lookup : forall rid ds, NoDup (map dist_o ds) -> forall o, lookup o (flat_map (got rid) ds) = in_column ds rid o.
Proof.
  intros rid ds. unfold in_column. induction ds as [|d ds IH]; cbn [map flat_map find]; intros ND o; [reflexivity|].
  inversion ND as [|? ? NI ND']; subst. rewrite lookup_app. unfold got at 1.
  destruct (Z.eqb_spec (dist_o d) o) as [<-|NE].
  - destruct (lookup rid (dist_data d)) as [x|]; [rewrite lookup_cons_eq; reflexivity|].
    cbn [lookup]. apply lookup_None. intros H. apply NI. apply (got_keys rid ds ND'). exact H.
  - replace (lookup o _) with (@None val).
    2:{ destruct (lookup rid (dist_data d)); [|reflexivity]. cbn. destruct (eq_dec o (dist_o d)); [congruence|reflexivity]. }
    apply IH. exact ND'.
Qed.

Lemma columns_unobserve : forall rid ds, ds <> [] -> (forall d, In d ds -> dinv d) -> NoDup (map dist_o ds) ->
  unobserve (CProd (map CDist ds)) rid = (CProd (map CDist (map (rm rid) ds)), Ok (flat_map (got rid) ds, [])).
Proof.
  intros rid ds NE D ND. cbn [unobserve].
  assert (X : map unobserve_one (map (fun c' => unobserve c' rid) (map CDist ds)) =
              map (fun d => (CDist (rm rid d), (got rid d, []))) ds).
  { rewrite !map_map. apply map_ext_in. intros d Hd. apply leaf_unobserve_one. auto. }
  unfold prod_unobserve. destruct (map (fun c' => unobserve c' rid) (map CDist ds)) as [|p l] eqn:E.
  { destruct ds; [congruence|discriminate]. }
  cbv zeta. rewrite X, !map_map. cbn [fst snd]. f_equal. f_equal. f_equal.
  - rewrite flat_map_concat_map. apply mergedl_concat. rewrite <- flat_map_concat_map. apply (got_keys rid ds ND).
  - clear. induction ds as [|a ds IH]; [reflexivity|]. unfold mergedl in *. cbn. exact IH.
Qed.

Definition dropped (m : cgpm) (rid : Z) (m' : cgpm) : Prop :=
  wf m' /\ sheet m' /\ consistent m' /\ same_columns m m' /\ others_same rid m m' /\ seat m' rid = None.

Definition whole_row (m : cgpm) (rid : Z) (row : row) : Prop :=
  NoDup (keys row) /\ (forall o, In o (keys row) -> o = label_of m \/ In o (columns_of m)) /\
  lookup (label_of m) row = seat m rid /\ (forall o, In o (columns_of m) -> lookup o row = cell m rid o).

Lemma view_unobserve_exact : forall s bs cs r2i r2c rid k, wf (mkview s bs cs r2i r2c) -> shaped bs cs ->
  kept_well s bs cs r2i r2c -> lookup rid r2c = Some k ->
  exists s', dist_unobserve (DCrp s) rid = (DCrp s', Ok ([(crp_o s, k)], [])) /\ crp_o s' = crp_o s /\
    dist_data (DCrp s') = ddel rid (dist_data (DCrp s)) /\
    unobserve (mkview s bs cs r2i r2c) rid =
      (mkview s' bs (dset k (CProd (map CDist (map (rm rid) (cols bs cs k)))) cs) (ddel rid r2i) (ddel rid r2c),
       Ok ((crp_o s, k) :: flat_map (got rid) (cols bs cs k), [])).
Proof.
  intros s bs cs r2i r2c rid k W SH KW L. assert (SH0 := SH). destruct SH0 as (NB & B & C).
  destruct (view_parts _ _ _ _ _ W) as (D & Db & NDb & NI & NDk & Dc).
  assert (KW0 := KW). destruct KW0 as (N1 & N2 & A3 & A4 & A5 & A6).
  destruct (cols_good s bs cs r2i r2c W B C k) as (GD & GN & GO).
  assert (LD : lookup rid (dist_data (DCrp s)) = Some k) by (rewrite A3; exact L).
  destruct (leaf_unobserve_known _ _ _ D LD) as (d' & EU & ED).
  assert (FR := unobserve_frame (DCrp s) rid). rewrite EU in FR. cbn [fst] in FR. destruct FR as (FK & FO & _).
  destruct d' as [s'| | | | |]; try discriminate FK. exists s'. split; [exact EU|]. split; [exact FO|]. split; [exact ED|].
  unfold mkview at 1. cbn [unobserve].
  change (flexarr_unobserve (crp_o s) (CProd (map CDist bs)) _ cs _ r2i) with (unobserve (CFlexArr (crp_o s) (CProd (map CDist bs)) cs r2i)).
  assert (EA : unobserve (CFlexArr (crp_o s) (CProd (map CDist bs)) cs r2i) rid =
    (CFlexArr (crp_o s) (CProd (map CDist bs)) (dset k (CProd (map CDist (map (rm rid) (cols bs cs k)))) cs) (ddel rid r2i),
     Ok (flat_map (got rid) (cols bs cs k), []))).
  { change (unobserve (CFlexArr (crp_o s) (CProd (map CDist bs)) cs r2i) rid) with
      (flexarr_unobserve (crp_o s) (CProd (map CDist bs)) (unobserve (CProd (map CDist bs))) cs
         (map (fun p => let '(k, c') := p in (k, unobserve c')) cs) r2i rid).
    unfold flexarr_unobserve. rewrite A4, L.
    replace (match lookup k (map (fun p => let '(k, c') := p in (k, unobserve c')) cs) with Some f => f | None => unobserve (CProd (map CDist bs)) end)
      with (unobserve (CProd (map CDist (cols bs cs k)))).
    2:{ rewrite lookup_dict_map. unfold cols. destruct (lookup k cs) as [c|] eqn:LC; [|reflexivity].
        apply lookup_In in LC. destruct (C _ _ LC) as (ds & -> & _). rewrite leaves_prod. reflexivity. }
    rewrite columns_unobserve; [reflexivity| |intros d Hd; apply GD; exact Hd|exact GN].
    intros E. apply NB. apply (f_equal (map dist_o)) in E. rewrite GO in E. destruct bs; [reflexivity|discriminate]. }
  unfold mix_unobserve. rewrite EU, EA. assert (M : dmem rid r2c = true) by (apply dmem_true; eapply lookup_Some_keys; eauto). rewrite M.
  cbn [dist_o] in FO. unfold mkview. rewrite FO. cbn [dist_o]. f_equal. f_equal. f_equal.
  rewrite merged_disj; [reflexivity|repeat constructor; cbn; tauto|apply (got_keys rid _ GN)|].
  intros o H [E|[]]. cbn in E. subst o. apply NI. rewrite <- GO. apply (got_keys rid _ GN). exact H.
Qed.

Lemma view_take : forall s s' bs cs r2i r2c rid k,
  let m := mkview s bs cs r2i r2c in
  let cs' := dset k (CProd (map CDist (map (rm rid) (cols bs cs k)))) cs in
  let m' := mkview s' bs cs' (ddel rid r2i) (ddel rid r2c) in
  wf m -> shaped bs cs -> kept_well s bs cs r2i r2c -> lookup rid r2c = Some k ->
  crp_o s' = crp_o s -> dist_data (DCrp s') = ddel rid (dist_data (DCrp s)) ->
  shaped bs cs' /\ kept_well s' bs cs' (ddel rid r2i) (ddel rid r2c) /\
  others_same rid m m' /\ seat m' rid = None.
Proof.
  intros s s' bs cs r2i r2c rid k m cs' m' W SH KW L Eo ED.
  assert (SH0 := SH). destruct SH0 as (NB & B & C). destruct KW as (N1 & N2 & A3 & A4 & A5 & A6).
  destruct (view_parts _ _ _ _ _ W) as (D & Db & NDb & NI & NDk & Dc).
  destruct (cols_good s bs cs r2i r2c W B C k) as (GD & GN & GO).
  assert (AL : alike (cols bs cs k) (map (rm rid) (cols bs cs k))).
  { apply alike_Forall2. generalize (cols bs cs k). clear. induction l as [|d l IH]; constructor; [apply rm_frame|exact IH]. }
  assert (SH' : shaped bs cs').
  { split; [exact NB|split; [exact B|]]. intros k0 c H. apply dset_In in H. destruct H as [[-> ->]|H]; [|apply (C k0 c H)].
    eexists. split; [reflexivity|]. eapply alike_trans; [apply cols_alike; exact C|exact AL]. }
  assert (COL : forall r o, r <> rid -> in_column (map (rm rid) (cols bs cs k)) r o = in_column (cols bs cs k) r o).
  { intros r o NR. assert (G : forall d, In d (cols bs cs k) -> dinv d) by (intros d H; apply GD; exact H).
    revert G. generalize (cols bs cs k). clear - NR. unfold in_column. induction l as [|d l IH]; intros G; [reflexivity|]. cbn [map find].
    destruct (rm_frame rid d) as [-> _]. destruct (dist_o d =? o).
    - rewrite rm_lookup by (apply G; now left). destruct (eq_dec r rid); [congruence|reflexivity].
    - apply IH. intros; apply G; now right. }
  split; [exact SH'|]. split; [|split].
  - split; [apply NoDup_keys_ddel; exact N1|]. split; [apply NoDup_keys_ddel; exact N2|].
    split; [intros r; rewrite ED, !lookup_ddel by (auto; apply D); rewrite A3; reflexivity|].
    split; [intros r; rewrite !lookup_ddel by assumption; rewrite A4; reflexivity|].
    split.
    + intros r k0 H. rewrite lookup_ddel in H by assumption. destruct (eq_dec r rid); [discriminate|eapply A5; eauto].
    + intros r k0 d Hd Hr. unfold cs' in Hd. rewrite cols_set in Hd. rewrite lookup_ddel by assumption.
      destruct (eq_dec k0 k) as [->|NE].
      * apply in_map_iff in Hd. destruct Hd as (d0 & <- & Hd0). destruct (GD d0 Hd0) as [Dd Kd].
        apply lookup_keys in Hr. destruct Hr as [v Hv]. rewrite rm_lookup in Hv by exact Dd.
        destruct (eq_dec r rid); [discriminate|]. apply (A6 r k d0 Hd0). eapply lookup_Some_keys; eauto.
      * assert (X := A6 r k0 d Hd Hr). destruct (eq_dec r rid) as [->|NR]; [|exact X]. congruence.
  - intros r NR. unfold m, m', seat, mkview. rewrite lookup_ddel by assumption. destruct (eq_dec r rid); [congruence|]. split; [reflexivity|].
    intros o. fold (mkview s bs cs r2i r2c) (mkview s' bs cs' (ddel rid r2i) (ddel rid r2c)).
    rewrite !cell_parts by assumption. rewrite lookup_ddel by assumption. destruct (eq_dec r rid); [congruence|].
    destruct (lookup r r2c) as [k0|]; [|reflexivity]. unfold cs'. rewrite cols_set. destruct (eq_dec k0 k) as [->|NE]; [|reflexivity].
    apply COL. exact NR.
  - unfold m', seat, mkview. rewrite lookup_ddel by assumption. destruct (eq_dec rid rid); [reflexivity|congruence].
Qed.

Lemma view_unobserve : forall m rid, wf m -> sheet m -> consistent m -> seat m rid <> None ->
  exists m' row, unobserve m rid = (m', Ok (row, [])) /\ dropped m rid m' /\ whole_row m rid row.
Proof.
  intros m rid W S K L. destruct (sheet_inv m S) as (s & bs & cs & r2i & r2c & -> & NB & B & C).
  assert (SH : shaped bs cs) by (split; [exact NB|split; assumption]).
  assert (KW : kept_well s bs cs r2i r2c) by (apply (consistent_parts s bs cs r2i r2c SH); exact K).
  cbn [seat mkview] in L. destruct (lookup rid r2c) as [k|] eqn:E; [|congruence]. clear L.
  destruct (view_unobserve_exact s bs cs r2i r2c rid k W SH KW E) as (s' & EU & EO & ED & EX).
  destruct (view_take s s' bs cs r2i r2c rid k W SH KW E EO ED) as (P1 & P2 & P3 & P4).
  rewrite EX. eexists. eexists. split; [reflexivity|]. split.
  - split.
    { assert (WU := unobserve_wf (mkview s bs cs r2i r2c) W rid). rewrite EX in WU. apply WU. }
    split; [apply sheet_shaped; exact P1|]. split; [apply consistent_parts; assumption|].
    split; [split; [cbn; exact EO|split; reflexivity]|]. split; assumption.
  - destruct (cols_good s bs cs r2i r2c W B C k) as (GD & GN & GO).
    destruct (view_parts _ _ _ _ _ W) as (D & Db & NDb & NI & NDk & Dc).
    destruct (got_keys rid (cols bs cs k) GN) as [G1 G2].
    assert (CO : columns_of (mkview s bs cs r2i r2c) = map dist_o bs) by apply outputs_prod.
    unfold whole_row. rewrite CO. cbn [label_of mkview dist_o seat keys map fst]. fold (keys (flat_map (got rid) (cols bs cs k))).
    split; [|split; [|split]].
    + constructor; [|exact G1]. intros H. apply NI. rewrite <- GO. auto.
    + intros o [<-|H]; [now left|]. right. rewrite <- GO. auto.
    + rewrite lookup_cons_eq. congruence.
    + intros o Ho. fold (mkview s bs cs r2i r2c). rewrite cell_parts by exact SH. rewrite E.
      rewrite lookup_cons_neq by (intros ->; contradiction). apply got_lookup. exact GN.
Qed.

(** ** Moving a row *)

Lemma leaf_typed : forall d r x, dinv d -> kind_of d <> KTable -> lookup r (dist_data d) = Some x ->
  forall data, in_domain (kind_of d) data x.
Proof.
  intros d r x (_ & T & _) K L data. apply lookup_In in L. apply T in L. unfold in_domain.
  destruct (kind_of d); [congruence| | | |]; destruct x; try exact I; exact L.
Qed.

Lemma domain_data : forall K data data' x, K <> KTable -> in_domain K data x -> in_domain K data' x.
Proof. intros K data data' x NK H. destruct K; [congruence| | | |]; destruct x; exact H. Qed.

Lemma cols_In_kind : forall bs cs k k' d d', (forall k c, In (k, c) cs -> exists ds, c = CProd (map CDist ds) /\ alike bs ds) ->
  NoDup (map dist_o bs) -> In d (cols bs cs k) -> In d' (cols bs cs k') -> dist_o d' = dist_o d -> kind_of d' = kind_of d.
Proof.
  intros bs cs k k' d d' C ND Hd Hd' E.
  assert (X : forall k d, In d (cols bs cs k) -> In (dist_o d, kind_of d) (map (fun d => (dist_o d, kind_of d)) bs)).
  { intros k0 d0 H. rewrite <- (cols_alike bs cs k0 C). apply in_map_iff. eauto. }
  apply X in Hd. apply X in Hd'. rewrite E in Hd'. clear - ND Hd Hd'.
  induction bs as [|b bs IH]; [destruct Hd|]. cbn [map] in *. inversion ND as [|? ? NI ND']; subst.
  assert (Y : forall x, In (dist_o d, x) (map (fun d => (dist_o d, kind_of d)) bs) -> In (dist_o d) (map dist_o bs)).
  { intros x H. apply in_map_iff in H. destruct H as (a & H1 & H2). injection H1 as <- _. now apply in_map. }
  destruct Hd as [H|H], Hd' as [H'|H'].
  - congruence.
  - injection H as E1 E2. apply Y in H'. rewrite <- E1 in H'. contradiction.
  - injection H' as E1 E2. apply Y in H. rewrite <- E1 in H. contradiction.
  - auto.
Qed.

Definition moved (m : cgpm) (rid : Z) (z : Z) (m' : cgpm) : Prop :=
  wf m' /\ sheet m' /\ consistent m' /\ same_columns m m' /\ others_same rid m m' /\ seat m' rid = Some (vz z) /\
  (forall o, In o (columns_of m) -> cell m' rid o = cell m rid o).

Lemma view_move : forall m rid, wf m -> sheet m -> consistent m -> seat m rid <> None ->
  exists m1 row s s1, unobserve m rid = (m1, Ok (row, [])) /\ dropped m rid m1 /\ whole_row m rid row /\
    divider m = Some (DCrp s) /\ divider m1 = Some (DCrp s1) /\ crp_o s1 = label_of m /\
    dist_data (DCrp s1) = ddel rid (dist_data (DCrp s)) /\ dinv (DCrp s1) /\
    forall z, In z (crp_support s1) -> exists m2, observe m1 rid (dset (label_of m) (vz z) row) [] = Ret (m2, Ok tt) /\
      moved m rid z m2.
Proof.
  intros m rid W S K L. destruct (view_unobserve m rid W S K L) as (m1 & row & EU & DR & WR).
  destruct (sheet_inv m S) as (s & bs & cs & r2i & r2c & -> & NB & B & C).
  assert (SH : shaped bs cs) by (split; [exact NB|split; assumption]).
  assert (KW : kept_well s bs cs r2i r2c) by (apply (consistent_parts s bs cs r2i r2c SH); exact K).
  destruct (view_parts _ _ _ _ _ W) as (D & Db & NDb & NI & NDk & Dc).
  cbn [seat mkview] in L. destruct (lookup rid r2c) as [k|] eqn:E; [|congruence]. clear L.
  destruct (view_unobserve_exact s bs cs r2i r2c rid k W SH KW E) as (s' & EC & EO & ED & EX).
  destruct (view_take s s' bs cs r2i r2c rid k W SH KW E EO ED) as (P1 & P2 & P3 & P4).
  rewrite EX in EU. injection EU as <- <-. set (cs1 := dset k _ cs) in *.
  set (m1 := mkview s' bs cs1 (ddel rid r2i) (ddel rid r2c)) in *.
  set (row := (crp_o s, k) :: flat_map (got rid) (cols bs cs k)) in *.
  assert (D' : dinv (DCrp s')).
  { assert (X := unobserve_dinv (DCrp s) rid D). rewrite EC in X. exact X. }
  exists m1, row, s, s'. split; [exact EX|]. split; [exact DR|]. split; [exact WR|]. split; [reflexivity|]. split; [reflexivity|].
  split; [exact EO|]. split; [exact ED|]. split; [exact D'|]. intros z Hz.
  destruct DR as (W1 & S1 & K1 & SC1 & OS1 & SE1). assert (WR0 := WR). destruct WR0 as (R1 & R2 & R3 & R4).
  change (label_of (mkview s bs cs r2i r2c)) with (crp_o s) in *.
  assert (CO : columns_of (mkview s bs cs r2i r2c) = map dist_o bs) by apply outputs_prod. rewrite CO in *.
  set (obs := dset (crp_o s) (vz z) row).
  assert (LO : forall o, lookup o obs = if eq_dec o (crp_o s) then Some (vz z) else lookup o row) by (intros o; apply lookup_dset).
  assert (NO : NoDup (keys obs)) by (apply NoDup_keys_dset; exact R1).
  assert (VO := view_observe m1 rid obs W1 S1 K1 NO).
  assert (OB : exists m2, observe m1 rid obs [] = Ret (m2, Ok tt)).
  { clear VO. unfold m1, mkview at 1. cbn [observe].
    change (flexarr_observe (crp_o s') (CProd (map CDist bs)) _ cs1 _ (ddel rid r2i)) with
      (observe (CFlexArr (crp_o s') (CProd (map CDist bs)) cs1 (ddel rid r2i))).
    unfold mix_observe. cbv zeta. cbn [dist_o]. unfold m1, seat, mkview in SE1. rewrite SE1.
    rewrite LO. rewrite EO. destruct (eq_dec (crp_o s) (crp_o s)) as [_|]; [|congruence]. cbn [sbind].
    assert (NR : ~ In rid (keys (dist_data (DCrp s')))).
    { rewrite ED. intros H. apply lookup_keys in H. destruct H as [v H]. rewrite lookup_ddel in H by apply D. destruct (eq_dec rid rid); congruence. }
    assert (DM : in_domain KTable (dist_data (DCrp s')) (vz z)).
    { cbn [in_domain]. change (vz z) with (VQ (qz z)). cbv iota. rewrite trunc_qz.
      apply crp_support_spec; [apply D'|apply D'|exact Hz]. }
    destruct (leaf_accepts (DCrp s') rid (vz z) D' NR DM) as (d2 & EA & ED2). cbn [dist_o] in EA. rewrite EO in EA. rewrite EA.
    assert (FR := observe_frame (DCrp s') rid [(crp_o s, vz z)] []). rewrite EA in FR. cbn [fst] in FR. destruct FR as (FK & FO & _).
    assert (D2 := observe_dinv (DCrp s') rid [(crp_o s, vz z)] [] D'). rewrite EA in D2. cbn [fst] in D2.
    destruct d2 as [s2| | | | |]; try discriminate FK. cbn [dist_o] in FO.
    assert (LN : lookup rid (ddel rid r2c) = None) by exact SE1.
    destruct (view_observe_x s' s2 bs cs1 (ddel rid r2i) (ddel rid r2c) rid obs z W1 P1 P2 NO (or_introl LN) FO D2) as (m2 & res & E2 & _ & OK2).
    { intros r. destruct P2 as (_ & _ & A3' & _). rewrite ED2. rewrite lookup_app. rewrite A3'.
      replace (stored (kind_of (DCrp s')) (vz z)) with (vz z) by (cbn; now rewrite trunc_qz).
      destruct (eq_dec r rid) as [->|NE].
      - rewrite LN. cbn. destruct (eq_dec rid rid); [reflexivity|congruence].
      - destruct (lookup r (ddel rid r2c)); [reflexivity|]. cbn. destruct (eq_dec r rid); [congruence|reflexivity]. }
    rewrite EO in E2. rewrite E2. exists m2. f_equal. f_equal. apply OK2. intros d Hd x Lx.
    destruct P1 as (_ & _ & C1). destruct (cols_good s' bs cs1 (ddel rid r2i) (ddel rid r2c) W1 B C1 (vz z)) as (GD1 & GN1 & GO1).
    assert (Ho : In (dist_o d) (map dist_o bs)) by (rewrite <- GO1; now apply in_map).
    rewrite LO in Lx. destruct (eq_dec (dist_o d) (crp_o s)) as [EE|NE]; [congruence|].
    split.
    - rewrite R4 in Lx by exact Ho. rewrite cell_parts in Lx by exact SH. rewrite E in Lx.
      destruct (cols_good s bs cs r2i r2c W B C k) as (GD & GN & GO). rewrite <- GO in Ho. apply in_map_iff in Ho. destruct Ho as (d0 & E0 & Hd0).
      rewrite <- E0, in_column_Some in Lx by assumption. destruct (GD d0 Hd0) as [Dd0 Kd0].
      assert (T := leaf_typed d0 rid x Dd0 Kd0 Lx (dist_data d)).
      replace (kind_of d) with (kind_of d0); [exact T|].
      assert (Hr : In (rm rid d0) (cols bs cs1 k)).
      { unfold cs1. rewrite cols_set. destruct (eq_dec k k); [|congruence]. now apply in_map. }
      destruct (rm_frame rid d0) as [F1 F2]. rewrite <- F2. apply (cols_In_kind bs cs1 (vz z) k d (rm rid d0) C1 NDb Hd Hr). congruence.
    - intros H. destruct P2 as (_ & _ & _ & _ & _ & A6). rewrite (A6 rid (vz z) d Hd H) in LN. discriminate. }
  destruct OB as [m2 OB]. exists m2. split; [exact OB|]. rewrite OB in VO. cbn [always fst snd] in VO.
  assert (RA : recorded_as m1 rid obs m2).
  { apply VO; [|reflexivity]. intros y. unfold m1. cbn [label_of mkview dist_o]. rewrite EO, LO.
    destruct (eq_dec (crp_o s) (crp_o s)); [|congruence]. intros H. injection H as <-. eauto. }
  destruct RA as (W2 & S2 & K2 & SC2 & OS2 & (z' & Z1 & Z2 & Z3) & CL & _).
  assert (LM : label_of m1 = crp_o s) by exact EO. rewrite LM in Z3.
  assert (Z4 : vz z = vz z'). { apply Z3; [exact SE1|]. rewrite LO. destruct (eq_dec (crp_o s) (crp_o s)); congruence. }
  assert (CO1 : columns_of m1 = map dist_o bs) by apply outputs_prod. rewrite CO1 in CL.
  destruct SC1 as (SC1a & SC1b & SC1c). destruct SC2 as (SC2a & SC2b & SC2c).
  split; [exact W2|]. split; [exact S2|]. split; [exact K2|]. split; [split; [congruence|split; [congruence|intros o; rewrite SC2c; apply SC1c]]|]. split; [|split].
  - intros r NR. destruct (OS1 r NR) as [A1 A2]. destruct (OS2 r NR) as [B1 B2]. split; [congruence|]. intros o. rewrite B2. apply A2.
  - congruence.
  - rewrite CO. intros o Ho. rewrite CL by exact Ho. rewrite LO. destruct (eq_dec o (crp_o s)) as [->|NE]; [contradiction|].
    rewrite R4 by exact Ho. destruct (cell (mkview s bs cs r2i r2c) rid o) as [x|] eqn:CE; [reflexivity|].
    unfold m1. rewrite cell_parts by exact P1. unfold m1, seat, mkview in SE1. rewrite SE1. reflexivity.
Qed.
