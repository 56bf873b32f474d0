(** Proofs: what is handed to the external engine describes the model. *)
From Coq Require Import List ZArith QArith Qcanon Reals Bool String Permutation Sorted Lia.
From Verif Require Import Base Xr Samp Lgamma Prims Cgpm Lib SpecPrims PrimsInv SpecComp CompInv CompDens CompThm SimShape PrimsThm2
  SpecTable SpecHist Table Gibbs Hist PropTable Meta MetaThm Walks SpecWalks WalksThm Trans Views ViewsThm ViewsThm2 ViewsThm3 ViewsThm4 ViewsThm5
  Hypers SpecHypers Progress Crosscat CrosscatThm CrosscatThm2 CrosscatThm3 Cpp CppThm CppThm2.
From Verif Require Import SpecViews SpecCrosscat SpecCpp.
Import ListNotations.
Local Open Scope Z_scope.

(** ** Bases *)

Lemma typed_unique : forall X v k k', crosscat X -> typed X v k -> typed X v k' -> k = k'.
Proof.
  intros X v k k' C (m & Hm & E) (m' & Hm' & E'). assert (Hv := kind_at_column m v k (crosscat_views _ _ C Hm) E).
  assert (Hv' := kind_at_column m' v k' (crosscat_views _ _ C Hm') E'). rewrite (same_view X m m' v C Hm Hm' Hv Hv') in E'. congruence.
Qed.

Lemma base_typed : forall X o, crosscat X -> In o (flat_map columns_of X) -> exists d, get_cgpm_base (CProd X) o = Ok d /\ typed X o (kind_of d).
Proof.
  intros X o C Ho. apply in_flat_map in Ho. destruct Ho as (m & Hm & Ho). destruct (in_split _ _ Hm) as (l & r & E). rewrite E in C.
  destruct (base_ok l m r o C Ho) as (d & Ed & _ & _ & _ & _ & K). exists d. rewrite E. split; [exact Ed|]. exists m. split; [rewrite <- E; exact Hm|exact K].
Qed.

Lemma get_bases_ok : forall X, crosscat X -> X <> [] -> exists bs, get_bases (CProd X) (flat_map columns_of X) = Ok bs /\
  Forall2 (fun o d => typed X o (kind_of d)) (flat_map columns_of X) bs.
Proof.
  intros X C NE. unfold get_bases. destruct (oseq_ok (get_cgpm_base (CProd X)) (flat_map columns_of X)) as (bs & E & F).
  { intros o Ho. destruct (base_typed X o C Ho) as (d & -> & _). eauto. }
  exists bs. rewrite E. cbn [obind]. split.
  - destruct bs; [|reflexivity]. exfalso. apply (cols_nonempty X C NE). destruct (flat_map columns_of X); [reflexivity|inversion F].
  - assert (IN : forall o, In o (flat_map columns_of X) -> In o (flat_map columns_of X)) by auto. revert IN F.
    generalize (flat_map columns_of X) at 1 3 4. clear E. intros l IN F. induction F as [|o d l bs E F IH]; constructor.
    + destruct (base_typed X o C (IN _ (or_introl eq_refl))) as (d' & E' & D). assert (d' = d) as <- by congruence. exact D.
    + apply IH. intros; apply IN; now right.
Qed.

(** ** M_c *)

(** The metadata of a column. *)
Definition column_meta (X : list cgpm) (o : Z) (m : metadata) : Prop :=
  (typed X o (KReal true) /\ m = MNormal) \/
  (exists n v2c c2v, typed X o (KCategory n) /\ m = MSymbols v2c c2v /\
     (forall z i, lookup z c2v = Some i <-> lookup i v2c = Some z) /\
     (forall z, In z (keys c2v) <-> exists r, holds X r o (vz z)) /\
     (forall i, In i (keys v2c) <-> 0 <= i < Z.of_nat (List.length c2v))).

Lemma values_In : forall {K V} (d : dict K V) v, In v (values d) <-> exists k, In (k, v) d.
Proof.
  intros K V d v. unfold values. rewrite in_map_iff. split.
  - intros ([k w] & <- & H). eauto.
  - intros (k & H). exists (k, v). auto.
Qed.

Lemma data_values : forall X o d x, data_of X o d -> (In x (values d) <-> exists r, holds X r o x).
Proof.
  intros X o d x [ND D]. rewrite values_In. split; intros (r & H); exists r.
  - apply D. apply In_lookup; auto.
  - apply D in H. apply lookup_In. exact H.
Qed.

Lemma holds_domain : forall X r o x n, crosscat X -> holds X r o (VQ x) -> typed X o (KCategory n) -> exists z, x = qz z /\ 0 <= z < n.
Proof.
  intros X r o x n C (m & Hm & E) T. assert (G := crosscat_views X m C Hm). assert (Ho := holds_column m r o _ G E).
  destruct (column_data m o G Ho) as (K & KA & KT & D & _ & CE & _). apply CE in E. destruct E as (d & Hd & Hx). destruct (D d Hd) as (_ & Dd & Kd).
  assert (EK : K = KCategory n) by (apply (typed_unique X o); auto; exists m; auto).
  assert (Y := leaf_typed d r (VQ x) Dd). rewrite Kd, EK in Y. specialize (Y ltac:(discriminate) (In_lookup _ _ _ (dinv_keys d Dd) Hx) []). exact Y.
Qed.

Lemma meta_ok : forall srt X o d base, (forall l, Permutation (srt l) l) -> crosscat X -> data_of X o d -> typed X o (kind_of base) ->
  (forall v k, typed X v k -> k = KReal true \/ exists n, k = KCategory n) ->
  exists m, create_metadata srt (values d) base = Ok m /\ column_meta X o m.
Proof.
  intros srt X o d base SP C D T TY. destruct (TY o _ T) as [E|[n E]].
  - destruct base; try discriminate. exists MNormal. split; [reflexivity|]. left. auto.
  - destruct base as [|s| | | |]; try discriminate. cbn [kind_of] in *. destruct (metadata_ok srt (values d) s SP) as (v2c & c2v & -> & CD).
    { intros q Hq. apply (data_values X o) in Hq; [|exact D]. destruct Hq as [r Hr]. apply (holds_domain X r o q _ C Hr T). }
    eexists. split; [reflexivity|]. right. exists (cat_k s), v2c, c2v. destruct CD as (C1 & C2 & C3).
    split; [exact T|]. split; [reflexivity|]. split; [exact C1|]. split; [|exact C3]. intros z. rewrite C2. apply (data_values X o d (vz z) D).
Qed.

Lemma combine_map2 : forall {A B C} (f : A * B -> C) (P : A -> C -> Prop) (l : list A) (l' : list B), List.length l = List.length l' ->
  (forall a b, In (a, b) (combine l l') -> P a (f (a, b))) -> Forall2 P l (map f (combine l l')).
Proof.
  intros A B C f P l. induction l as [|a l IH]; intros [|b l'] L H; try discriminate; cbn [combine map]; constructor.
  - apply H. now left.
  - apply IH; [now injection L|]. intros; apply H; now right.
Qed.

Lemma oseq_F2 : forall {A B} (P : A -> B -> Prop) l fs, Forall2 (fun a r => exists b, r = Ok b /\ P a b) l fs -> exists bs, oseq fs = Ok bs /\ Forall2 P l bs.
Proof.
  intros A B P l fs F. induction F as [|a r l fs (b & -> & Pb) F (bs & E & FB)]; [exists []; split; [reflexivity|constructor]|].
  exists (b :: bs). cbn [oseq]. rewrite E. split; [reflexivity|constructor; auto].
Qed.

Lemma F2_combine : forall {A B} {R : A -> B -> Prop} {l l' a b}, Forall2 R l l' -> In (a, b) (combine l l') -> R a b.
Proof.
  intros A B R l l' a b F. induction F as [|x y l l' H F IH]; intros Y; [destruct Y|]. destruct Y as [E|Y]; [|apply IH; exact Y].
  assert (x = a) as <- by congruence. assert (y = b) as <- by congruence. exact H.
Qed.

Section Export.
  Context (srt : list Qc -> list Qc) (X : list cgpm) (SP : forall l, Permutation (srt l) l) (IM : importable X).
  Context (cs : list (dict Z val)) (F : Forall2 (data_of X) (flat_map columns_of X) cs).
  Let cols := flat_map columns_of X.

  Lemma obs_at : forall o, In o cols -> exists d, dget o (combine cols cs) = Ok d /\ data_of X o d.
  Proof.
    intros o Ho. destruct (F2_In_l F Ho) as (d & Hd & D). exists d. split; [|exact D]. unfold dget. rewrite (In_lookup (combine cols cs) o d); [reflexivity| |exact Hd].
    rewrite keys_combine by (apply (F2_len F)). apply cols_NoDup. apply IM.
  Qed.

  Lemma M_c_ok : exists ms, get_crosscat_M_c srt (CProd X) (combine cols cs) = Ok (mkMetas (dict_zip cols (seq 0 (List.length cols))) ms) /\ Forall2 (column_meta X) cols ms.
  Proof.
    destruct IM as (C & CX & NE & TY & _). unfold get_crosscat_M_c. rewrite distribution_outputs by exact C. fold cols.
    destruct (get_bases_ok X C NE) as (bs & EB & FB). fold cols in EB, FB. rewrite EB. cbn [obind].
    assert (LC := F2_len F). fold cols in LC. rewrite combine_length, <- LC, Nat.min_id, Nat.eqb_refl. cbn [oassert obind].
    assert (AB : forallb (fun d => match d with DNrm _ | DCat _ => true | _ => false end) bs = true).
    { apply forallb_forall. intros d Hd. destruct (F2_In_r FB Hd) as (o & _ & T). destruct (TY o _ T) as [E|[n E]]; destruct d; auto; discriminate. }
    rewrite AB. cbn [oassert obind].
    destruct (oseq_F2 (column_meta X) cols (map (fun p : Z * dist => do obs <- dget (fst p) (combine cols cs); create_metadata srt (values obs) (snd p)) (combine cols bs))) as (ms & EM & FM).
    { apply combine_map2; [apply (F2_len FB)|]. intros o base Ho. cbn [fst snd]. assert (T := F2_combine FB Ho). cbn beta in T.
      destruct (obs_at o (in_combine_l _ _ _ _ Ho)) as (d & -> & D). cbn [obind]. apply meta_ok; auto. }
    rewrite EM. cbn [obind]. exists ms. split; [reflexivity|exact FM].
  Qed.

  (** ** T *)

  Context (M : metas) (FM : Forall2 (column_meta X) cols (column_metadata M)).

  (** What the metadata of a column make of a value. *)
  Definition code_of (m : metadata) (x : val) : val :=
    match x with
    | VNan => VNan
    | VQ q => match code_to_value m with [] => VQ q | look => match lookup (trunc q) look with Some i => vz i | None => VNan end end
    end.

  Definition code_at (o : Z) (x : val) : val := match lookup o (combine cols (column_metadata M)) with Some m => code_of m x | None => x end.

  Lemma meta_at : forall o m, In (o, m) (combine cols (column_metadata M)) -> lookup o (combine cols (column_metadata M)) = Some m.
  Proof. intros o m H. apply In_lookup; [|exact H]. rewrite keys_combine by (apply (F2_len FM)). apply cols_NoDup. apply IM. Qed.

  Lemma value_ok : forall i o r x, nth_error cols i = Some o -> holds X r o x -> crosscat_value_to_code M x i = Ok (code_at o x).
  Proof.
    intros i o r x Ei Hx. destruct IM as (C & _). unfold code_at.
    assert (Hi : exists m, nth_error (column_metadata M) i = Some m).
    { destruct (nth_error (column_metadata M) i) as [m|] eqn:E; [eauto|]. apply nth_error_None in E. assert (i < List.length cols)%nat by (apply nth_error_Some; congruence).
      assert (L := F2_len FM). lia. }
    destruct Hi as [m Em]. assert (Hom := nth_error_combine _ _ _ _ _ Ei Em). rewrite (meta_at o m Hom). assert (CM := F2_combine FM Hom).
    destruct x as [|q]; [reflexivity|]. cbn [crosscat_value_to_code code_of]. unfold item. rewrite Em. cbn [obind].
    destruct CM as [[_ ->]|(n & v2c & c2v & T & -> & C1 & C2 & C3)]; [reflexivity|]. cbn [code_to_value]. destruct c2v as [|p c2v]; [reflexivity|].
    destruct (holds_domain X r o q n C Hx T) as (z & -> & _). rewrite trunc_qz.
    assert (Hz : In z (keys (p :: c2v))) by (apply C2; exists r; exact Hx). apply lookup_keys in Hz. destruct Hz as [i' Ei'].
    unfold dmem, dget. rewrite Ei'. reflexivity.
  Qed.

  Lemma numbered : forall o, In o cols -> numbering X o (code_at o).
  Proof.
    intros o Ho. destruct IM as (C & _ & _ & _ & HV & _). destruct (F2_In_l FM Ho) as (m & Hm & CM). unfold numbering, code_at. rewrite (meta_at o m Hm).
    split; [reflexivity|]. split.
    - intros T x. destruct CM as [[_ ->]|(n & v2c & c2v & T' & _)]; [destruct x; reflexivity|]. assert (Y := typed_unique X o _ _ C T T'). discriminate.
    - intros n T. destruct CM as [[T' _]|(n' & v2c & c2v & _ & -> & C1 & C2 & C3)]; [assert (Y := typed_unique X o _ _ C T T'); discriminate|].
      destruct c2v as [|p c2v].
      { exfalso. destruct (HV o n T) as (r & q & Hq). destruct (holds_domain X r o q n C Hq T) as (z & -> & _). apply (proj2 (C2 z)). exists r. exact Hq. }
      assert (CV : forall r q, holds X r o (VQ q) -> exists z i, q = qz z /\ lookup z (p :: c2v) = Some i /\ code_of (MSymbols v2c (p :: c2v)) (VQ q) = vz i).
      { intros r q Hq. destruct (holds_domain X r o q n C Hq T) as (z & -> & _). assert (Hz : In z (keys (p :: c2v))) by (apply C2; exists r; exact Hq).
        apply lookup_keys in Hz. destruct Hz as [i Ei]. exists z, i. split; [reflexivity|]. split; [exact Ei|]. cbn [code_of code_to_value]. rewrite trunc_qz, Ei. reflexivity. }
      split.
      + exists (Z.of_nat (List.length (p :: c2v))). intros y. split.
        * intros (r & q & Hq & <-). destruct (CV r q Hq) as (z & i & _ & Ei & ->). exists i. split; [reflexivity|]. apply C3. apply C1 in Ei. apply lookup_In in Ei.
          apply in_map_iff. exists (i, z). auto.
        * intros (i & -> & Hi). apply C3 in Hi. apply lookup_keys in Hi. destruct Hi as [z Ez]. apply C1 in Ez. assert (Hz : In z (keys (p :: c2v))) by (apply lookup_In in Ez; apply in_map_iff; exists (z, i); auto).
          apply C2 in Hz. destruct Hz as [r Hr]. exists r, (qz z). split; [exact Hr|]. cbn [code_of code_to_value]. rewrite trunc_qz, Ez. reflexivity.
      + intros r q r' q' Hq Hq'. destruct (CV r q Hq) as (z & i & -> & Ei & ->), (CV r' q' Hq') as (z' & i' & -> & Ei' & ->). intros E.
        assert (i = i') as <- by (apply qz_inj; unfold vz in E; congruence). apply C1 in Ei, Ei'. congruence.
  Qed.

  Lemma T_ok : forall rows, observations_to_rowids_mapping (combine cols cs) = Ok rows -> rows_of X rows ->
    exists T, get_crosscat_T (CProd X) M (combine cols cs) = Ok T /\ tabulated X cols rows code_at T.
  Proof.
    intros rows ER [_ RI]. destruct IM as (C & CX & _). unfold get_crosscat_T. rewrite ER. cbn [obind]. rewrite distribution_outputs by exact C. fold cols.
    apply oseq_F2. assert (IN : forall r, In r rows -> In r rows) by auto. revert IN. generalize rows at 1 3 4. intros l IN. induction l as [|r l IH]; cbn [map]; constructor; [|apply IH; intros; apply IN; now right].
    clear IH. assert (Hr : exists v x, holds X r v x) by (apply RI, IN; now left). destruct Hr as (v & x & Hx).
    destruct (oseq_F2 (fun v0 y => exists x0, holds X r v0 x0 /\ y = code_at v0 x0) cols
      (map (fun p : nat * Z => do obs <- dget (snd p) (combine cols cs); do x <- dget r obs; crosscat_value_to_code M x (fst p)) (enum_from 0 cols))) as (line & EL & FL); [|exists line; auto].
    assert (EN : forall l' n, (forall k o, In (k, o) (enum_from n l') -> nth_error cols k = Some o) ->
      Forall2 (fun v0 s0 => exists b, s0 = Ok b /\ exists x0, holds X r v0 x0 /\ b = code_at v0 x0) l'
        (map (fun p : nat * Z => do obs <- dget (snd p) (combine cols cs); do x <- dget r obs; crosscat_value_to_code M x (fst p)) (enum_from n l'))).
    2: { apply EN. intros k o Hk. apply enum_from_In in Hk. destruct Hk as (j & -> & E). exact E. }
    intros l'. induction l' as [|o l' IH]; intros n EN; cbn [enum_from map]; constructor; [|apply IH; intros; apply EN; now right].
    cbn [snd fst]. assert (En := EN n o (or_introl eq_refl)). assert (Ho := nth_error_In _ _ En). destruct (obs_at o Ho) as (d & -> & [ND D]). cbn [obind].
    destruct (CX r v x o Hx Ho) as (y & Hy). assert (Ly := proj2 (D r y) Hy). unfold dget at 1. rewrite Ly. cbn [obind]. exists (code_at o y).
    split; [apply (value_ok n o r y En Hy)|]. exists y. auto.
  Qed.
End Export.

(** ** X_D *)

Lemma insert_row_perm : forall {A} (p : Z * A) l, Permutation (insert_row p l) (p :: l).
Proof. intros A p l. induction l as [|q l IH]; cbn [insert_row]; [reflexivity|]. destruct (fst p <=? fst q); [reflexivity|]. rewrite IH. apply perm_swap. Qed.

Lemma sort_rows_perm : forall {A} (l : list (Z * A)), Permutation (sort_rows l) l.
Proof. induction l as [|p l IH]; cbn [sort_rows]; [reflexivity|]. rewrite insert_row_perm. apply perm_skip. exact IH. Qed.

Lemma insert_row_sorted : forall {A} (p : Z * A) l, StronglySorted Z.le (map fst l) -> StronglySorted Z.le (map fst (insert_row p l)).
Proof.
  intros A p l. induction l as [|q l IH]; intros S; cbn [insert_row map]; [repeat constructor|].
  cbn [map] in S. inversion S as [|? ? S' F']; subst. destruct (fst p <=? fst q) eqn:E; cbn [map].
  - apply Z.leb_le in E. constructor; [exact S|]. constructor; [exact E|]. eapply Forall_impl; [|exact F']. intros; cbn in *; lia.
  - apply Z.leb_gt in E. constructor; [apply IH; exact S'|]. apply Forall_forall. intros z Hz. apply in_map_iff in Hz. destruct Hz as (x & <- & Hx).
    apply (Permutation_in _ (insert_row_perm p l)) in Hx. destruct Hx as [<-|Hx]; [lia|]. rewrite Forall_forall in F'. apply F'. apply in_map. exact Hx.
Qed.

Lemma sort_rows_sorted : forall {A} (l : list (Z * A)), StronglySorted Z.le (map fst (sort_rows l)).
Proof. induction l as [|p l IH]; cbn [sort_rows map]; [constructor|]. apply insert_row_sorted. exact IH. Qed.

Lemma sorted_lt_le : forall l, StronglySorted Z.lt l -> StronglySorted Z.le l.
Proof. intros l S. induction S as [|x l S IH F]; constructor; [exact IH|]. eapply Forall_impl; [|exact F]. intros; cbn in *; lia. Qed.

Lemma sorted_lt_NoDup : forall l, StronglySorted Z.lt l -> NoDup l.
Proof. intros l S. induction S as [|x l S IH F]; constructor; [|exact IH]. intros Y. rewrite Forall_forall in F. specialize (F _ Y). lia. Qed.

(** The clusters of the rows of a view. *)
Lemma dataset_one_ok : forall X m rows, importable X -> In m X -> rows_of X rows ->
  exists ts, get_crosscat_dataset_one (CProd X) (label_of m) = Ok (map vz ts) /\ List.length ts = List.length rows /\
    forall r t, In (r, t) (combine rows ts) -> seat m r = Some (vz t).
Proof.
  intros X m rows IM Hm [RS RI]. destruct IM as (C & CX & _ & _ & _ & HS). assert (Gm := crosscat_views X m C Hm).
  unfold get_crosscat_dataset_one, get_dataset.
  assert (LC : exists s, divider m = Some (DCrp s) /\ get_cgpms_by_output_index (CProd X) (label_of m) = Ok [DCrp s]).
  { destruct (in_split _ _ Hm) as (l & r & E). assert (Hout : In (label_of m) (outputs m)) by (rewrite (sheet_outputs m) by apply Gm; now left).
    rewrite (find_ok _ (crosscat_wf _ C)) by (cbn [outputs]; apply in_flat_map; exists m; auto). rewrite E. rewrite modelling_view by (rewrite <- ?E; auto).
    assert (W := good_wf m Gm). assert (E' := find_ok m W (label_of m) Hout). rewrite <- E'. clear E E' W Hout. destruct Gm as (_ & Sh & _). destruct Sh as [s bs cs r2i r2c _ _ _].
    exists s. split; [reflexivity|]. cbn [get_cgpms_by_output_index label_of dist_o]. now rewrite Z.eqb_refl. }
  destruct LC as (s & ED & ->). cbn [obind flat_map]. rewrite app_nil_r.
  assert (SE : forall r, seat m r = lookup r (dist_data (DCrp s))).
  { destruct m as [| | | |flex div arr r2c]; try discriminate. cbn [divider] in ED. assert (div = DCrp s) as -> by congruence. destruct Gm as (_ & _ & Co). intros r. symmetry. apply Co. }
  assert (ND : NoDup (keys (dist_data (DCrp s)))).
  { assert (W := good_wf m Gm). destruct (sheet_inv m (proj1 (proj2 Gm))) as (s' & bs & cs & r2i & r2c & E & _). rewrite E in W, ED. cbn [mkview divider] in ED. assert (s' = s) as -> by congruence.
    exact (dinv_keys (DCrp s) (proj1 (view_parts _ _ _ _ _ W))). }
  assert (KR : forall r, In r (keys (crp_data s)) <-> In r rows).
  { intros r. rewrite RI. replace (keys (crp_data s)) with (keys (dist_data (DCrp s))) by (cbn [dist_data]; unfold keys; rewrite map_map; reflexivity). split.
    - intros Hr. apply lookup_keys in Hr. destruct Hr as [x Ex]. apply (HS m r Hm). rewrite SE. congruence.
    - intros (v & x & Hx). assert (AL := complete_aligned X [v] C CX r v x (or_introl eq_refl) Hx m Hm). rewrite SE in AL.
      destruct (lookup r (dist_data (DCrp s))) as [y|] eqn:E; [|congruence]. apply lookup_In in E. apply in_map_iff. exists (r, y). auto. }
  assert (ND' : NoDup (keys (crp_data s))) by (cbn [dist_data] in ND; unfold keys in *; rewrite map_map in ND; exact ND).
  set (L := map (fun p : Z * val => let (r, x) := p in (r, [(dist_o (DCrp s), x)])) (dist_data (DCrp s)) : list (Z * row)).
  assert (EK : map fst L = keys (crp_data s)) by (unfold L; cbn [dist_data]; rewrite !map_map; reflexivity).
  assert (ER : map fst (sort_rows L) = rows).
  { apply sorted_perm_eq; [apply sort_rows_sorted|apply sorted_lt_le; exact RS|]. rewrite (Permutation_map fst (sort_rows_perm L)), EK.
    apply NoDup_Permutation; [exact ND'|apply sorted_lt_NoDup; exact RS|exact KR]. }
  assert (LL : label_of m = dist_o (DCrp s)) by (destruct m as [| | | |flex div arr r2c]; try discriminate; cbn [divider] in ED; assert (div = DCrp s) as -> by congruence; reflexivity).
  assert (EL : forall p, In p (sort_rows L) -> exists r t, p = (r, [(label_of m, vz t)]) /\ seat m r = Some (vz t)).
  { intros p Hp. apply (Permutation_in _ (sort_rows_perm L)) in Hp. unfold L in Hp. apply in_map_iff in Hp. destruct Hp as ([r x] & <- & Hp).
    assert (Lx := In_lookup _ _ _ ND Hp). cbn [dist_data] in Hp. apply in_map_iff in Hp. destruct Hp as ([r' t] & E & _). cbn [fst snd] in E. assert (x = vz t) as -> by congruence.
    exists r, t. rewrite SE, LL. split; [reflexivity|exact Lx]. }
  rewrite <- ER. clear ER EK. clearbody L. clear - EL. induction (sort_rows L) as [|p l IH]; [exists []; split; [reflexivity|split; [reflexivity|intros r t []]]|].
  destruct IH as (ts & E & LE & A); [intros; apply EL; now right|]. destruct (EL p (or_introl eq_refl)) as (r & t & -> & Es). exists (t :: ts).
  cbn [map oseq snd fst]. unfold dget at 1. cbn [lookup]. destruct (eq_dec (label_of m) (label_of m)) as [_|N]; [|congruence]. rewrite E. split; [reflexivity|]. split; [cbn; now rewrite LE|].
  intros r' t' [Eq|Y]; [congruence|]. apply A. exact Y.
Qed.

Lemma remapped_ok : forall ts, exists part, remapped (map vz ts) = Ok part /\ List.length part = List.length ts /\
  (exists K, forall z, In z part <-> 0 <= z < Z.of_nat K) /\
  forall a k b l, In (a, k) (combine ts part) -> In (b, l) (combine ts part) -> (a = b <-> k = l).
Proof.
  intros ts. unfold remapped.
  assert (ET : map (fun x => match x with VQ q => trunc q | VNan => 0 end) (map vz ts) = ts).
  { rewrite map_map. rewrite <- (map_id ts) at 2. apply map_ext. intros z. cbn [vz]. apply trunc_qz. }
  cbv zeta. rewrite ET. set (blocks := zsort (nodup Z.eq_dec ts)).
  assert (BI : forall z, In z blocks <-> In z ts) by (intros z; unfold blocks; rewrite zsort_In; apply nodup_In).
  assert (BN : NoDup blocks) by (unfold blocks; eapply Permutation_NoDup; [apply Permutation_sym, zsort_perm|apply NoDup_nodup]).
  set (K := List.length blocks). assert (LK : List.length blocks = List.length (zrange K)) by (rewrite zrange_length; reflexivity).
  destruct (oseq_F2 (fun b i => lookup b (dict_zip blocks (zrange K)) = Some i) ts (map (fun b => dget b (dict_zip blocks (zrange K))) ts)) as (part & EP & FP).
  { assert (IN : forall b, In b ts -> In b ts) by auto. revert IN. generalize ts at 1 3 4. clear ET. intros l IN. induction l as [|b l IH]; cbn [map]; constructor; [|apply IH; intros; apply IN; now right].
    destruct (zip_fst blocks (zrange K) b LK) as [i Hi]; [apply BI, IN; now left|]. exists i. apply dict_zip_In in Hi; auto. unfold dget. rewrite Hi. auto. }
  exists part. split; [exact EP|]. split; [symmetry; apply (F2_len FP)|]. split.
  - exists K. intros z. rewrite <- zrange_In. split.
    + intros Hz. destruct (F2_In_r FP Hz) as (b & Hb & E). apply dict_zip_In in E; auto. apply in_combine_r in E. exact E.
    + intros Hz. destruct (zip_fst (zrange K) blocks z (eq_sym LK) Hz) as [b Hb]. apply combine_swap in Hb.
      destruct (F2_In_l FP (proj1 (BI b) (in_combine_l _ _ _ _ Hb))) as (i & Hi & E). apply dict_zip_In in Hb; auto. assert (i = z) as -> by congruence. apply in_combine_r in Hi. exact Hi.
  - intros a k b l Ha Hb. assert (E1 := F2_combine FP Ha). assert (E2 := F2_combine FP Hb). cbn beta in E1, E2. split; [congruence|]. intros <-.
    apply dict_zip_In in E1; auto. apply dict_zip_In in E2; auto. apply (zip_inj blocks (zrange K) a b k); auto. apply zrange_NoDup.
Qed.

(** The clusters of one view, numbered. *)
Definition view_part (rows : list Z) (m : cgpm) (part : list Z) : Prop :=
  List.length part = List.length rows /\ (exists K, forall z, In z part <-> 0 <= z < Z.of_nat K) /\ parted rows part m.

Lemma X_D_ok : forall X rows, importable X -> rows_of X rows -> exists XD, get_crosscat_X_D (CProd X) = Ok XD /\ Forall2 (view_part rows) X XD.
Proof.
  intros X rows IM RO. unfold get_crosscat_X_D. cbn [views_of].
  assert (A : exists TS, oseq (map (fun v => do o <- first_output v; get_crosscat_dataset_one (CProd X) o) X) = Ok (map (map vz) TS) /\
    Forall2 (fun m ts => List.length ts = List.length rows /\ forall r t, In (r, t) (combine rows ts) -> seat m r = Some (vz t)) X TS).
  { assert (IN : forall m, In m X -> In m X) by auto. revert IN. generalize X at 1 4 5. intros l IN. induction l as [|m l IH]; [exists []; split; [reflexivity|constructor]|].
    destruct IH as (TS & E & FT); [intros; apply IN; now right|]. destruct (dataset_one_ok X m rows IM (IN m (or_introl eq_refl)) RO) as (ts & E1 & A).
    exists (ts :: TS). cbn [map oseq]. rewrite first_label by (apply (crosscat_views X m (proj1 IM)), IN; now left). cbn [obind]. rewrite E1, E. split; [reflexivity|constructor; assumption]. }
  destruct A as (TS & E & FT). rewrite E. cbn [obind]. clear E. apply oseq_F2. clear IM RO. induction FT as [|m ts X' TS [LT ST] FT IH]; cbn [map]; [constructor|]. constructor; [|exact IH].
  destruct (remapped_ok ts) as (part & EP & LP & K & INJ). exists part. split; [exact EP|]. split; [congruence|]. split; [exact K|].
  intros r k r' l Hr Hr'.
  assert (G : forall r k, In (r, k) (combine rows part) -> exists t, In (r, t) (combine rows ts) /\ In (t, k) (combine ts part)).
  { intros r0 k0 H0. apply combine_nth_error in H0. destruct H0 as (i & E1 & E2). destruct (nth_error ts i) as [t|] eqn:Et.
    - exists t. split; eapply nth_error_combine; eauto.
    - apply nth_error_None in Et. assert (i < List.length part)%nat by (apply nth_error_Some; congruence). lia. }
  destruct (G r k Hr) as (t & H1 & H2), (G r' l Hr') as (t' & H1' & H2'). rewrite (ST _ _ H1), (ST _ _ H1'). split; [discriminate|].
  rewrite <- (INJ t k t' l H2 H2'). split; [|congruence]. intros Eq. apply qz_inj. unfold vz in Eq. congruence.
Qed.

(** ** X_L *)

Lemma bincount_full : forall l K, (forall z, In z l <-> 0 <= z < Z.of_nat K) -> negb (memb 0 (bincount l)) = true.
Proof.
  intros l K H. apply negb_true_iff. destruct (memb 0 (bincount l)) eqn:E; [|reflexivity]. exfalso. apply memb_In in E. destruct l as [|x l]; [destruct E|].
  unfold bincount in E. apply in_map_iff in E. destruct E as (i & E & Hi). apply zrange_In in Hi. assert (Hm := proj1 (H _) (zmax_In l x)). assert (HI : In i (x :: l)) by (apply H; lia).
  destruct (filter (Z.eqb i) (x :: l)) as [|y f] eqn:EF; [|cbn in E; lia].
  assert (Y : In i (filter (Z.eqb i) (x :: l))) by (apply filter_In; split; [exact HI|apply Z.eqb_refl]). rewrite EF in Y. destruct Y.
Qed.

(** Where the view of a column is. *)
Definition viewed (X : list cgpm) (o a : Z) : Prop := exists i m, a = Z.of_nat i /\ nth_error X i = Some m /\ In o (columns_of m).

Lemma views_ok : forall X, crosscat X -> exists va, oseq (map (fun o => omap Z.of_nat (get_cgpm_current_view_index (CProd X) [o])) (flat_map columns_of X)) = Ok va /\
  Forall2 (viewed X) (flat_map columns_of X) va.
Proof.
  intros X C. apply oseq_F2. assert (IN : forall o, In o (flat_map columns_of X) -> In o (flat_map columns_of X)) by auto. revert IN.
  generalize (flat_map columns_of X) at 1 3 4. intros l IN. induction l as [|o l IH]; cbn [map]; constructor; [|apply IH; intros; apply IN; now right].
  assert (Ho := IN o (or_introl eq_refl)). apply in_flat_map in Ho. destruct Ho as (m & Hm & Ho). destruct (in_split _ _ Hm) as (a & b & E).
  exists (Z.of_nat (List.length a)). split.
  - rewrite E. rewrite index_ok; [reflexivity|rewrite <- E; exact C|discriminate|]. intros o' [<-|[]]. apply column_output; [apply (crosscat_views X m C Hm)|exact Ho].
  - exists (List.length a), m. split; [reflexivity|]. split; [|exact Ho]. rewrite E. rewrite nth_error_app2, Nat.sub_diag by lia. reflexivity.
Qed.

Lemma viewed_structure : forall X rows va XD, crosscat X -> Forall2 (viewed X) (flat_map columns_of X) va -> Forall2 (view_part rows) X XD ->
  structure (List.length (flat_map columns_of X)) (List.length rows) va XD /\ grouped (flat_map columns_of X) rows va XD X.
Proof.
  intros X rows va XD C FV FD. assert (LX := F2_len FD). split; [split; [symmetry; apply (F2_len FV)|split]|split].
  - intros z. split.
    + intros Hz. destruct (F2_In_r FV Hz) as (o & _ & i & m & -> & E & _). assert (i < List.length X)%nat by (apply nth_error_Some; congruence). lia.
    + intros Hz. destruct (nth_error X (Z.to_nat z)) as [m|] eqn:E; [|apply nth_error_None in E; lia]. assert (Hm := nth_error_In _ _ E).
      destruct (sheet_column m) as [w Hw]; [apply (crosscat_views X m C Hm)|]. destruct (F2_In_l FV (proj2 (in_flat_map _ _ _) (ex_intro _ m (conj Hm Hw)))) as (a & Ha & i & m' & -> & E' & Hw').
      assert (m' = m) by (apply (same_view X m m' w); auto; apply nth_error_In in E'; exact E'). subst m'.
      assert (i = Z.to_nat z) as ->.
      { destruct (Nat.eq_dec i (Z.to_nat z)) as [|N]; [assumption|exfalso]. destruct C as [G ND]. clear - E E' N ND G Hw Hm.
        assert (Ho : In w (outputs m)) by (apply column_output; [apply (G m Hm)|exact Hw]). clear G Hm Hw. revert E E' N. generalize (Z.to_nat z). clear z. revert i. induction X as [|x X IH]; intros [|i] [|j] E E' N; try discriminate; try congruence; cbn [nth_error flat_map] in *.
        - assert (x = m) as -> by congruence. apply (NoDup_app_disj _ _ ND w Ho). apply in_flat_map. exists m. split; [apply nth_error_In in E; exact E|exact Ho].
        - assert (x = m) as -> by congruence. apply (NoDup_app_disj _ _ ND w Ho). apply in_flat_map. exists m. split; [apply nth_error_In in E'; exact E'|exact Ho].
        - apply NoDup_app_parts in ND. destruct ND as [_ ND]. apply (IH ND i j); auto. }
      apply in_combine_r in Ha. rewrite Z2Nat.id in Ha by lia. exact Ha.
  - intros part Hp. destruct (F2_In_r FD Hp) as (m & _ & L & _). exact L.
  - intros o a p b Ho Hp. destruct (F2_combine FV Ho) as (i & m & -> & E & Hom), (F2_combine FV Hp) as (j & m' & -> & E' & Hpm). split.
    + intros (w & Hw & Ho' & Hp'). assert (w = m) by (apply (same_view X m w o); auto; apply nth_error_In in E; exact E). subst w.
      assert (m' = m) by (apply (same_view X m m' p); auto; apply nth_error_In in E'; assumption). subst m'. f_equal.
      destruct (Nat.eq_dec i j) as [|N]; [assumption|exfalso]. destruct C as [G ND]. clear - E E' N ND G Hom Hw.
      assert (Hoo : In o (outputs m)) by (apply column_output; [apply (G m Hw)|exact Hom]). clear G Hw Hom. revert i j E E' N. induction X as [|x X IH]; intros [|i] [|j] E E' N; try discriminate; try congruence; cbn [nth_error flat_map] in *.
      * assert (x = m) as -> by congruence. apply (NoDup_app_disj _ _ ND o Hoo). apply in_flat_map. exists m. split; [apply nth_error_In in E'; exact E'|exact Hoo].
      * assert (x = m) as -> by congruence. apply (NoDup_app_disj _ _ ND o Hoo). apply in_flat_map. exists m. split; [apply nth_error_In in E; exact E|exact Hoo].
      * apply NoDup_app_parts in ND. destruct ND as [_ ND]. apply (IH ND i j); auto.
    + intros Eq. assert (i = j) as <- by lia. assert (m' = m) as -> by congruence. exists m. split; [apply nth_error_In in E; exact E|auto].
  - intros o a part m Ho Ep Hm Hom. destruct (F2_combine FV Ho) as (i & m' & -> & E & Hom'). rewrite Nat2Z.id in Ep.
    assert (m' = m) by (apply (same_view X m m' o); auto; apply nth_error_In in E; exact E). subst m'.
    apply (F2_combine FD). apply (nth_error_combine _ _ i); assumption.
Qed.

Lemma index_dict : forall (names : list Z) o, NoDup names -> In o names -> exists i, dget o (dict_zip names (seq 0 (List.length names))) = Ok i /\ nth_error names i = Some o.
Proof.
  intros names o ND Ho. assert (L : List.length names = List.length (seq 0 (List.length names))) by (now rewrite seq_length).
  destruct (zip_fst names _ o L Ho) as [i Hi]. exists i. split; [unfold dget; rewrite (proj2 (dict_zip_In names _ o i ND L) Hi); reflexivity|].
  apply combine_nth_error in Hi. destruct Hi as (j & E & E'). assert (j < List.length names)%nat by (apply nth_error_Some; congruence).
  rewrite (nth_error_nth' _ 0%nat) in E' by (rewrite seq_length; lia). rewrite seq_nth in E' by lia. assert (i = j) as -> by (cbn in E'; congruence). exact E.
Qed.

Lemma positions_ok : forall (names l : list Z), NoDup names -> (forall o, In o l -> In o names) ->
  exists is, oseq (map (fun o => dget o (dict_zip names (seq 0 (List.length names)))) l) = Ok is /\ positions names l is.
Proof.
  intros names l ND H. apply oseq_F2. induction l as [|o l IH]; cbn [map]; constructor; [|apply IH; intros; apply H; now right].
  destruct (index_dict names o ND (H o (or_introl eq_refl))) as (i & E & Ei). eauto.
Qed.

Lemma ensure_ok : forall (names : list Z) l, NoDup names -> (forall o b, In (o, b) l -> In o names /\ forall p, In p b -> In p names) ->
  exists d, ensure (dict_zip names (seq 0 (List.length names))) l = Ok d.
Proof.
  intros names l ND H. unfold ensure.
  destruct (oseq_ok (fun p : Z * list Z => do i <- dget (fst p) (dict_zip names (seq 0 (List.length names))); do js <- oseq (map (fun c => dget c (dict_zip names (seq 0 (List.length names)))) (snd p)); Ok (i, js)) l) as (es & -> & _).
  - intros [o b] Hp. destruct (H o b Hp) as [Ho Hb]. cbn [fst snd]. destruct (index_dict names o ND Ho) as (i & -> & _). cbn [obind].
    destruct (positions_ok names b ND Hb) as (js & -> & _). cbn [obind]. eauto.
  - cbn [obind]. eauto.
Qed.

Lemma X_L_ok : forall scc X M XD Cd Ci rows, importable X -> Forall2 (column_meta X) (flat_map columns_of X) (column_metadata M) -> Forall2 (view_part rows) X XD ->
  (forall b o, In b Cd -> In o b -> In o (flat_map columns_of X)) ->
  (forall o b, In (o, b) (scc Ci) -> In o (flat_map columns_of X) /\ forall p, In p b -> In p (flat_map columns_of X)) ->
  exists xl, get_crosscat_X_L scc (CProd X) M XD Cd Ci = Ok xl /\ Forall2 (viewed X) (flat_map columns_of X) (assignments xl) /\ List.length (view_states xl) = List.length XD.
Proof.
  intros scc X M XD Cd Ci rows IM FM FD HD HI. destruct IM as (C & CX & NE & TY & HV & HS). unfold get_crosscat_X_L. rewrite distribution_outputs by exact C.
  destruct (get_bases_ok X C NE) as (bs & -> & FB). cbn [obind].
  destruct (oseq_ok (fun p : nat * dist => create_hypers M (fst p) (snd p)) (enum_from 0 bs)) as (ch & -> & _).
  { intros [i d] Hp. apply enum_from_In in Hp. destruct Hp as (j & -> & Ed). cbn [fst snd Nat.add].
    destruct (nth_error (flat_map columns_of X) j) as [o|] eqn:Eo.
    2: { apply nth_error_None in Eo. assert (j < List.length bs)%nat by (apply nth_error_Some; congruence). assert (L := F2_len FB). lia. }
    assert (T := F2_combine FB (nth_error_combine _ _ _ _ _ Eo Ed)). cbn beta in T. destruct (TY o _ T) as [E|[n E]].
    - destruct d; try discriminate. cbn. eauto.
    - destruct d as [|s| | | |]; try discriminate. cbn [create_hypers].
      destruct (nth_error (column_metadata M) j) as [m|] eqn:Em.
      2: { apply nth_error_None in Em. assert (j < List.length (flat_map columns_of X))%nat by (apply nth_error_Some; congruence). assert (L := F2_len FM). lia. }
      unfold item. rewrite Em. cbn [obind]. assert (CM := F2_combine FM (nth_error_combine _ _ _ _ _ Eo Em)).
      destruct CM as [[T' _]|(n' & v2c & c2v & _ & -> & C1 & C2 & C3)]; [assert (Y := typed_unique X o _ _ C T T'); discriminate|]. cbn [code_to_value].
      destruct c2v as [|p c2v]; [|cbn; eauto]. exfalso. destruct (HV o _ T) as (r & q & Hq). destruct (holds_domain X r o q _ C Hq T) as (z & -> & _).
      apply (proj2 (C2 z)). exists r. exact Hq. }
  cbn [obind]. destruct (views_ok X C) as (va & -> & FV). cbn [obind].
  destruct (viewed_structure X rows va XD C FV FD) as ((_ & IV & _) & _). rewrite (bincount_full va (List.length XD) IV). cbn [oassert obind views_of].
  assert (VS : exists vs, oseq (map (fun p : cgpm * list Z => create_view_state (fst p) (snd p)) (combine X XD)) = Ok vs /\ List.length vs = List.length XD).
  { assert (SH : forall m, In m X -> sheet m) by (intros m Hm; apply (crosscat_views X m C Hm)). clear - FD SH. induction FD as [|m part X XD (_ & [K HK] & _) FD IH]; [exists []; split; reflexivity|].
    destruct IH as (vs & E & L); [intros; apply SH; now right|]. cbn [combine map oseq fst snd]. destruct (SH m (or_introl eq_refl)) as [s bs cs r2i r2c _ _ _].
    cbn [create_view_state]. rewrite (bincount_full part K HK). cbn [oassert obind dist_get_hypers]. change (dget "alpha"%string [("alpha"%string, crp_alpha s)]) with (@Ok Qc (crp_alpha s)).
    cbn [obind]. rewrite E. eexists. split; [reflexivity|]. cbn. now rewrite L. }
  destruct VS as (vs & -> & LV). cbn [obind].
  assert (NC := cols_NoDup X C).
  assert (DEP : exists dep, match Cd with [] => Ok None | _ => omap Some (ensure (dict_zip (flat_map columns_of X) (seq 0 (List.length (flat_map columns_of X)))) (flat_map (fun b => map (fun col => (col, b)) b) Cd)) end = Ok dep).
  { destruct Cd as [|b Cd]; [eauto|]. destruct (ensure_ok (flat_map columns_of X) (flat_map (fun b => map (fun col => (col, b)) b) (b :: Cd)) NC) as (d & ->); [|cbn; eauto].
    intros o b' Hb. apply in_flat_map in Hb. destruct Hb as (b0 & Hb0 & Hb). apply in_map_iff in Hb. destruct Hb as (o' & E & Ho'). assert (o' = o) as -> by congruence. assert (b0 = b') as -> by congruence.
    split; [apply (HD b' o Hb0 Ho')|]. intros p Hp. apply (HD b' p Hb0 Hp). }
  destruct DEP as (dep & ->). cbn [obind].
  assert (IND : exists ind, match Ci with [] => Ok None | _ => omap Some (ensure (dict_zip (flat_map columns_of X) (seq 0 (List.length (flat_map columns_of X)))) (scc Ci)) end = Ok ind).
  { destruct Ci as [|b Ci]; [eauto|]. destruct (ensure_ok (flat_map columns_of X) (scc (b :: Ci)) NC HI) as (d & ->). cbn; eauto. }
  destruct IND as (ind & ->). cbn [obind]. eexists. split; [reflexivity|]. cbn [assignments view_states]. split; [exact FV|exact LV].
Qed.

Lemma request_ok : forall srt scc X N S kernels rowids cols Cd Ci seed, (forall l, Permutation (srt l) l) -> importable X -> sensible X N S rowids cols Cd (scc Ci) ->
  exists rq obs rows code, cpp_request srt scc (CProd X) N S kernels rowids cols Cd Ci seed = Ok (Some (rq, obs)) /\ rows_of X rows /\
    structure (List.length (flat_map columns_of X)) (List.length rows) (assignments (rq_X_L rq)) (rq_X_D rq) /\
    grouped (flat_map columns_of X) rows (assignments (rq_X_L rq)) (rq_X_D rq) X /\
    List.length (view_states (rq_X_L rq)) = List.length (rq_X_D rq) /\
    (forall v, In v (flat_map columns_of X) -> numbering X v (code v)) /\
    tabulated X (flat_map columns_of X) rows code (rq_T rq) /\
    positions (flat_map columns_of X) (match cols with Some l => l | None => [] end) (rq_cols rq) /\
    positions rows (match rowids with Some l => l | None => [] end) (rq_rows rq).
Proof.
  intros srt scc X N S kernels rowids cols Cd Ci seed SP IM (NS & HC & HR & HD & HI). assert (IM' := IM). destruct IM' as (C & CX & NE & _). unfold cpp_request.
  assert (ST : exists st, steps_and_time N S = Ok st) by (destruct N, S; cbn; eauto; destruct NS; congruence). destruct ST as (st & ->). cbn [obind].
  assert (NC := cols_NoDup X C). rewrite distribution_outputs by exact C.
  assert (CS : exists is, match cols with None => Ok [] | Some l => oseq (map (fun o => dget o (dict_zip (flat_map columns_of X) (seq 0 (List.length (flat_map columns_of X))))) l) end = Ok is /\
    positions (flat_map columns_of X) (match cols with Some l => l | None => [] end) is).
  { destruct cols as [l|]; [|exists []; split; [reflexivity|constructor]]. apply positions_ok; [exact NC|]. intros o Ho. apply (HC l o eq_refl Ho). }
  destruct CS as (is & -> & PC). cbn [obind]. destruct (observations_ok X C) as (cs & -> & F). cbn [obind].
  destruct (rows_ok X cs CX (cols_nonempty X C NE) F) as (rows & ER & RO).
  assert (NZ : combine (flat_map columns_of X) cs <> []).
  { assert (L := F2_len F). assert (NN := cols_nonempty X C NE). destruct (flat_map columns_of X), cs; try discriminate; congruence. }
  assert (RS : exists rs, match rowids with None => Ok [] | Some l => do m <- observations_to_rowids_mapping (combine (flat_map columns_of X) cs); oseq (map (fun r => dget r (dict_zip m (seq 0 (List.length m)))) l) end = Ok rs /\
    positions rows (match rowids with Some l => l | None => [] end) rs).
  { destruct rowids as [l|]; [|exists []; split; [reflexivity|constructor]]. rewrite ER. cbn [obind]. apply positions_ok; [apply sorted_lt_NoDup, RO|]. intros r Hr. apply RO. apply (HR l r eq_refl Hr). }
  destruct RS as (rs & ERS & PR). destruct (M_c_ok srt X SP IM cs F) as (ms & EM & FM).
  set (M := mkMetas (dict_zip (flat_map columns_of X) (seq 0 (List.length (flat_map columns_of X)))) ms) in *.
  destruct (T_ok X IM cs F M FM rows ER RO) as (T & ET & TT). destruct (X_D_ok X rows IM RO) as (XD & EXD & FD).
  destruct (X_L_ok scc X M XD Cd Ci rows IM FM FD HD HI) as (xl & EXL & FV & LV). destruct (viewed_structure X rows _ XD C FV FD) as [ST GR].
  destruct (combine (flat_map columns_of X) cs) as [|p obs] eqn:EO; [congruence|]. rewrite ERS. cbn [obind]. rewrite EM. cbn [obind]. rewrite ET. cbn [obind]. rewrite EXD. cbn [obind]. rewrite EXL. cbn [obind].
  eexists. exists (p :: obs), rows, (code_at X M). split; [reflexivity|]. cbn [rq_X_L rq_X_D rq_T rq_cols rq_rows].
  split; [exact RO|]. split; [exact ST|]. split; [exact GR|]. split; [exact LV|]. split; [intros v Hv; apply (numbered X IM M FM v Hv)|]. split; [exact TT|]. split; [exact PC|exact PR].
Qed.

Lemma import_ok : forall srt order scc engine X N S kernels rowids cols Cd Ci seed rq obs rows, (forall l, Permutation (srt l) l) -> set_order order -> importable X -> rows_of X rows ->
  cpp_request srt scc (CProd X) N S kernels rowids cols Cd Ci seed = Ok (Some (rq, obs)) ->
  structure (List.length (flat_map columns_of X)) (List.length rows) (assignments (fst (engine rq))) (snd (engine rq)) ->
  List.length (view_states (fst (engine rq))) = List.length (snd (engine rq)) ->
  forall draws res, outcome (transition_cpp srt order scc engine (CProd X) N S kernels rowids cols Cd Ci seed) draws res ->
    (forall c, res = Ok c -> exists X', c = CProd X' /\ same_data X X' /\ grouped (flat_map columns_of X) rows (assignments (fst (engine rq))) (snd (engine rq)) X') /\
    (NoDup draws -> (forall z, In z draws -> ~ In z (flat_map outputs X)) -> exists c, res = Ok c).
Proof.
  intros srt order scc engine X N S kernels rowids cols Cd Ci seed rq obs rows SP SO IM RO ER ST LV draws res. assert (IM' := IM). destruct IM' as (C & CX & NE & TY & _).
  unfold transition_cpp. rewrite ER. destruct (engine rq) as [xl xd]. cbn [fst snd] in *. unfold get_crosscat_updated. rewrite distribution_outputs by exact C.
  destruct (get_bases_ok X C NE) as (bs & EB & FB). rewrite EB. cbn [obind].
  (* what was observed and the metadata made from it *)
  unfold cpp_request in ER. destruct (steps_and_time N S) as [st|]; [|discriminate]. cbn [obind] in ER.
  match type of ER with obind ?t _ = _ => destruct t as [cs'|]; [|discriminate] end. cbn [obind] in ER.
  destruct (observations_ok X C) as (cs & EO & F). rewrite EO in ER. cbn [obind] in ER.
  destruct (rows_ok X cs CX (cols_nonempty X C NE) F) as (rows' & ER' & RO').
  assert (rows' = rows) as ->.
  { apply sorted_perm_eq; [apply sorted_lt_le, RO'|apply sorted_lt_le, RO|]. apply NoDup_Permutation; [apply sorted_lt_NoDup, RO'|apply sorted_lt_NoDup, RO|]. intros r. rewrite (proj2 RO), (proj2 RO'). reflexivity. }
  destruct (M_c_ok srt X SP IM cs F) as (ms & EM & FM).
  destruct (combine (flat_map columns_of X) cs) as [|p obs'] eqn:EC.
  { exfalso. assert (L := F2_len F). assert (NN := cols_nonempty X C NE). destruct (flat_map columns_of X), cs; try discriminate; congruence. }
  match type of ER with obind ?t _ = _ => destruct t as [rs|]; [|discriminate] end. cbn [obind] in ER. rewrite EM in ER. cbn [obind] in ER.
  match type of ER with obind ?t _ = _ => destruct t as [T|]; [|discriminate] end. cbn [obind] in ER.
  match type of ER with obind ?t _ = _ => destruct t as [XD|]; [|discriminate] end. cbn [obind] in ER.
  match type of ER with obind ?t _ = _ => destruct t as [XL|]; [|discriminate] end. cbn [obind] in ER.
  assert (EQ : obs = p :: obs') by congruence. assert (EMq : rq_M_c rq = mkMetas (dict_zip (flat_map columns_of X) (seq 0 (List.length (flat_map columns_of X)))) ms).
  { assert (Y : Some (Some rq) = Some (Some (mkRequest (mkMetas (dict_zip (flat_map columns_of X) (seq 0 (List.length (flat_map columns_of X)))) ms) T XL XD (match seed with Some s => s | None => 1 end)
                        (match kernels with Some k => k | None => [] end) (fst st) (snd st) cs' rs))) by congruence. injection Y as ->. reflexivity. }
  clear ER. subst obs. rewrite EMq. cbn [name_to_idx column_metadata].
  assert (LI : List.length (dict_zip (flat_map columns_of X) (seq 0 (List.length (flat_map columns_of X)))) = List.length (flat_map columns_of X)).
  { rewrite <- (map_length fst). fold (keys (dict_zip (flat_map columns_of X) (seq 0 (List.length (flat_map columns_of X))))). rewrite dict_zip_keys; [reflexivity|apply cols_NoDup; exact C|now rewrite seq_length]. }
  rewrite LI, Nat.eqb_refl. cbn [oassert obind].
  destruct (oseq_ok (fun p : nat * dist => do m <- item ms (fst p); match snd p, m with DNrm _, MNormal | DCat _, MSymbols _ _ => Ok tt | _, _ => Err AssertionError end) (enum_from 0 bs)) as (us & EU & _).
  { intros [i d] Hp. apply enum_from_In in Hp. destruct Hp as (j & -> & Ed). cbn [fst snd Nat.add].
    destruct (nth_error (flat_map columns_of X) j) as [o|] eqn:Eo.
    2: { apply nth_error_None in Eo. assert (j < List.length bs)%nat by (apply nth_error_Some; congruence). assert (L := F2_len FB). lia. }
    destruct (nth_error ms j) as [m|] eqn:Em.
    2: { apply nth_error_None in Em. assert (j < List.length (flat_map columns_of X))%nat by (apply nth_error_Some; congruence). assert (L := F2_len FM). lia. }
    assert (T' := F2_combine FB (nth_error_combine _ _ _ _ _ Eo Ed)). cbn beta in T'. assert (CM := F2_combine FM (nth_error_combine _ _ _ _ _ Eo Em)).
    unfold item. rewrite Em. cbn [obind]. destruct CM as [[T2 ->]|(n & v2c & c2v & T2 & -> & _)]; assert (Y := typed_unique X o _ _ C T' T2); destruct d; try discriminate; eauto. }
  rewrite EU. cbn [obind]. destruct ST as (L1 & IV & LP).
  assert (AX : forallb (fun a => match xd with a0 :: _ => Nat.eqb (List.length a0) (List.length a) | [] => true end) xd = true).
  { apply forallb_forall. intros a Ha. destruct xd as [|a0 xd]; [reflexivity|]. apply Nat.eqb_eq. rewrite (LP a Ha), (LP a0 (or_introl eq_refl)). reflexivity. }
  rewrite AX. cbn [oassert obind]. rewrite LV, Nat.eqb_refl. cbn [oassert obind]. rewrite L1, Nat.eqb_refl. cbn [oassert obind]. rewrite ER'. cbn [obind].
  assert (LB : List.length (partition_assignments_to_blocks order (assignments xl)) = List.length xd).
  { unfold partition_assignments_to_blocks. rewrite map_length. rewrite (proj2 SO (assignments xl) (List.length xd) IV). now rewrite map_length, seq_length. }
  rewrite LB, Nat.eqb_refl. cbn [oassert obind]. apply realised_ok; auto. split; [exact L1|]. split; assumption.
Qed.

Lemma grouped_same : forall X X' rows va XD, crosscat X -> crosscat X' -> rows_of X rows -> structure (List.length (flat_map columns_of X)) (List.length rows) va XD ->
  grouped (flat_map columns_of X) rows va XD X -> grouped (flat_map columns_of X) rows va XD X' -> same_partitions X X'.
Proof.
  intros X X' rows va XD C C' [_ RI] (L & IV & LP) [G1 G2] [G1' G2']. split.
  - intros v w Hv Hw. destruct (zip_fst _ va v (eq_sym L) Hv) as [a Ha], (zip_fst _ va w (eq_sym L) Hw) as [b Hb]. rewrite (G1' v a w b Ha Hb), (G1 v a w b Ha Hb). reflexivity.
  - intros m m' v Hm Hv Hm' Hv' r r' w x w' x' Hx Hx'. assert (Hc : In v (flat_map columns_of X)) by (apply in_flat_map; eauto).
    destruct (zip_fst _ va v (eq_sym L) Hc) as [a Ha]. assert (Ra := proj1 (IV a) (in_combine_r _ _ _ _ Ha)).
    destruct (nth_error XD (Z.to_nat a)) as [part|] eqn:Ep; [|apply nth_error_None in Ep; lia]. assert (Lp := LP part (nth_error_In _ _ Ep)).
    destruct (zip_fst rows part r (eq_sym Lp) (proj2 (RI r) (ex_intro _ w (ex_intro _ x Hx)))) as [k Hk].
    destruct (zip_fst rows part r' (eq_sym Lp) (proj2 (RI r') (ex_intro _ w' (ex_intro _ x' Hx')))) as [k' Hk'].
    destruct (G2 v a part m Ha Ep Hm Hv r k r' k' Hk Hk') as [_ E1]. destruct (G2' v a part m' Ha Ep Hm' Hv' r k r' k' Hk Hk') as [_ E2]. rewrite E1, E2. reflexivity.
Qed.
