(** Proofs about what is handed to the external engine. *)
From Coq Require Import List ZArith QArith Qcanon Reals Bool String Permutation Sorted Lia.
From Verif Require Import Base Xr Samp Lgamma Prims Cgpm Lib SpecPrims PrimsInv SpecComp CompInv CompDens CompThm SimShape PrimsThm2
  SpecTable SpecHist Table Gibbs Hist PropTable Meta MetaThm Walks SpecWalks WalksThm Trans Views ViewsThm ViewsThm2 ViewsThm3 ViewsThm4 ViewsThm5
  Hypers SpecHypers Progress Crosscat CrosscatThm CrosscatThm2 CrosscatThm3 Cpp CppThm.
From Verif Require Import SpecViews SpecCrosscat SpecCpp.
Import ListNotations.
Local Open Scope Z_scope.

(** ** Dicts made from two lists *)

Lemma keys_combine : forall {A B} (ks : list A) (vs : list B), List.length ks = List.length vs -> keys (combine ks vs) = ks.
Proof. induction ks as [|k ks IH]; intros [|v vs] L; try discriminate; [reflexivity|]. cbn [combine keys map fst]. f_equal. apply IH. now injection L. Qed.

Lemma combine_swap : forall {A B} (l : list A) (l' : list B) a b, In (a, b) (combine l l') <-> In (b, a) (combine l' l).
Proof.
  induction l as [|x l IH]; intros [|y l'] a b; cbn [combine In]; try tauto. rewrite IH. split; (intros [E|Y]; [left; congruence|now right]).
Qed.

Lemma dict_zip_In : forall {K V} `{EqDec K} (ks : list K) (vs : list V) k v, NoDup ks -> List.length ks = List.length vs ->
  (lookup k (dict_zip ks vs) = Some v <-> In (k, v) (combine ks vs)).
Proof.
  intros K V E ks vs k v ND L. unfold dict_zip. assert (NK : NoDup (keys (combine ks vs))) by (rewrite keys_combine by exact L; exact ND).
  rewrite dict_of_NoDup by exact NK. split; [apply lookup_In|]. apply In_lookup. exact NK.
Qed.

Lemma dict_zip_keys : forall {K V} `{EqDec K} (ks : list K) (vs : list V), NoDup ks -> List.length ks = List.length vs -> keys (dict_zip ks vs) = ks.
Proof. intros K V E ks vs ND L. unfold dict_zip. rewrite dict_of_NoDup; rewrite keys_combine by exact L; auto. Qed.

Lemma zrange_length : forall n, List.length (zrange n) = n.
Proof. intros n. unfold zrange. now rewrite map_length, seq_length. Qed.

Lemma zrange_In : forall n z, In z (zrange n) <-> 0 <= z < Z.of_nat n.
Proof.
  intros n z. unfold zrange. rewrite in_map_iff. split.
  - intros (i & <- & Hi). apply in_seq in Hi. lia.
  - intros Hz. exists (Z.to_nat z). split; [lia|]. apply in_seq. lia.
Qed.

Lemma zrange_NoDup : forall n, NoDup (zrange n).
Proof. intros n. unfold zrange. apply FinFun.Injective_map_NoDup; [intros x y; lia|apply seq_NoDup]. Qed.

Lemma zip_fst : forall {A B} (l : list A) (l' : list B) a, List.length l = List.length l' -> In a l -> exists b, In (a, b) (combine l l').
Proof.
  induction l as [|x l IH]; intros [|y l'] a L Ha; try discriminate; [destruct Ha|]. cbn [combine]. destruct Ha as [<-|Ha]; [exists y; now left|].
  destruct (IH l' a ltac:(now injection L) Ha) as [b Hb]. exists b. now right.
Qed.

Lemma zip_inj : forall {A B} (l : list A) (l' : list B) a a' b, NoDup l' -> In (a, b) (combine l l') -> In (a', b) (combine l l') -> a = a'.
Proof.
  intros A B l l' a a' b ND H1 H2. apply combine_nth_error in H1, H2. destruct H1 as (i & E1 & F1), H2 as (j & E2 & F2).
  assert (i = j); [|congruence]. apply (proj1 (NoDup_nth_error l') ND); [apply nth_error_Some; congruence|congruence].
Qed.

(** ** Categories *)

Lemma present_In : forall data q, In q (present data) <-> In (VQ q) data.
Proof.
  intros data q. unfold present. rewrite in_flat_map. split.
  - intros ([|q'] & Hx & Hq); [destruct Hq|]. destruct Hq as [<-|[]]. exact Hx.
  - intros Y. exists (VQ q). split; [exact Y|now left].
Qed.

(** The two maps of a column's categories are inverse to each other, between the categories in
    the data and 0..K-1. *)
Definition coded (data : list val) (v2c c2v : dict Z Z) : Prop :=
  (forall z i, lookup z c2v = Some i <-> lookup i v2c = Some z) /\
  (forall z, In z (keys c2v) <-> In (vz z) data) /\
  (forall i, In i (keys v2c) <-> 0 <= i < Z.of_nat (List.length c2v)).

Lemma metadata_ok : forall srt data s, (forall l, Permutation (srt l) l) -> (forall q, In (VQ q) data -> exists z, q = qz z /\ 0 <= z < cat_k s) ->
  exists v2c c2v, create_metadata srt data (DCat s) = Ok (MSymbols v2c c2v) /\ coded data v2c c2v.
Proof.
  intros srt data s SP HD. cbn [create_metadata]. set (cats := srt (nodup Qc_eq_dec (present data))).
  assert (CI : forall q, In q cats <-> In (VQ q) data).
  { intros q. rewrite <- present_In. unfold cats. rewrite <- (nodup_In Qc_eq_dec (present data)). split; apply Permutation_in; [|apply Permutation_sym]; apply SP. }
  assert (CN : NoDup cats) by (unfold cats; eapply Permutation_NoDup; [apply Permutation_sym; apply SP|apply NoDup_nodup]).
  assert (AS : forallb (fun q => qleb 0 q && qltb q (qz (cat_k s))) cats = true).
  { apply forallb_forall. intros q Hq. apply CI in Hq. destruct (HD q Hq) as (z & -> & Hz). apply andb_true_intro. split.
    - unfold qleb. apply negb_true_iff. apply qltb_false. rewrite qr_qz. change 0%Qc with (qz 0). rewrite qr_qz. apply IZR_le. lia.
    - apply qltb_true. rewrite !qr_qz. apply IZR_lt. lia. }
  rewrite AS. cbn [oassert obind].
  assert (NC : NoDup (map trunc cats)).
  { clear AS. assert (IN : forall q, In q cats -> exists z, q = qz z) by (intros q Hq; apply CI in Hq; destruct (HD q Hq) as (z & -> & _); eauto). clearbody cats. clear CI.
    induction cats as [|q cats IH]; cbn [map]; [constructor|]. inversion CN as [|? ? N CN']; subst. constructor; [|apply IH; [exact CN'|intros; apply IN; now right]].
    intros Y. apply in_map_iff in Y. destruct Y as (q' & E & Hq'). apply N. destruct (IN q (or_introl eq_refl)) as (z & ->). destruct (IN q' (or_intror Hq')) as (z' & ->).
    rewrite !trunc_qz in E. now subst z'. }
  assert (L : List.length (zrange (List.length (map trunc cats))) = List.length (map trunc cats)) by apply zrange_length.
  eexists. eexists. split; [reflexivity|]. split; [|split].
  - intros z i. rewrite !dict_zip_In; auto using zrange_NoDup. rewrite combine_swap. reflexivity.
  - intros z. rewrite dict_zip_keys by auto. rewrite in_map_iff. split.
    + intros (q & <- & Hq). apply CI in Hq. destruct (HD q Hq) as (z & -> & _). rewrite trunc_qz. exact Hq.
    + intros Y. exists (qz z). split; [apply trunc_qz|]. apply CI. exact Y.
  - intros i. rewrite dict_zip_keys by auto using zrange_NoDup. rewrite zrange_In.
    replace (List.length (dict_zip (map trunc cats) (zrange (List.length (map trunc cats))))) with (List.length (map trunc cats)); [reflexivity|].
    rewrite <- (map_length fst). fold (keys (dict_zip (map trunc cats) (zrange (List.length (map trunc cats))))). rewrite dict_zip_keys by auto. reflexivity.
Qed.

(** ** The data *)

Definition data_of (X : list cgpm) (o : Z) (d : dict Z val) : Prop := NoDup (keys d) /\ forall r x, lookup r d = Some x <-> holds X r o x.

Lemma holds_view : forall X m r o x, crosscat X -> In m X -> In o (columns_of m) -> (holds X r o x <-> cell m r o = Some x).
Proof.
  intros X m r o x C Hm Ho. split; [|intros E; exists m; auto]. intros (m' & Hm' & E). assert (Ho' := holds_column m' r o x (crosscat_views _ _ C Hm') E).
  rewrite (same_view X m m' o C Hm Hm' Ho Ho') in E. exact E.
Qed.

Lemma get_column_ok : forall X o, crosscat X -> In o (flat_map columns_of X) -> exists d, get_column (CProd X) o = Ok d /\ data_of X o d.
Proof.
  intros X o C Ho. destruct (proj1 (in_flat_map _ _ _) Ho) as (m & Hm & Hom). destruct (in_split _ _ Hm) as (l & r & EX).
  assert (ED : get_dataset (CProd X) o = Ok (entries (triples o (modelling m o)))) by (rewrite EX; apply dataset_ok; [rewrite <- EX; exact C|exact Hom]).
  assert (G := crosscat_views X m C Hm). unfold get_column. rewrite ED. cbn [obind].
  assert (EO : oseq (map (fun p : Z * row => do x <- dget o (snd p); Ok (fst p, x)) (entries (triples o (modelling m o)))) = Ok (flat_map (fun d => dist_data d) (modelling m o))).
  { unfold entries, triples. generalize (modelling m o). intros ds. induction ds as [|d ds IH]; [reflexivity|]. cbn [flat_map]. rewrite !map_app.
    induction (dist_data d) as [|[r0 x0] dd IHd]; [exact IH|]. cbn [map app oseq snd fst].
    unfold dget at 1. cbn [lookup]. destruct (eq_dec o o) as [_|N]; [|congruence]. cbn [obind]. rewrite IHd. reflexivity. }
  rewrite EO. cbn [obind]. destruct (column_data m o G Hom) as (K & _ & _ & _ & _ & CE & ND).
  assert (NK : NoDup (keys (flat_map (fun d => dist_data d) (modelling m o)))).
  { unfold keys. rewrite flat_map_concat_map, concat_map, map_map, <- flat_map_concat_map. exact ND. }
  exists (flat_map (fun d => dist_data d) (modelling m o)). split; [now rewrite dict_of_NoDup|]. split; [exact NK|].
  intros r0 x. rewrite (holds_view X m r0 o x C Hm Hom), <- CE. split.
  - intros E. apply lookup_In in E. apply in_flat_map in E. exact E.
  - intros E. apply In_lookup; [exact NK|]. apply in_flat_map. exact E.
Qed.

Lemma F2_len : forall {A B} {R : A -> B -> Prop} {l l'}, Forall2 R l l' -> List.length l = List.length l'.
Proof. intros A B R l l' F. induction F as [|a b l l' _ F IH]; [reflexivity|]. cbn [List.length]. now rewrite IH. Qed.

Lemma F2_In_r : forall {A B} {R : A -> B -> Prop} {l l' b}, Forall2 R l l' -> In b l' -> exists a, In a l /\ R a b.
Proof. intros A B R l l' b F. induction F as [|a b' l l' H F IH]; intros [].
  - subst b'. exists a. split; [now left|exact H].
  - destruct (IH H0) as (a' & Ha & HR). exists a'. split; [now right|exact HR].
Qed.

Lemma F2_In_l : forall {A B} {R : A -> B -> Prop} {l l' a}, Forall2 R l l' -> In a l -> exists b, In (a, b) (combine l l') /\ R a b.
Proof. intros A B R l l' a F. induction F as [|a' b' l l' H F IH]; intros [].
  - subst a'. exists b'. split; [now left|exact H].
  - destruct (IH H0) as (b & Ha & HR). exists b. split; [now right|exact HR].
Qed.

Lemma cols_NoDup : forall X, crosscat X -> NoDup (flat_map columns_of X).
Proof.
  intros X [G ND]. induction X as [|m X IH]; [constructor|]. cbn [flat_map] in *. apply NoDup_app_intro.
  - apply columns_NoDup. apply G. now left.
  - apply IH; [intros; apply G; now right|apply NoDup_app_parts in ND; apply ND].
  - intros o Ho Ho'. apply (NoDup_app_disj _ _ ND o).
    + apply column_output; [apply G; now left|exact Ho].
    + apply in_flat_map in Ho'. destruct Ho' as (m' & Hm' & Ho'). apply in_flat_map. exists m'. split; [exact Hm'|]. apply column_output; [apply G; now right|exact Ho'].
Qed.

Lemma cols_nonempty : forall X, crosscat X -> X <> [] -> flat_map columns_of X <> [].
Proof.
  intros [|m X] C N; [congruence|]. destruct (sheet_column m) as [w Hw]; [apply (crosscat_views _ m C); now left|]. cbn [flat_map].
  destruct (columns_of m); [destruct Hw|discriminate].
Qed.

Lemma observations_ok : forall X, crosscat X -> exists cs, get_crosscat_dataset (CProd X) = Ok (combine (flat_map columns_of X) cs) /\ Forall2 (data_of X) (flat_map columns_of X) cs.
Proof.
  intros X C. unfold get_crosscat_dataset. rewrite distribution_outputs by exact C.
  destruct (oseq_ok (get_column (CProd X)) (flat_map columns_of X)) as (cs & E & F).
  { intros o Ho. destruct (get_column_ok X o C Ho) as (d & -> & _). eauto. }
  exists cs. rewrite E. cbn [obind]. assert (L := F2_len F). rewrite dict_of_NoDup.
  - split; [reflexivity|]. assert (IN : forall o, In o (flat_map columns_of X) -> In o (flat_map columns_of X)) by auto. revert IN F.
    generalize (flat_map columns_of X) at 1 3 4. clear E L. intros l IN F. induction F as [|o d l cs E F IH]; constructor.
    + destruct (get_column_ok X o C (IN _ (or_introl eq_refl))) as (d' & E' & D). assert (d' = d) as <- by congruence. exact D.
    + apply IH. intros; apply IN; now right.
  - rewrite keys_combine by exact L. apply cols_NoDup. exact C.
Qed.

Lemma values_combine : forall {A B} (l : list A) (l' : list B), List.length l = List.length l' -> values (combine l l') = l'.
Proof. induction l as [|a l IH]; intros [|b l'] L; try discriminate; [reflexivity|]. unfold values in *. cbn [combine map snd]. f_equal. apply IH. now injection L. Qed.

Lemma data_rows : forall X o d r, complete X -> In o (flat_map columns_of X) -> data_of X o d -> (In r (keys d) <-> exists v x, holds X r v x).
Proof.
  intros X o d r CX Ho [ND D]. split.
  - intros Y. apply lookup_keys in Y. destruct Y as [x E]. apply D in E. eauto.
  - intros (v & x & Hx). destruct (CX r v x o Hx Ho) as (y & Hy). apply D in Hy. apply lookup_In in Hy. apply in_map_iff. exists (r, y). auto.
Qed.

Lemma rows_ok : forall X cs, complete X -> flat_map columns_of X <> [] -> Forall2 (data_of X) (flat_map columns_of X) cs ->
  exists rows, observations_to_rowids_mapping (combine (flat_map columns_of X) cs) = Ok rows /\ rows_of X rows.
Proof.
  intros X cs CX NE F. unfold observations_to_rowids_mapping. rewrite values_combine by (apply (F2_len F)).
  assert (K : forall d, In d cs -> forall r, In r (keys d) <-> exists v x, holds X r v x).
  { intros d Hd r. destruct (F2_In_r F Hd) as (o & Ho & D). apply (data_rows X o d r CX Ho D). }
  destruct cs as [|d cs]; [inversion F as [E|]; congruence|]. cbn [map].
  assert (AS : forallb (same_set (keys d)) (map keys cs) = true).
  { apply forallb_forall. intros l Hl. apply in_map_iff in Hl. destruct Hl as (d' & <- & Hd'). unfold same_set. apply andb_true_intro.
    split; apply forallb_forall; intros z Hz; apply memb_In; [apply (K d' (or_intror Hd')), (K d (or_introl eq_refl))|apply (K d (or_introl eq_refl)), (K d' (or_intror Hd'))]; exact Hz. }
  rewrite AS. cbn [oassert obind]. eexists. split; [reflexivity|]. split.
  - apply zsort_lt. apply NoDup_nodup.
  - intros r. rewrite zsort_In, nodup_In. apply K. now left.
Qed.

(** ** Taking the engine's answer over *)

Lemma blocks_given : forall cols va XD n, List.length va = List.length cols -> List.length XD = n ->
  Forall2 (fun (b : list nat * list Z) os => at_rows cols (fst b) os) (combine (map (fun u => block_of u va) (zrange n)) XD) (map (named cols va) (zrange n)).
Proof.
  intros cols va XD n L LX. assert (LZ : List.length (zrange n) = List.length XD) by (rewrite zrange_length; congruence). revert LZ.
  generalize (zrange n). clear LX. intros l. revert XD. induction l as [|u l IH]; intros [|p XD] E; try discriminate; cbn [map combine]; constructor.
  - cbn [fst]. apply named_at. exact L.
  - apply IH. now injection E.
Qed.

Lemma placed_at : forall (P : list Z -> list Z -> Prop) (f : Z -> list nat) (g : Z -> list Z) l XD, List.length l = List.length XD ->
  Forall2 (fun (b : list nat * list Z) os => P os (snd b)) (combine (map f l) XD) (map g l) ->
  forall i u part, nth_error l i = Some u -> nth_error XD i = Some part -> P (g u) part.
Proof.
  intros P f g l. induction l as [|u l IH]; intros [|p XD] E F i u' part; try discriminate; [destruct i; discriminate|]. cbn [map combine] in F.
  inversion F as [|? ? ? ? H F']; subst. destruct i as [|i]; cbn [nth_error].
  - intros E1 E2. assert (u' = u) as -> by congruence. assert (part = p) as -> by congruence. exact H.
  - apply IH; [now injection E|exact F'].
Qed.

Lemma zrange_nth : forall n z, 0 <= z < Z.of_nat n -> nth_error (zrange n) (Z.to_nat z) = Some z.
Proof.
  intros n z Hz. unfold zrange. rewrite nth_error_map. rewrite (nth_error_nth' _ 0%nat) by (rewrite seq_length; lia). cbn [option_map].
  rewrite seq_nth by lia. f_equal. lia.
Qed.

Lemma realised_ok : forall order X rows va XD, set_order order -> crosscat X -> complete X -> rows_of X rows ->
  structure (List.length (flat_map columns_of X)) (List.length rows) va XD ->
  forall draws res, outcome (realise order (CProd X) (flat_map columns_of X) rows (combine (partition_assignments_to_blocks order va) XD)) draws res ->
    (forall c, res = Ok c -> exists X', c = CProd X' /\ same_data X X' /\ grouped (flat_map columns_of X) rows va XD X') /\
    (NoDup draws -> (forall z, In z draws -> ~ In z (flat_map outputs X)) -> exists c, res = Ok c).
Proof.
  intros order X rows va XD [O1 O2] C CX [RS RI] (L & IV & LP) draws res OC. set (cols := flat_map columns_of X) in *.
  assert (EO : order va = zrange (List.length XD)) by (apply O2; exact IV).
  assert (NC : NoDup cols) by (apply cols_NoDup; exact C).
  assert (NR : NoDup rows).
  { clear - RS. induction RS as [|r rows RS IH F]; constructor; [|exact IH]. intros Y. rewrite Forall_forall in F. specialize (F _ Y). lia. }
  unfold partition_assignments_to_blocks in OC. rewrite EO in OC.
  destruct (realise_ok order cols rows O1 NR _ _ (blocks_given cols va XD (List.length XD) L eq_refl) X C CX) with (draws := draws) (res := res) as [A B].
  - intros os Hos. apply in_map_iff in Hos. destruct Hos as (u & <- & Hu). apply zrange_In in Hu. apply IV in Hu.
    destruct (zip_fst va cols u L Hu) as [o Ho]. apply combine_swap in Ho. apply named_In in Ho; [|exact L]. intros E. rewrite E in Ho. destruct Ho.
  - apply named_concat; auto. apply zrange_NoDup.
  - intros o Ho. apply in_concat in Ho. destruct Ho as (l & Hl & Ho). apply in_map_iff in Hl. destruct Hl as (u & <- & _). apply named_In in Ho; [|exact L].
    apply in_combine_l in Ho. exact Ho.
  - intros b Hb. destruct b as [b part]. apply in_combine_r in Hb. cbn [snd]. apply LP. exact Hb.
  - intros r Hr. apply RI. exact Hr.
  - exact OC.
  - split; [|exact B]. intros c Ec. destruct (A c Ec) as (Y' & -> & (R1 & R2 & R3 & R4 & _) & PL). exists Y'. split; [reflexivity|]. split; [split; auto|].
    assert (PA : forall o a, In (o, a) (combine cols va) -> forall part, nth_error XD (Z.to_nat a) = Some part -> placed rows (named cols va a) part Y').
    { intros o a Ho part Ep. assert (Ha : 0 <= a < Z.of_nat (List.length XD)) by (apply IV; apply in_combine_r in Ho; exact Ho).
      apply (placed_at (fun os part => placed rows os part Y') (fun u => block_of u va) (named cols va) (zrange (List.length XD)) XD) with (i := Z.to_nat a); auto.
      - apply zrange_length.
      - apply zrange_nth. exact Ha. }
    split.
    + intros o a p b Ho Hp. assert (Ha : 0 <= a < Z.of_nat (List.length XD)) by (apply IV; apply in_combine_r in Ho; exact Ho).
      destruct (nth_error XD (Z.to_nat a)) as [part|] eqn:Ep; [|apply nth_error_None in Ep; lia].
      destruct (PA o a Ho part Ep) as [PT _]. rewrite (PT o p) by (apply named_In; auto). rewrite named_In by exact L. split.
      * intros Hp'. apply (combine_functional cols va p a b); auto.
      * intros <-. exact Hp.
    + intros o a part m Ho Ep Hm Hom. destruct (PA o a Ho part Ep) as [_ PM]. intros r k r' l Hr Hr'. apply (PM m o); auto. apply named_In; auto.
Qed.
