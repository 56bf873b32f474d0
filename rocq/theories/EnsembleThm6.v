(** Ensembles: the chains made by the constructor. *)
From Coq Require Import List ZArith QArith Qcanon Reals Bool String Permutation Lia Lra.
From Verif Require Import Base Xr Samp Lgamma Prims Cgpm Lib SpecPrims PrimsInv SpecComp CompInv CompThm SimShape SpecBook Book
  SpecTable Trans SpecHist Table Gibbs Hist Walks SpecWalks WalksThm Views ViewsThm ViewsThm2 Sample SpecSample SampleThm SampleThm3 Cpp CppThm Ensemble
  EnsembleThm2 EnsembleThm4 EnsembleThm5.
From Verif Require Import SpecViews SpecCrosscat SpecEnsemble.
Import ListNotations.
Local Open Scope Z_scope.

Lemma primitive_made : forall o d k, column_kind d k -> exists b, make_random_primitive o d = Ok b /\ fresh b /\ dist_o b = o /\ kind_of b = k.
Proof.
  intros o d k C. assert (P := one_positive). destruct C as [args k L LK|args|args|args]; unfold make_random_primitive; cbn [String.eqb Ascii.eqb Bool.eqb].
  - unfold dget. rewrite L. cbn [obind]. assert (E : (0 <=? k) = true) by (apply Z.leb_le; lia). rewrite E.
    eexists. split; [reflexivity|]. split; [constructor; assumption|]. split; reflexivity.
  - eexists. split; [reflexivity|]. split; [constructor; assumption|]. split; reflexivity.
  - unfold nrm_new. rewrite (qltb_pos 1%Qc P). cbn. eexists. split; [reflexivity|].
    split; [eapply (fresh_nrm o 0 1 1 1); unfold nrm_new; rewrite (qltb_pos 1%Qc P); reflexivity|]. split; reflexivity.
  - unfold poi_new. rewrite (qltb_pos 1%Qc P). cbn. eexists. split; [reflexivity|].
    split; [eapply (fresh_poi o 1 1); unfold poi_new; rewrite (qltb_pos 1%Qc P); reflexivity|]. split; reflexivity.
Qed.

Lemma always_then : forall {A B} (m : samp (out A)) (k : A -> samp (out B)) (P : out B -> Prop),
  always m (fun r => match r with Ok a => always (k a) P | Err e => P (Err e) end) -> always (sobind m k) P.
Proof. intros A B m k P H. unfold sobind. apply always_bind. eapply always_imp; [|exact H]. intros [a|e] Q; exact Q. Qed.

(** The column made for item [i]. *)
Definition made_column (outs : list Z) (ks : list kind) (i : nat) (b : dist) : Prop :=
  fresh b /\ kind_of b <> KTable /\ nth_error outs i = Some (dist_o b) /\ nth_error ks i = Some (kind_of b).

Definition made_view (outs : list Z) (ks : list kind) (block : list nat) (v : cgpm) : Prop :=
  exists label bs, v = new_flexmix (DCrp (crp_new label 1%Qc)) (CProd (map CDist bs)) /\ Forall2 (made_column outs ks) block bs.

Definition blocks (N : nat) (p : list (list nat)) : Prop :=
  (forall b, In b p -> b <> []) /\ Permutation (List.concat p) (seq 0 N).

Lemma select_ok : forall {A} (l : list A) block, (forall i, In i block -> (i < List.length l)%nat) ->
  exists r, select l block = Ok r /\ Forall2 (fun i a => nth_error l i = Some a) block r.
Proof.
  intros A l. induction block as [|i block IH]; intros H; [exists []; split; [reflexivity|constructor]|].
  destruct IH as (r & E & F); [intros; apply H; now right|]. specialize (H i (or_introl eq_refl)).
  destruct (nth_error l i) as [a|] eqn:N; [|apply nth_error_None in N; lia]. exists (a :: r). split; [|constructor; assumption].
  unfold select in *. cbn [map oseq]. rewrite N, E. reflexivity.
Qed.

Lemma F2_nth_error : forall {A B} (P : A -> B -> Prop) l l' i a, Forall2 P l l' -> nth_error l i = Some a -> exists b, nth_error l' i = Some b /\ P a b.
Proof.
  intros A B P l l' i a F. revert i. induction F as [|x y l l' H F IH]; intros [|i] E; cbn in *; try discriminate; [|auto].
  injection E as <-. eauto.
Qed.

Lemma made_outputs : forall outs ks block bs, Forall2 (made_column outs ks) block bs -> NoDup outs -> NoDup block -> NoDup (map dist_o bs).
Proof.
  intros outs ks block bs F ND NB. induction F as [|i b block bs (_ & _ & E & _) F IH]; [constructor|]. cbn [map]. inversion NB as [|? ? NI NB']; subst.
  constructor; [|auto]. intros Hin. apply in_map_iff in Hin as (b' & EO & Hb). destruct (F2_in_r _ _ _ F b' Hb) as (j & Hj & (_ & _ & E' & _)).
  apply NI. assert (i = j); [|subst; exact Hj]. rewrite NoDup_nth_error in ND. apply ND; [apply nth_error_Some; congruence|congruence].
Qed.

Lemma view_made : forall outs dists ks block, List.length outs = List.length dists -> Forall2 column_kind dists ks -> NoDup outs -> NoDup block ->
  (forall i, In i block -> (i < List.length outs)%nat) ->
  exists os ds, select outs block = Ok os /\ select dists block = Ok ds /\
    always (make_random_view os ds) (fun r => exists v, r = Ok v /\ made_view outs ks block v).
Proof.
  intros outs dists ks block L FK ND NB LT.
  destruct (select_ok outs block LT) as (os & E1 & F1). destruct (select_ok dists block) as (ds & E2 & F2); [intros; rewrite <- L; auto|].
  exists os, ds. split; [exact E1|]. split; [exact E2|]. unfold make_random_view. cbn [always]. intros label _.
  assert (X : exists bs, oseq (map (fun p => make_random_primitive (fst p) (snd p)) (combine os ds)) = Ok bs /\ Forall2 (made_column outs ks) block bs).
  { clear E1 E2 NB LT. revert ds F2. induction F1 as [|i o block os Ho F1 IH]; intros ds F2; inversion F2 as [|? d ? ds' Hd F2']; subst.
    - exists []. split; [reflexivity|constructor].
    - destruct (IH ds' F2') as (bs & E & F). destruct (F2_nth_error _ _ _ i d FK Hd) as (k & Hk & CK).
      destruct (primitive_made o d k CK) as (b & EB & FB & EO & EK). exists (b :: bs). cbn [combine map fst snd oseq]. rewrite EB, E. split; [reflexivity|].
      constructor; [|exact F]. split; [exact FB|]. split; [rewrite EK; destruct CK; discriminate|]. rewrite EO, EK. auto. }
  destruct X as (bs & EB & FB). rewrite EB. cbn [obind]. rewrite bases_product.
  - cbn [obind]. eexists. split; [reflexivity|]. exists label, bs. auto.
  - intros d Hd. destruct (F2_in_r _ _ _ FB d Hd) as (i & _ & (FR & _)). apply fresh_facts. exact FR.
  - apply (made_outputs outs ks block bs FB ND NB).
Qed.

Lemma views_made : forall outs dists ks, List.length outs = List.length dists -> Forall2 column_kind dists ks -> NoDup outs ->
  forall p, (forall b, In b p -> NoDup b) -> (forall b i, In b p -> In i b -> (i < List.length outs)%nat) ->
  always (make_views outs dists p) (fun r => exists vs, r = Ok vs /\ Forall2 (made_view outs ks) p vs).
Proof.
  intros outs dists ks L FK ND. induction p as [|b p IH]; intros NB LT; cbn [make_views].
  - exists []. split; [reflexivity|constructor].
  - destruct (view_made outs dists ks b L FK ND (NB b (or_introl eq_refl)) (fun i => LT b i (or_introl eq_refl))) as (os & ds & E1 & E2 & A).
    rewrite E1, E2. cbn [obind fst snd].
    apply always_then. eapply always_imp; [|exact A]. intros r (v & -> & MV).
    apply always_then. eapply always_imp; [|apply IH; [intros; apply NB; now right|intros; eapply LT; [right; eassumption|eassumption]]].
    intros r (vs & -> & F). cbn. exists (v :: vs). split; [reflexivity|]. constructor; assumption.
Qed.

Lemma made_facts : forall outs ks block v, made_view outs ks block v -> block <> [] -> NoDup (outputs v) ->
  new_view v /\ (forall i, In i block -> exists o k, nth_error outs i = Some o /\ nth_error ks i = Some k /\ kind_at v o = Some k) /\
  Forall2 (fun i o => nth_error outs i = Some o) block (columns_of v).
Proof.
  intros outs ks block v (label & bs & -> & F) NE ND.
  assert (OUT : outputs (new_flexmix (DCrp (crp_new label 1%Qc)) (CProd (map CDist bs))) = label :: map dist_o bs).
  { change (label :: outputs (CProd (map CDist bs)) = label :: map dist_o bs). rewrite outputs_prod. reflexivity. }
  rewrite OUT in ND. inversion ND as [|? ? NI NDb]; subst.
  assert (FF : forall b, In b bs -> reachable b /\ dist_data b = [] /\ kind_of b <> KTable).
  { intros b Hb. destruct (F2_in_r _ _ _ F b Hb) as (i & _ & (FR & KT & _)). destruct (fresh_facts b FR) as [X1 X2]. auto. }
  assert (FS : fresh (DCrp (crp_new label 1%Qc))) by (constructor; apply one_positive).
  assert (NV : new_view (new_flexmix (DCrp (crp_new label 1%Qc)) (CProd (map CDist bs)))).
  { exists (crp_new label 1%Qc), bs. split; [reflexivity|]. split.
    - destruct (fresh_facts _ FS) as [R0 D0].
      apply (cr_flexible (DCrp (crp_new label 1%Qc)) (CProd (map CDist bs)) (crp_support (crp_new label 1%Qc))); [exact R0|reflexivity| |].
      + apply (cr_product (map CDist bs)); [|apply bases_product; [intros; apply FF; assumption|exact NDb]].
        intros c Hc. apply in_map_iff in Hc. destruct Hc as (b & <- & Hb). apply cr_prim. apply FF. exact Hb.
      + rewrite outputs_prod. exact NI.
    - split; [reflexivity|]. split; [intros ->; inversion F; subst; congruence|]. intros d Hd. destruct (FF d Hd) as (_ & X & Y). auto. }
  split; [exact NV|]. destruct (new_view_good _ NV) as (RE & Sh & K & _).
  assert (COL : columns_of (new_flexmix (DCrp (crp_new label 1%Qc)) (CProd (map CDist bs))) = map dist_o bs) by apply outputs_prod.
  split.
  - intros i Hi. destruct (F2_in_l _ _ _ F i Hi) as (b & Hb & (_ & _ & E1 & E2)). exists (dist_o b), (kind_of b). split; [exact E1|]. split; [exact E2|].
    apply (kind_column (crp_new label 1%Qc) bs [] [] [] VNan b); [apply creachable_wf; exact RE|apply (sheet_shaped (crp_new label 1%Qc) bs [] [] []); exact Sh|exact Hb].
  - rewrite COL. apply F2_map_r. eapply F2_imp; [|exact F]. intros i b (_ & _ & E & _). exact E.
Qed.

Lemma concat_nth : forall (outs : list Z) p X, Forall2 (fun block v => Forall2 (fun i o => nth_error outs i = Some o) block (columns_of v)) p X ->
  Forall2 (fun i o => nth_error outs i = Some o) (List.concat p) (flat_map columns_of X).
Proof. intros outs p X F. induction F as [|b v p X H F IH]; [constructor|]. cbn. apply Forall2_app; assumption. Qed.

Lemma nth_error_perm : forall (outs : list Z) l cols, Permutation l (seq 0 (List.length outs)) -> Forall2 (fun i o => nth_error outs i = Some o) l cols ->
  Permutation cols outs.
Proof.
  intros outs l cols P F.
  assert (E : cols = map (fun i => nth i outs 0) l).
  { clear P. induction F as [|i o l cols H F IH]; [reflexivity|]. cbn. rewrite IH. f_equal. symmetry. apply nth_error_nth. exact H. }
  rewrite E. apply (Permutation_map (fun i => nth i outs 0)) in P. eapply Permutation_trans; [exact P|].
  assert (X : map (fun i => nth i outs 0) (seq 0 (List.length outs)) = outs); [|rewrite X; apply Permutation_refl].
  clear. induction outs as [|o outs IH]; [reflexivity|]. cbn. f_equal. rewrite <- seq_shift, map_map. exact IH.
Qed.

Lemma chain_made : forall outs ks p X, List.length ks = List.length outs -> blocks (List.length outs) p -> Forall2 (made_view outs ks) p X ->
  match new_product X with
  | Ok c => c = CProd X /\ showing outs ks (fun _ _ => None) c /\ (forall m, In m X -> new_view m) /\
      Forall2 (fun block m => Forall2 (fun i o => nth_error outs i = Some o) block (columns_of m)) p X
  | Err x => x = AssertionError
  end.
Proof.
  intros outs ks p X LK [NE PE] F.
  assert (FL : flatten_products X = X).
  { clear - F. induction F as [|b v p X (l & bs & -> & _) F IH]; [reflexivity|]. unfold flatten_products in *. cbn [flat_map new_flexmix]. rewrite IH. reflexivity. }
  assert (IN : flat_map inputs X = []).
  { clear - F. induction F as [|b v p X (l & bs & -> & _) F IH]; [reflexivity|]. cbn [flat_map]. rewrite IH, app_nil_r.
    change (inputs (CProd (map CDist bs)) = []). cbn [inputs]. induction bs as [|d bs IHb]; [reflexivity|exact IHb]. }
  unfold new_product, validate_product. rewrite IN. cbn [forallb].
  destruct (Nat.eqb (List.length (flat_map outputs X)) (List.length (dedup (flat_map outputs X)))) eqn:EN; [|reflexivity]. cbn.
  assert (ND : NoDup (flat_map outputs X)) by (apply dedup_length_NoDup; symmetry; apply Nat.eqb_eq; exact EN). clear EN.
  rewrite FL. split; [reflexivity|].
  assert (NDm : forall m, In m X -> NoDup (outputs m)).
  { clear - ND. induction X as [|m X IH]; intros v [].
    - subst. cbn [flat_map] in ND. clear IH. induction (outputs v) as [|z l IH]; [constructor|]. cbn in ND. inversion ND as [|? ? NI ND']; subst. constructor; [|auto]. intros H. apply NI. apply in_or_app. now left.
    - apply IH; [|assumption]. cbn [flat_map] in ND. clear - ND. induction (outputs m) as [|z l IH]; [exact ND|]. apply IH. cbn in ND. inversion ND; assumption. }
  assert (FA : Forall2 (fun block m => In block p /\ In m X /\ made_view outs ks block m) p X).
  { clear - F. assert (G : forall p' X', incl p' p -> incl X' X -> Forall2 (made_view outs ks) p' X' -> Forall2 (fun block m => In block p /\ In m X /\ made_view outs ks block m) p' X').
    { intros p' X' I1 I2 F'. induction F' as [|b m p' X' H F' IH]; [constructor|]. constructor; [split; [apply I1; now left|split; [apply I2; now left|exact H]]|].
      apply IH; intros a Ha; [apply I1|apply I2]; now right. }
    apply G; auto; apply incl_refl. }
  assert (FX : Forall2 (fun block m => In block p /\ new_view m /\ (forall i, In i block -> exists o k, nth_error outs i = Some o /\ nth_error ks i = Some k /\ kind_at m o = Some k) /\
      Forall2 (fun i o => nth_error outs i = Some o) block (columns_of m)) p X).
  { eapply F2_imp; [|exact FA]. intros b m (Hb & Hm & MV). split; [exact Hb|]. apply made_facts; auto. }
  assert (NV : forall m, In m X -> new_view m) by (intros m Hm; destruct (F2_in_r _ _ _ FX m Hm) as (b & _ & H); apply H).
  assert (CX : crosscat X).
  { split; [|exact ND]. intros m Hm. destruct (new_view_good m (NV m Hm)) as (RE & Sh & K & _). split; [apply creachable_grown; exact RE|auto]. }
  assert (FC : Forall2 (fun block m => Forall2 (fun i o => nth_error outs i = Some o) block (columns_of m)) p X) by (eapply F2_imp; [|exact FX]; intros b m H; apply H).
  split; [|split; [exact NV|exact FC]].
  exists X. split; [reflexivity|]. split; [exact CX|]. split; [apply (nth_error_perm outs (List.concat p)); [exact PE|apply concat_nth; exact FC]|].
  split.
  - assert (T : forall i o k, nth_error outs i = Some o -> nth_error ks i = Some k -> typed X o k).
    { intros i o k Eo Ek. assert (Hi : In i (List.concat p)).
      { apply (Permutation_in _ (Permutation_sym PE)). apply in_seq. assert (i < List.length outs)%nat by (apply nth_error_Some; congruence). lia. }
      apply in_concat in Hi as (b & Hb & Hi). destruct (F2_in_l _ _ _ FX b Hb) as (m & Hm & (_ & _ & H & _)).
      destruct (H i Hi) as (o' & k' & E1 & E2 & E3). exists m. split; [exact Hm|]. congruence. }
    clear - T LK. revert ks LK T. induction outs as [|o outs IH]; intros [|k ks] LK T; try discriminate; constructor.
    + apply (T 0%nat); reflexivity.
    + apply IH; [cbn in LK; congruence|]. intros i o' k' E1 E2. apply (T (S i)); assumption.
  - intros r v x. split; [|discriminate]. intros (m & Hm & E). exfalso. destruct (new_view_good m (NV m Hm)) as (RE & Sh & K & RC).
    destruct (RC r) as [S0 _]. destruct m; cbn [cell seat] in *; [discriminate..|]. rewrite S0 in E. discriminate.
Qed.

(** Which columns the partition puts together. *)
Lemma made_together : forall outs p X, NoDup outs -> Forall2 (fun block m => Forall2 (fun i o => nth_error outs i = Some o) block (columns_of m)) p X ->
  forall i j o o', nth_error outs i = Some o -> nth_error outs j = Some o' ->
  (together X o o' <-> exists b, In b p /\ In i b /\ In j b).
Proof.
  intros outs p X ND F i j o o' Ei Ej.
  assert (INV : forall b m k v, Forall2 (fun i o => nth_error outs i = Some o) b (columns_of m) -> nth_error outs k = Some v -> (In v (columns_of m) <-> In k b)).
  { intros b m k v Fb Ek. split.
    - intros Hv. destruct (F2_in_r _ _ _ Fb v Hv) as (k' & Hk & E). assert (k = k'); [|subst; exact Hk].
      rewrite NoDup_nth_error in ND. apply ND; [apply nth_error_Some; congruence|congruence].
    - intros Hk. destruct (F2_in_l _ _ _ Fb k Hk) as (v' & Hv & E). congruence. }
  split.
  - intros (m & Hm & H1 & H2). destruct (F2_in_r _ _ _ F m Hm) as (b & Hb & Fb). exists b. split; [exact Hb|]. split; [apply (INV b m i o Fb Ei)|apply (INV b m j o' Fb Ej)]; assumption.
  - intros (b & Hb & H1 & H2). destruct (F2_in_l _ _ _ F b Hb) as (m & Hm & Fb). exists m. split; [exact Hm|]. split; [apply (INV b m i o Fb Ei)|apply (INV b m j o' Fb Ej)]; assumption.
Qed.

Lemma blocks_drawn : forall N p, partition_of N p -> blocks N (map (map Z.to_nat) p).
Proof.
  intros N p (NE & ND & CV). split.
  - intros b Hb. apply in_map_iff in Hb as (b' & <- & Hb). specialize (NE b' Hb). destruct b'; [congruence|discriminate].
  - rewrite <- concat_map. apply NoDup_Permutation; [|apply seq_NoDup|].
    + assert (POS : forall z, In z (List.concat p) -> 0 <= z) by (intros z Hz; apply CV in Hz; lia). clear CV NE.
      induction (List.concat p) as [|z l IH]; [constructor|]. cbn [map]. inversion ND as [|? ? NI ND']; subst. constructor.
      * intros H. apply in_map_iff in H as (y & E & Hy). apply NI. assert (0 <= z) by (apply POS; now left). assert (0 <= y) by (apply POS; now right).
        assert (y = z) by lia. subst. exact Hy.
      * apply IH; [exact ND'|]. intros; apply POS; now right.
    + intros n. rewrite in_map_iff, in_seq. split.
      * intros (z & <- & Hz). apply CV in Hz. lia.
      * intros L. exists (Z.of_nat n). split; [lia|]. apply CV. lia.
Qed.

Lemma blocks_assigned : forall order N l, lists order -> List.length l = N -> blocks N (partition_assignments_to_blocks order l).
Proof.
  intros order N l LO L. destruct (LO l) as [NO IO]. unfold partition_assignments_to_blocks. split.
  - intros b Hb. apply in_map_iff in Hb as (u & <- & Hu). apply IO in Hu. apply In_nth_error in Hu as (i & Hi). apply block_of_In in Hi. intros E. rewrite E in Hi. destruct Hi.
  - apply NoDup_Permutation; [|apply seq_NoDup|].
    + assert (X : forall us, NoDup us -> NoDup (List.concat (map (fun u => block_of u l) us))).
      { induction us as [|u us IH]; intros NU; [constructor|]. inversion NU as [|? ? NI NU']; subst. cbn [map List.concat].
        apply NoDup_app_intro; [apply block_of_NoDup|apply IH; exact NU'|].
        intros i H1 H2. apply in_concat in H2 as (b & Hb & Hi). apply in_map_iff in Hb as (w & <- & Hw). apply block_of_In in H1. apply block_of_In in Hi. apply NI. congruence. }
      apply X. exact NO.
    + intros n. rewrite in_concat, in_seq. split.
      * intros (b & Hb & Hn). apply in_map_iff in Hb as (w & <- & Hw). apply block_of_In in Hn. assert (n < List.length l)%nat by (apply nth_error_Some; congruence). lia.
      * intros LT. destruct (nth_error l n) as [u|] eqn:E; [|apply nth_error_None in E; lia]. exists (block_of u l). split; [|apply block_of_In; exact E].
        apply in_map_iff. exists u. split; [reflexivity|]. apply IO. apply nth_error_In in E. exact E.
Qed.

Lemma crosscat_made : forall outs dists ks p, List.length outs = List.length dists -> Forall2 column_kind dists ks -> NoDup outs -> blocks (List.length outs) p ->
  always (sobind (make_views outs dists p) (fun views => Ret (new_product views)))
    (fun r => match r with
      | Ok c => new_chain outs ks c /\ exists X, c = CProd X /\ Forall2 (fun block m => Forall2 (fun i o => nth_error outs i = Some o) block (columns_of m)) p X
      | Err x => x = AssertionError end).
Proof.
  intros outs dists ks p L FK ND BL. apply always_then.
  assert (LK : List.length ks = List.length outs) by (rewrite L; symmetry; apply (F2_len _ _ _ FK)).
  assert (NB : NoDup (List.concat p)) by (eapply Permutation_NoDup; [apply Permutation_sym; apply BL|apply seq_NoDup]).
  eapply always_imp; [|apply (views_made outs dists ks L FK ND p)].
  - intros r (vs & -> & F). cbn [always]. assert (X := chain_made outs ks p vs LK BL F). destruct (new_product vs) as [c|x]; [|exact X].
    destruct X as (-> & SH & NV & FC). split; [split; [exact SH|eauto]|eauto].
  - clear - NB. induction p as [|b p IH]; intros b' []; [subst|].
    + cbn in NB. clear IH. induction b' as [|z l IH]; [constructor|]. cbn in NB. inversion NB as [|? ? NI ND']; subst. constructor; [|auto]. intros H. apply NI. apply in_or_app. now left.
    + apply IH; [|assumption]. cbn in NB. clear - NB. induction b as [|z l IH]; [exact NB|]. apply IH. cbn in NB. inversion NB; assumption.
  - intros b i Hb Hi. assert (Hc : In i (List.concat p)) by (apply in_concat; eauto). apply (Permutation_in _ (proj2 BL)) in Hc. apply in_seq in Hc. lia.
Qed.

Lemma chain_drawn : forall order ext outs dists ks, List.length outs = List.length dists -> Forall2 column_kind dists ks -> NoDup outs ->
  always (make_random_crosscat order ext false outs dists) (fun r => match r with Ok c => new_chain outs ks c | Err x => x = AssertionError end).
Proof.
  intros order ext outs dists ks L FK ND. unfold make_random_crosscat. cbn [always]. intros alpha PA. cbn in PA. apply always_then.
  unfold make_random_partition. cbn [negb]. unfold smap. apply always_bind. eapply always_imp; [|apply (partition_total alpha (List.length outs) PA)].
  intros r (p & -> & (PP & _)). cbn [always omap].
  eapply always_imp; [|apply (crosscat_made outs dists ks _ L FK ND (blocks_drawn _ p PP))].
  intros [c|x] H; [apply H|exact H].
Qed.

Lemma chain_constrained : forall order ext outs dists ks Q, List.length outs = List.length dists -> Forall2 column_kind dists ks -> NoDup outs -> lists order ->
  (forall alpha, (0 < qr alpha)%R -> always (ext (List.length outs) alpha) (fun r => exists l, r = Ok l /\ List.length l = List.length outs /\ Q l)) ->
  always (make_random_crosscat order ext true outs dists)
    (fun r => match r with Ok c => new_chain outs ks c /\ exists l, Q l /\ List.length l = List.length outs /\ assigned outs l c | Err x => x = AssertionError end).
Proof.
  intros order ext outs dists ks Q L FK ND LO EX. unfold make_random_crosscat. cbn [always]. intros alpha PA. cbn in PA. apply always_then.
  unfold make_random_partition. cbn [negb]. unfold smap. apply always_bind. eapply always_imp; [|apply (EX alpha PA)].
  intros r (l & -> & Ll & Ql). cbn [always omap].
  eapply always_imp; [|apply (crosscat_made outs dists ks _ L FK ND (blocks_assigned order _ l LO Ll))].
  intros [c|x] H; [|exact H]. destruct H as (NC & X & -> & FC). split; [exact NC|]. exists l. split; [exact Ql|]. split; [exact Ll|].
  exists X. split; [reflexivity|]. intros i j o o' Ei Ej. rewrite (made_together outs _ X ND FC i j o o' Ei Ej). unfold partition_assignments_to_blocks. split.
  - intros (b & Hb & H1 & H2). apply in_map_iff in Hb as (u & <- & _). apply block_of_In in H1. apply block_of_In in H2. congruence.
  - intros E. assert (LT : (i < List.length l)%nat) by (rewrite Ll; apply nth_error_Some; congruence).
    destruct (nth_error l i) as [u|] eqn:Eu; [|apply nth_error_None in Eu; lia]. exists (block_of u l). split; [|split; apply block_of_In; congruence].
    apply in_map_iff. exists u. split; [reflexivity|]. apply (proj2 (LO l)). apply nth_error_In in Eu. exact Eu.
Qed.

Lemma chains_made : forall (m : samp (out cgpm)) (P : cgpm -> Prop) E n, always m (fun r => match r with Ok c => P c | Err x => x = E end) ->
  always (make_chains m n) (fun r => match r with Ok cs => List.length cs = n /\ (forall c, In c cs -> P c) | Err x => x = E end).
Proof.
  intros m P E n A. induction n as [|n IH]; cbn [make_chains]; [split; [reflexivity|intros c []]|].
  apply always_then. eapply always_imp; [|exact A]. intros [c|x] H; [|exact H]. apply always_then. eapply always_imp; [|exact IH].
  intros [cs|x] H'; [|exact H']. destruct H' as [L F]. cbn. split; [congruence|]. intros d [<-|Hd]; auto.
Qed.

Lemma ensemble_made : forall order ext b outs dists n (P : cgpm -> Prop), List.length outs = List.length dists ->
  always (make_random_crosscat order ext b outs dists) (fun r => match r with Ok c => P c | Err x => x = AssertionError end) ->
  always (new_ensemble order ext b outs dists n) (fun r => match r with
    | Ok e => whole e /\ chains e = n /\ ens_outputs e = outs /\ ens_distributions e = dists /\ forall c, In c (cgpms e) -> P c
    | Err x => x = AssertionError end).
Proof.
  intros order ext b outs dists n P L A. unfold new_ensemble. rewrite L, Nat.eqb_refl. apply always_then.
  eapply always_imp; [|apply (chains_made _ P AssertionError n A)]. intros [cs|x] H; [|exact H]. destruct H as [Lc F]. cbn. auto.
Qed.
