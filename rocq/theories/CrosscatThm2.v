(** Proofs about inference on a whole CrossCat model: it does not raise. *)
From Coq Require Import List ZArith QArith Qcanon Reals Bool String Permutation Lia.
From Verif Require Import Base Xr Samp Lgamma Prims Cgpm Lib SpecPrims PrimsInv SpecComp CompInv CompDens CompThm SimShape
  SpecTable SpecHist Table Gibbs Hist Walks SpecWalks WalksThm Trans Views ViewsThm ViewsThm2 ViewsThm3 ViewsThm4 ViewsThm5
  Hypers SpecHypers HypersThm Progress SpecProgress Crosscat HypersThm2 PropHypers CrosscatThm.
From Verif Require Import SpecViews SpecCrosscat.
Import ListNotations.
Local Open Scope Z_scope.

Lemma crosscat_wf : forall X, crosscat X -> wf (CProd X).
Proof. intros X [C1 C2]. constructor; [|exact C2]. intros m Hm. apply grown_wf. apply C1. exact Hm. Qed.

Lemma crosscat_grown : forall X, crosscat X -> grown (CProd X).
Proof. intros X C. apply (gr_product X); [|apply crosscat_product; exact C]. intros m Hm. apply C. exact Hm. Qed.

Lemma kind_class : forall d d', kind_of d = kind_of d' -> same_class d d' = true.
Proof. intros [] [] E; cbn in *; congruence. Qed.

Lemma kind_names : forall d d' gs, kind_of d = kind_of d' -> good_grids d gs -> good_grids d' gs.
Proof. intros d d' gs E. assert (C := kind_class d d' E). destruct d, d'; try discriminate C; auto. Qed.

Lemma column_components : forall X o, crosscat X -> In o (flat_map columns_of X) ->
  exists ds d0 rest, get_cgpms_by_output_index (CProd X) o = Ok ds /\ ds = d0 :: rest /\ (forall d, In d ds -> kind_of d = kind_of d0) /\ typed X o (kind_of d0).
Proof.
  intros X o C Ho. destruct (proj1 (in_flat_map _ _ _) Ho) as (m & Hm & Hom). assert (Gm := crosscat_views X m C Hm).
  destruct (in_split _ _ Hm) as (l & r & ->). assert (Hout : In o (outputs m)) by (apply column_output; [apply Gm|exact Hom]).
  rewrite (find_ok _ (crosscat_wf _ C)) by (cbn [outputs]; apply in_flat_map; exists m; auto). rewrite modelling_view by auto.
  destruct (column_data m o Gm Hom) as (K & KA & _ & D & (b & Hb & _) & _). destruct (modelling m o) as [|d0 rest]; [destruct Hb|].
  exists (d0 :: rest), d0, rest. split; [reflexivity|]. split; [reflexivity|]. assert (K0 := proj2 (proj2 (D d0 (or_introl eq_refl)))). split.
  - intros d Hd. rewrite K0. apply D. exact Hd.
  - exists m. split; [exact Hm|]. now rewrite K0.
Qed.

Lemma column_tunable : forall X o, crosscat X -> no_normal_uc X -> In o (flat_map columns_of X) ->
  exists ds d0, get_cgpms_by_output_index (CProd X) o = Ok ds /\ tunable ds d0 /\ typed X o (kind_of d0).
Proof.
  intros X o C NU Ho. destruct (column_components X o C Ho) as (ds & d0 & rest & E & ED & K & T). exists ds, d0. split; [exact E|]. split; [|exact T].
  split; [exists rest; exact ED|]. split; [intros d Hd; apply kind_class; auto|]. intros s ->. exact (NU o T).
Qed.

Lemma label_components : forall X m, crosscat X -> In m X -> exists s, get_cgpms_by_output_index (CProd X) (label_of m) = Ok [DCrp s].
Proof.
  intros X m C Hm. assert (Gm := crosscat_views X m C Hm). destruct (in_split _ _ Hm) as (l & r & ->).
  assert (Hout : In (label_of m) (outputs m)) by (rewrite (sheet_outputs m) by apply Gm; now left).
  rewrite (find_ok _ (crosscat_wf _ C)) by (cbn [outputs]; apply in_flat_map; exists m; auto). rewrite modelling_view by auto.
  assert (W := good_wf m Gm). assert (E := find_ok m W (label_of m) Hout). rewrite <- E. destruct Gm as (_ & S & _). destruct S as [s bs cs r2i r2c _ _ _].
  exists s. cbn [get_cgpms_by_output_index label_of dist_o]. now rewrite Z.eqb_refl.
Qed.

Definition keeps_ok (X : list cgpm) (r : cgpm * out unit) : Prop := snd r = Ok tt /\ keeps X (fst r).

Lemma same_data_typed : forall X Y, same_data X Y -> no_normal_uc X -> no_normal_uc Y.
Proof. intros X Y (_ & _ & _ & T) N v H. apply (N v). apply T. exact H. Qed.

(** A column or the label of a view, with grids. *)
Definition has_grids (Y : list cgpm) (p : Z * out grids) : Prop :=
  exists gs ds d0, snd p = Ok gs /\ get_cgpms_by_output_index (CProd Y) (fst p) = Ok ds /\ tunable ds d0 /\ good_grids d0 gs.

Lemma hypers_each_returns : forall cols Y, crosscat Y -> (forall p, In p cols -> has_grids Y p) -> NoDup (map fst cols) ->
  always (hypers_each (CProd Y) cols) (fun r => snd r = Ok tt).
Proof.
  induction cols as [|[o g] cols IH]; intros Y C H ND; cbn [hypers_each]; [reflexivity|].
  destruct (H (o, g) (or_introl eq_refl)) as (gs & ds & d0 & Eg & E & T & GG). cbn [fst snd] in *. rewrite Eg, E. cbn [obind].
  apply always_bind. assert (A := C41_returns (CProd Y) o ds d0 gs (crosscat_grown Y C) E T GG).
  generalize (always_and _ _ _ A (transition_hypers_adjusted ds gs)). apply always_imp. intros r ((h & ->) & AD). cbn [fst snd] in *.
  destruct (puts_all o (CProd Y) ds E (map (retune h) ds) [] AD) as (c' & P1 & P2 & P3 & P4 & P5 & _). rewrite app_nil_r in P1. rewrite P1. cbn [fst].
  destruct (crosscat_rts Y c' C P2) as (W & -> & SW). inversion ND; subst. apply IH; [exact (proj1 SW)| |assumption].
  intros [o' g'] Hp. destruct (H (o', g') (or_intror Hp)) as (gs' & ds' & d0' & Eg' & E' & R'). exists gs', ds', d0'. split; [exact Eg'|]. split; [|exact R'].
  cbn [fst] in *. rewrite P5; [exact E'|]. intros ->. apply H2. apply in_map_iff. exists (o, g'). auto.
Qed.

Lemma oseq_ok : forall {A B} (f : A -> out B) l, (forall a, In a l -> exists b, f a = Ok b) ->
  exists bs, oseq (map f l) = Ok bs /\ Forall2 (fun a b => f a = Ok b) l bs.
Proof.
  intros A B f l H. induction l as [|a l IH]; [exists []; split; [reflexivity|constructor]|].
  destruct (H a (or_introl eq_refl)) as (b & E). destruct IH as (bs & E' & F); [intros; apply H; now right|].
  exists (b :: bs). cbn [map oseq]. rewrite E. cbn [obind]. rewrite E'. split; [reflexivity|constructor; assumption].
Qed.

Lemma outputs_or_columns : forall X outs o, crosscat X -> columns_given X outs -> In o (outputs_or (CProd X) outs) -> In o (flat_map columns_of X).
Proof.
  intros X outs o C HO Ho. unfold outputs_or in Ho. destruct outs as [[|a l]|]; try (rewrite distribution_outputs in Ho by exact C; exact Ho). exact (HO _ o eq_refl Ho).
Qed.

Lemma hypers_distributions_returns : forall X g outs, crosscat X -> no_normal_uc X -> grids_for X (grids_columns g) (grids_dividers g) -> columns_given X outs ->
  always (transition_hypers_distributions g (CProd X) outs) (fun r => snd r = Ok tt).
Proof.
  intros X g outs C NU GF HO. unfold transition_hypers_distributions.
  destruct (oseq_ok (get_cgpms_by_output_index (CProd X)) (outputs_or (CProd X) outs)) as (bs & -> & _).
  { intros o Ho. destruct (column_components X o C (outputs_or_columns X outs o C HO Ho)) as (ds & _ & _ & E & _). eauto. }
  apply any_order_always. intros os P. apply hypers_each_returns; [exact C| |].
  - intros p Hp. apply in_map_iff in Hp. destruct Hp as (o & <- & Ho). apply (Permutation_in o (Permutation_sym P)) in Ho. apply nodup_In in Ho.
    destruct (column_tunable X o C NU (outputs_or_columns X outs o C HO Ho)) as (ds & d0 & E & T & Ty). destruct (proj1 GF o d0 Ty) as (gs & L & GG).
    exists gs, ds, d0. cbn [fst snd]. unfold dget. rewrite L. auto.
  - rewrite map_map. cbn [fst]. rewrite map_id. apply (Permutation_NoDup P). apply NoDup_nodup.
Qed.

Lemma view_indexes_ok : forall X outs, crosscat X -> columns_given X outs -> exists is, view_indexes (CProd X) outs = Ok is /\ NoDup is /\ forall i, In i is -> exists m, nth_error X i = Some m /\ In m X.
Proof.
  intros X outs C HO. unfold view_indexes.
  assert (K : forall o, In o (outputs_or (CProd X) outs) -> exists i, get_cgpm_current_view_index (CProd X) [o] = Ok i /\ exists m, nth_error X i = Some m /\ In m X).
  { intros o Ho. apply (outputs_or_columns X outs o C HO) in Ho. destruct (proj1 (in_flat_map _ _ _) Ho) as (m & Hm & Hom).
    assert (Gm := crosscat_views X m C Hm). destruct (in_split _ _ Hm) as (l & r & ->). exists (List.length l). split.
    - apply index_ok; [exact C|discriminate|]. intros o' [<-|[]]. apply column_output; [apply Gm|exact Hom].
    - exists m. split; [|exact Hm]. rewrite nth_error_app2, Nat.sub_diag by lia. reflexivity. }
  destruct (oseq_ok (fun o => get_cgpm_current_view_index (CProd X) [o]) (outputs_or (CProd X) outs)) as (bs & E & F).
  { intros o Ho. destruct (K o Ho) as (i & E & _). eauto. }
  rewrite E. cbn [obind]. exists (nodup Nat.eq_dec bs). split; [reflexivity|]. split; [apply NoDup_nodup|]. intros i Hi. apply nodup_In in Hi.
  clear E. induction F as [|o i' l l' E F IH]; [destruct Hi|]. destruct Hi as [->|Hi].
  - destruct (K o (or_introl eq_refl)) as (i2 & E2 & R). rewrite E in E2. injection E2 as <-. exact R.
  - apply IH; [|exact Hi]. intros o' Ho'. apply K. now right.
Qed.

Lemma labels_ok : forall X is, crosscat X -> NoDup is -> (forall i, In i is -> exists m, nth_error X i = Some m /\ In m X) ->
  exists labels, oseq (map (fun i => do v <- item X i; first_output v) is) = Ok labels /\ NoDup labels /\
  (forall o, In o labels -> exists m, In m X /\ o = label_of m) /\ forall i, In i is -> exists m, nth_error X i = Some m /\ In (label_of m) labels.
Proof.
  intros X is C NI HI.
  destruct (oseq_ok (fun i => do v <- item X i; first_output v) is) as (ls & E & F).
  - intros i Hi. destruct (HI i Hi) as (m & N & Hm). unfold item. rewrite N. cbn [obind]. unfold first_output.
    rewrite (sheet_outputs m) by apply (crosscat_views X m C Hm). eauto.
  - exists ls. split; [exact E|]. clear E.
    assert (W : Forall2 (fun i o => exists m, nth_error X i = Some m /\ In m X /\ o = label_of m) is ls).
    { clear NI. induction F as [|i o l l' E F IH]; constructor.
      - destruct (HI i (or_introl eq_refl)) as (m & N & Hm). unfold item in E. rewrite N in E. cbn [obind] in E. unfold first_output in E.
        rewrite (sheet_outputs m) in E by apply (crosscat_views X m C Hm). injection E as <-. eauto.
      - apply IH. intros j Hj. apply HI. now right. }
    clear F. split; [|split].
    + revert NI. induction W as [|i o l l' (m & N & Hm & ->) W IH]; intros NI; constructor; inversion NI; subst.
      * intros Hin. clear IH NI. assert (Z : exists j, In j l /\ exists m', nth_error X j = Some m' /\ In m' X /\ label_of m = label_of m').
        { clear - W Hin. induction W as [|j o l l' R W IH]; [destruct Hin|]. destruct Hin as [->|Hin].
          - exists j. split; [now left|exact R].
          - destruct (IH Hin) as (j' & Hj & R'). exists j'. split; [now right|exact R']. }
        destruct Z as (j & Hj & m' & N' & Hm' & EL). assert (i <> j) by (intros ->; contradiction).
        assert (DJ : m' = m \/ True) by auto. clear DJ.
        destruct (nth_error_split X i N) as (a & b & -> & La).
        assert (Hb : In m' (a ++ b)).
        { destruct (Nat.lt_total j (List.length a)) as [L|[L|L]]; [|lia|].
          - apply in_or_app. left. rewrite nth_error_app1 in N' by exact L. eapply nth_error_In; eauto.
          - apply in_or_app. right. rewrite nth_error_app2 in N' by lia. destruct (j - List.length a)%nat as [|k] eqn:Ek; [lia|]. cbn [nth_error] in N'. eapply nth_error_In; eauto. }
        apply (one_view a m b m' (label_of m) C); [rewrite (sheet_outputs m) by apply (crosscat_views _ m C Hm); now left|exact Hb|].
        rewrite EL. rewrite (sheet_outputs m') by apply (crosscat_views _ m' C Hm'). now left.
      * apply IH; [|assumption]. intros j Hj. apply HI. now right.
    + clear - W. induction W as [|i o l l' (m & _ & Hm & E) W IH]; [intros o []|]. intros o' [<-|Ho]; [eauto|auto].
    + clear - W. induction W as [|i o l l' (m & N & _ & ->) W IH]; [intros i []|]. intros i' [<-|Hi]; [exists m; split; [exact N|now left]|].
      destruct (IH i' Hi) as (m' & N' & I'). exists m'. split; [exact N'|now right].
Qed.

Lemma hypers_row_divide_returns : forall X g outs, crosscat X -> grids_for X (grids_columns g) (grids_dividers g) -> columns_given X outs ->
  always (transition_hypers_row_divide g (CProd X) outs) (fun r => snd r = Ok tt).
Proof.
  intros X g outs C GF HO. unfold transition_hypers_row_divide. destruct (view_indexes_ok X outs C HO) as (is & -> & NI & HI). cbn [obind views_of].
  destruct (labels_ok X is C NI HI) as (labels & -> & NL & HL & _). cbn [obind].
  destruct (oseq_ok (get_cgpms_by_output_index (CProd X)) labels) as (bs & -> & _).
  { intros o Ho. destruct (HL o Ho) as (m & Hm & ->). destruct (label_components X m C Hm) as (s & E). eauto. }
  cbn [obind]. apply any_order_always. intros os P. apply hypers_each_returns; [exact C| |].
  - intros p Hp. apply in_map_iff in Hp. destruct Hp as (o & <- & Ho). apply (Permutation_in o (Permutation_sym P)) in Ho.
    destruct (HL o Ho) as (m & Hm & ->). destruct (label_components X m C Hm) as (s & E). exists (grids_dividers g), [DCrp s], (DCrp s). cbn [fst snd].
    split; [reflexivity|]. split; [exact E|]. split; [|apply GF]. split; [exists []; reflexivity|]. split; [intros d [<-|[]]; reflexivity|discriminate].
  - rewrite map_map. cbn [fst]. rewrite map_id. apply (Permutation_NoDup P). exact NL.
Qed.

Lemma set_nth_length : forall {A} (l : list A) i x, List.length (set_nth i x l) = List.length l.
Proof. intros A l. induction l as [|a l IH]; intros [|i] x; cbn [set_nth List.length]; auto. Qed.

Lemma get_rowids_ok : forall m rowids, sheet m -> exists rs, get_rowids_transition m rowids = Ok rs.
Proof. intros m rowids S. destruct S. unfold get_rowids_transition, get_rowids. cbn [obind]. eauto. Qed.

Lemma views_rows_returns : forall X is Y rowids, no_gaps X -> same_data X Y -> (forall i, In i is -> (i < List.length Y)%nat) ->
  always (views_rows (CProd Y) is rowids) (fun r => snd r = Ok tt).
Proof.
  intros X. induction is as [|i is IH]; intros Y rowids NG SD HI; cbn [views_rows]; [reflexivity|]. cbn [views_of].
  assert (Hi := HI i (or_introl eq_refl)). unfold item. destruct (nth_error Y i) as [v|] eqn:N; [|apply nth_error_None in N; lia]. cbn [obind].
  assert (Hv : In v Y) by (eapply nth_error_In; eauto). assert (Gv := crosscat_views Y v (proj1 SD) Hv).
  destruct (get_rowids_ok v rowids) as (rs & ER); [apply Gv|]. rewrite ER. cbn [obind].
  assert (EI : item Y i = Ok v) by (unfold item; rewrite N; reflexivity). destruct (item_Ok Y i v EI) as (a & b & EY & _ & ES).
  apply any_order_always. intros rids P. apply always_bind. assert (NY := same_data_gaps X Y SD NG).
  eapply always_imp; [|apply (rows_each_keeps rids v Gv)].
  - intros p (Q1 & Q2 & Q3 & _). rewrite Q1. apply IH; [exact NG| |].
    + eapply same_data_trans; [exact SD|]. apply replaced; [exact (proj1 SD)|]. rewrite ES, EY. apply Forall2_app; [|constructor; [split; assumption|]];
      apply F2_same; intros y Hy; (split; [|apply same_cells_refl]); apply (proj1 (proj1 SD)); rewrite EY; apply in_or_app; cbn; tauto.
    + intros j Hj. rewrite set_nth_length. apply HI. now right.
  - intros r Hr. apply (get_rowids_seats v rowids rs r Gv ER). apply (Permutation_in r (Permutation_sym P) Hr).
  - intros r o Ec. destruct (NY r o (ex_intro _ v (conj Hv Ec))) as [N1 N2]. split; intros X1; [apply N1|apply N2]; exists v; auto.
Qed.

Lemma row_assignments_returns : forall X outs rowids, crosscat X -> no_gaps X -> columns_given X outs ->
  always (transition_row_assignments (CProd X) outs rowids) (fun r => snd r = Ok tt).
Proof.
  intros X outs rowids C NG HO. unfold transition_row_assignments. destruct (view_indexes_ok X outs C HO) as (is & -> & _ & HI).
  apply any_order_always. intros is' P. apply (views_rows_returns X); [exact NG|apply same_data_refl; exact C|].
  intros i Hi. apply (Permutation_in i (Permutation_sym P)) in Hi. destruct (HI i Hi) as (m & N & _). apply nth_error_Some. congruence.
Qed.

Lemma run_all_returns : forall {St} (P : St -> Prop) ks s, (forall k s, In k ks -> P s -> always (k s) (fun r => snd r = Ok tt /\ P (fst r))) -> P s ->
  always (run_all ks s) (fun r => snd r = Ok tt /\ P (fst r)).
Proof.
  intros St P. induction ks as [|k ks IH]; intros s H Hs; cbn [run_all]; [split; [reflexivity|exact Hs]|]. apply always_bind.
  eapply always_imp; [|apply (H k s (or_introl eq_refl) Hs)]. intros r [-> Hr]. apply IH; [|exact Hr]. intros k' s' Hk. apply H. now right.
Qed.

Lemma same_data_grids : forall X Y a b, same_data X Y -> grids_for X a b -> grids_for Y a b.
Proof. intros X Y a b (_ & _ & _ & T) [G1 G2]. split; [|exact G2]. intros v d H. apply G1. apply T. exact H. Qed.

Lemma same_data_given : forall X Y outs, same_data X Y -> columns_given X outs -> columns_given Y outs.
Proof. intros X Y outs SD HO l o E Ho. apply (same_data_columns X Y o SD). exact (HO l o E Ho). Qed.

Lemma kernel_returns : forall X g outs rowids nm k s, no_gaps X -> no_normal_uc X -> grids_for X (grids_columns g) (grids_dividers g) -> columns_given X outs ->
  kernel_lookup g outs rowids nm = Ok k -> nm <> "view_assignments"%string -> keeps X s -> always (k s) (fun r => snd r = Ok tt /\ keeps X (fst r)).
Proof.
  intros X g outs rowids nm k s NG NU GF HO En NV Hs. assert (Hs' := Hs). destruct Hs' as (Y & -> & SD). unfold kernel_lookup in En.
  assert (C := proj1 SD). assert (NG' := same_data_gaps X Y SD NG). assert (NU' := same_data_typed X Y SD NU).
  assert (GF' := same_data_grids X Y _ _ SD GF). assert (HO' := same_data_given X Y outs SD HO).
  destruct (String.eqb nm "hypers_distributions"); [injection En as <-; apply always_and; [now apply hypers_distributions_returns|now apply hypers_distributions_keeps]|].
  destruct (String.eqb nm "hypers_row_divide"); [injection En as <-; apply always_and; [now apply hypers_row_divide_returns|now apply hypers_row_divide_keeps]|].
  destruct (String.eqb nm "hypers_column_divide"); [injection En as <-; split; [reflexivity|exact Hs]|].
  destruct (String.eqb nm "row_assignments"); [injection En as <-; apply always_and; [now apply row_assignments_returns|now apply row_assignments_keeps]|].
  destruct (String.eqb nm "view_assignments") eqn:E; [|discriminate]. apply String.eqb_eq in E. contradiction.
Qed.

(** ** What is changed *)

Lemma same_cells_trans : forall a b d, same_cells a b -> same_cells b d -> same_cells a d.
Proof.
  intros a b d (A1 & A2 & A3 & A4) (B1 & B2 & B3 & B4). split; [congruence|]. split; [congruence|]. split; intros; [now rewrite B3|now rewrite B4].
Qed.

Lemma F2_nth : forall {A B} (R : A -> B -> Prop) X Y, List.length X = List.length Y ->
  (forall i x y, nth_error X i = Some x -> nth_error Y i = Some y -> R x y) -> Forall2 R X Y.
Proof.
  intros A B R. induction X as [|x X IH]; intros [|y Y] L H; try discriminate; constructor.
  - apply (H 0%nat); reflexivity.
  - apply IH; [cbn in L; lia|]. intros i a b Ea Eb. apply (H (Datatypes.S i)); assumption.
Qed.

Lemma nth_set_same : forall {A} (l : list A) i x, (i < List.length l)%nat -> nth_error (set_nth i x l) i = Some x.
Proof. intros A l. induction l as [|a l IH]; intros [|i] x L; cbn in *; try lia; [reflexivity|]. apply IH. lia. Qed.

Lemma nth_set_other : forall {A} (l : list A) i j x, i <> j -> nth_error (set_nth i x l) j = nth_error l j.
Proof. intros A l. induction l as [|a l IH]; intros [|i] [|j] x N; cbn; try congruence; try reflexivity. apply IH. lia. Qed.

Definition step_rows (rowids : option (list Z)) (m m' : cgpm) : Prop :=
  same_cells m m' /\ (forall r, ~ picked rowids r -> seat m' r = seat m r) /\ (forall r, seat m' r <> None <-> seat m r <> None).

Lemma step_rows_refl : forall rowids m, step_rows rowids m m.
Proof. intros. split; [apply same_cells_refl|]. split; intros; [reflexivity|tauto]. Qed.

Lemma rowids_picked : forall v rowids rs r, get_rowids_transition v rowids = Ok rs -> In r rs -> picked rowids r.
Proof.
  intros v rowids rs r E Hr. unfold get_rowids_transition in E. destruct (get_rowids v) as [l|e]; cbn [obind] in E; [|discriminate]. 
  destruct rowids as [[|a l']|]; cbn [picked]; auto. assert (E' : rs = filter (fun r => memb r (a :: l')) l) by congruence. rewrite E' in Hr.
  apply filter_In in Hr. apply memb_In. apply Hr.
Qed.

Lemma views_rows_local : forall is Y rowids, crosscat Y -> no_gaps Y -> (forall i, In i is -> (i < List.length Y)%nat) -> NoDup is ->
  always (views_rows (CProd Y) is rowids) (fun p => snd p = Ok tt /\ exists Y', fst p = CProd Y' /\ List.length Y' = List.length Y /\
    forall i m m', nth_error Y i = Some m -> nth_error Y' i = Some m' -> (~ In i is -> m' = m) /\ step_rows rowids m m').
Proof.
  induction is as [|i is IH]; intros Y rowids C NG HI ND; cbn [views_rows].
  { cbn [always fst snd]. split; [reflexivity|]. exists Y. split; [reflexivity|]. split; [reflexivity|]. intros i m m' E E'. rewrite E in E'. injection E' as <-.
    split; [reflexivity|apply step_rows_refl]. }
  cbn [views_of]. assert (Hi := HI i (or_introl eq_refl)). unfold item. destruct (nth_error Y i) as [v|] eqn:N; [|apply nth_error_None in N; lia]. cbn [obind].
  assert (Hv : In v Y) by (eapply nth_error_In; eauto). assert (Gv := crosscat_views Y v C Hv).
  destruct (get_rowids_ok v rowids) as (rs & ER); [apply Gv|]. rewrite ER. cbn [obind].
  assert (EI : item Y i = Ok v) by (unfold item; rewrite N; reflexivity). destruct (item_Ok Y i v EI) as (a & b & EY & _ & ES).
  apply any_order_always. intros rids P. apply always_bind. inversion ND as [|i0 is0 NI ND']; subst i0 is0.
  eapply always_imp; [|apply (rows_each_keeps rids v Gv)].
  - intros p (Q1 & Q2 & Q3 & Q4 & Q5). rewrite Q1.
    assert (SD : same_data Y (set_nth i (fst p) Y)).
    { apply replaced; [exact C|]. rewrite ES. rewrite EY at 1. apply Forall2_app; [|constructor; [split; assumption|]];
      apply F2_same; intros y Hy; (split; [|apply same_cells_refl]); apply C; rewrite EY; apply in_or_app; cbn; tauto. }
    eapply always_imp; [|apply (IH (set_nth i (fst p) Y) rowids (proj1 SD) (same_data_gaps Y _ SD NG)); [|exact ND']].
    + intros q (E1 & Y' & E2 & LY & E3). split; [exact E1|]. exists Y'. split; [exact E2|]. rewrite set_nth_length in LY. split; [exact LY|].
      intros j m m' Ej Ej'. destruct (Nat.eq_dec j i) as [->|Nj].
      * rewrite N in Ej. injection Ej as <-. destruct (E3 i (fst p) m') as [F1 F2]; [apply nth_set_same; exact Hi|exact Ej'|].
        split; [intros X1; exfalso; apply X1; now left|]. rewrite (F1 NI). split; [exact Q3|]. split; [|exact Q4].
        intros r Hr. apply Q5. intros Y1. apply Hr. apply (rowids_picked v rowids rs r ER). apply (Permutation_in r (Permutation_sym P) Y1).
      * destruct (E3 j m m') as [F1 F2]; [rewrite nth_set_other by (intros X1; apply Nj; now symmetry); exact Ej|exact Ej'|]. split; [|exact F2].
        intros X1. apply F1. intros X2. apply X1. now right.
    + intros j Hj. rewrite set_nth_length. apply HI. now right.
  - intros r Hr. apply (get_rowids_seats v rowids rs r Gv ER). apply (Permutation_in r (Permutation_sym P) Hr).
  - intros r o Ec. destruct (NG r o (ex_intro _ v (conj Hv Ec))) as [N1 N2]. split; intros X1; [apply N1|apply N2]; exists v; auto.
Qed.

(** The views with the columns given. *)
Lemma view_indexes_chosen : forall X outs is, crosscat X -> columns_given X outs -> view_indexes (CProd X) outs = Ok is ->
  forall i m, nth_error X i = Some m -> (In i is <-> chosen outs m).
Proof.
  intros X outs is C HO E i m N. unfold view_indexes in E.
  destruct (oseq (map (fun o => get_cgpm_current_view_index (CProd X) [o]) (outputs_or (CProd X) outs))) as [bs|e] eqn:EO; cbn [obind] in E; [|discriminate].
  assert (E' : is = nodup Nat.eq_dec bs) by congruence. subst is. rewrite nodup_In. clear E.
  assert (Hm : In m X) by (eapply nth_error_In; eauto). assert (Gm := crosscat_views X m C Hm).
  destruct (nth_error_split X i N) as (l & r & EX & Ll).
  assert (IX : forall o, In o (flat_map columns_of X) -> (get_cgpm_current_view_index (CProd X) [o] = Ok i <-> In o (columns_of m))).
  { intros o Ho. destruct (proj1 (in_flat_map _ _ _) Ho) as (w & Hw & How). assert (Gw := crosscat_views X w C Hw). destruct (in_split _ _ Hw) as (l2 & r2 & EX2).
    assert (EW : get_cgpm_current_view_index (CProd X) [o] = Ok (List.length l2)).
    { rewrite EX2. apply index_ok; [rewrite <- EX2; exact C|discriminate|]. intros o' [<-|[]]. apply column_output; [apply Gw|exact How]. }
    rewrite EW. split.
    - intros [= <-]. assert (m = w); [|congruence]. rewrite EX2, nth_error_app2, Nat.sub_diag in N by lia. injection N as <-. reflexivity.
    - intros Hom. assert (EM : get_cgpm_current_view_index (CProd X) [o] = Ok (List.length l)).
      { rewrite EX. apply index_ok; [rewrite <- EX; exact C|discriminate|]. intros o' [<-|[]]. apply column_output; [apply Gm|exact Hom]. }
      congruence. }
  assert (B : In i bs <-> exists o, In o (outputs_or (CProd X) outs) /\ get_cgpm_current_view_index (CProd X) [o] = Ok i).
  { split.
    - intros Hi. exact (oseq_map_In _ _ bs i EO Hi).
    - intros (o & Ho & Eo). clear IX. revert bs EO. induction (outputs_or (CProd X) outs) as [|a os IH]; intros bs EO; [destruct Ho|]. cbn [map oseq] in EO.
      destruct (get_cgpm_current_view_index (CProd X) [a]) as [j|e] eqn:Ea; cbn [obind] in EO; [|discriminate].
      destruct (oseq (map (fun o => get_cgpm_current_view_index (CProd X) [o]) os)) as [js|e] eqn:Es; cbn [obind] in EO; [|discriminate].
      assert (EB : bs = j :: js) by congruence. subst bs. destruct Ho as [->|Ho]; [left; congruence|]. right. exact (IH Ho js eq_refl). }
  rewrite B. clear B EO bs. unfold chosen, outputs_or.
  assert (AL : (exists o, In o (get_distribution_outputs (CProd X)) /\ get_cgpm_current_view_index (CProd X) [o] = Ok i) <-> True).
  { split; [auto|]. intros _. assert (NC : columns_of m <> []).
    { destruct Gm as (_ & Sm & _). destruct Sm as [s bs cs r2i r2c NB _ _]. cbn [columns_of]. destruct bs; [congruence|]. cbn. discriminate. }
    destruct (columns_of m) as [|o os] eqn:EC; [congruence|]. exists o. assert (Ho : In o (flat_map columns_of X)) by (apply in_flat_map; exists m; rewrite EC; cbn; auto).
    split; [rewrite distribution_outputs by exact C; exact Ho|]. apply IX; [exact Ho|now left]. }
  destruct outs as [[|a os]|]; [exact AL| |exact AL]. split; intros (o & Ho & Eo); exists o; (split; [exact Ho|]); apply (IX o (HO _ o eq_refl Ho)); exact Eo.
Qed.

Lemma row_assignments_local : forall X outs rowids, crosscat X -> no_gaps X -> columns_given X outs ->
  always (transition_row_assignments (CProd X) outs rowids) (fun p => snd p = Ok tt /\ exists X', fst p = CProd X' /\ Forall2 (rows_moved outs rowids) X X').
Proof.
  intros X outs rowids C NG HO. unfold transition_row_assignments. destruct (view_indexes_ok X outs C HO) as (is & E & ND & HI). rewrite E.
  assert (CH := view_indexes_chosen X outs is C HO E). apply any_order_always. intros is' P.
  eapply always_imp; [|apply (views_rows_local is' X rowids C NG)].
  - intros p (E1 & Y & E2 & LY & E3). split; [exact E1|]. exists Y. split; [exact E2|]. apply F2_nth; [now symmetry|]. intros i m m' Em Em'.
    destruct (E3 i m m' Em Em') as (F1 & F2 & F3 & F4). split; [exact F2|]. split; [|split; assumption].
    intros NC. apply F1. intros Hi. apply NC. apply (CH i m Em). apply (Permutation_in i (Permutation_sym P) Hi).
  - intros i Hi. apply (Permutation_in i (Permutation_sym P)) in Hi. destruct (HI i Hi) as (m & N & _). apply nth_error_Some. congruence.
  - apply (Permutation_NoDup P ND).
Qed.

(** ** Hyperparameters only *)

Lemma untouched_refl : forall d, untouched d d.
Proof. intros d. repeat split. destruct d; reflexivity. Qed.

Lemma untouched_trans : forall a b d, untouched a b -> untouched b d -> untouched a d.
Proof.
  intros a b d (A1 & A2 & A3 & A4 & A5 & A6) (B1 & B2 & B3 & B4 & B5 & B6).
  split; [congruence|]. split; [congruence|]. split; [destruct a, b, d; try discriminate; reflexivity|]. split; [congruence|]. split; congruence.
Qed.

Lemma F2_trans : forall {A} (R : A -> A -> Prop), (forall a b c, R a b -> R b c -> R a c) -> forall x y z, Forall2 R x y -> Forall2 R y z -> Forall2 R x z.
Proof. intros A R T x y z F. revert z. induction F; intros z G; inversion G; subst; constructor; eauto. Qed.

Lemma hypers_moved_refl : forall os X, hypers_moved os X X.
Proof.
  intros os X. split; [apply F2_same; intros m _; split; [apply same_cells_refl|reflexivity]|]. split; [reflexivity|]. intros o ds E. exists ds. split; [exact E|].
  apply F2_same. intros d _. apply untouched_refl.
Qed.

Lemma hypers_moved_trans : forall os X Y W, hypers_moved os X Y -> hypers_moved os Y W -> hypers_moved os X W.
Proof.
  intros os X Y W (A1 & A2 & A3) (B1 & B2 & B3). split; [|split].
  - eapply F2_trans; [|exact A1|exact B1]. intros a b c (C1 & C2) (D1 & D2). split; [eapply same_cells_trans; eauto|]. intros r. now rewrite D2.
  - intros o Ho. rewrite B2 by exact Ho. apply A2. exact Ho.
  - intros o ds E. destruct (A3 o ds E) as (ds' & E' & F). destruct (B3 o ds' E') as (ds2 & E2 & F2). exists ds2. split; [exact E2|].
    eapply F2_trans; [exact untouched_trans|exact F|exact F2].
Qed.

Lemma rts_views : forall X c, crosscat X -> rts (CProd X) c -> exists X', c = CProd X' /\ crosscat X' /\
  Forall2 (fun m m' => same_cells m m' /\ forall r, seat m' r = seat m r) X X'.
Proof.
  intros X c C T. destruct (crosscat_rts X c C T) as (X1 & -> & SD). destruct (rts_prod X _ T) as (X' & E & F). injection E as <-.
  exists X1. split; [reflexivity|]. split; [exact (proj1 SD)|]. destruct C as [C _]. clear T SD.
  induction F as [|m m' l l' H F IH]; constructor.
  - destruct (view_rts m m') as (_ & V2 & V3); [apply C; now left|exact H|]. split; assumption.
  - apply IH. intros y Hy. apply C. now right.
Qed.

Lemma put_moved : forall os X o ds ds', crosscat X -> In o os -> get_cgpms_by_output_index (CProd X) o = Ok ds -> Forall2 adjusted ds ds' ->
  exists X', fst (put_column o (CProd X) ds') = CProd X' /\ crosscat X' /\ hypers_moved os X X' /\ get_cgpms_by_output_index (CProd X') o = Ok ds'.
Proof.
  intros os X o ds ds' C Ho E AD. destruct (puts_all o (CProd X) ds E ds' [] AD) as (c' & P1 & P2 & P3 & P4 & P5 & _). rewrite app_nil_r in P1. rewrite P1. cbn [fst].
  destruct (rts_views X c' C P2) as (W & -> & CW & F). exists W. split; [reflexivity|]. split; [exact CW|]. split; [|exact P4]. split; [exact F|]. split.
  - intros o' N. apply P5. intros ->. contradiction.
  - intros o' ds0 E0. destruct (Z.eq_dec o' o) as [->|N].
    + rewrite E in E0. injection E0 as <-. exists ds'. split; [exact P4|]. clear - AD. induction AD; constructor; auto. now apply adjusted_untouched.
    + exists ds0. split; [rewrite P5 by exact N; exact E0|]. apply F2_same. intros d _. apply untouched_refl.
Qed.

Lemma hypers_each_local : forall os cols X, crosscat X -> (forall p, In p cols -> In (fst p) os) ->
  always (hypers_each (CProd X) cols) (fun r => exists X', fst r = CProd X' /\ hypers_moved os X X').
Proof.
  intros os. induction cols as [|[o g] cols IH]; intros X C H; cbn [hypers_each].
  { exists X. split; [reflexivity|apply hypers_moved_refl]. }
  destruct g as [gs|e]; cbn [obind]; [|exists X; split; [reflexivity|apply hypers_moved_refl]].
  destruct (get_cgpms_by_output_index (CProd X) o) as [ds|e] eqn:E; cbn [obind]; [|exists X; split; [reflexivity|apply hypers_moved_refl]].
  apply always_bind. eapply always_imp; [|apply transition_hypers_adjusted]. intros r A.
  destruct (put_moved os X o ds (fst r) C (H (o, Ok gs) (or_introl eq_refl)) E A) as (W & -> & CW & HW & _). destruct (snd r); [|exists W; auto].
  eapply always_imp; [|apply (IH W CW); intros p Hp; apply H; now right]. intros q (V & E2 & HV). exists V. split; [exact E2|]. eapply hypers_moved_trans; eauto.
Qed.

Lemma hypers_distributions_local : forall X g outs, crosscat X ->
  always (transition_hypers_distributions g (CProd X) outs) (fun r => exists X', fst r = CProd X' /\ hypers_moved (outputs_or (CProd X) outs) X X').
Proof.
  intros X g outs C. unfold transition_hypers_distributions. destruct (oseq _); [|exists X; split; [reflexivity|apply hypers_moved_refl]].
  apply any_order_always. intros os P. apply hypers_each_local; [exact C|]. intros p Hp. apply in_map_iff in Hp. destruct Hp as (o & <- & Ho).
  apply (Permutation_in o (Permutation_sym P)) in Ho. apply nodup_In in Ho. exact Ho.
Qed.

Lemma hypers_row_divide_local : forall X g outs, crosscat X -> columns_given X outs ->
  always (transition_hypers_row_divide g (CProd X) outs) (fun r => exists X', fst r = CProd X' /\
    forall os, (forall m, In m X -> chosen outs m -> In (label_of m) os) -> hypers_moved os X X').
Proof.
  intros X g outs C HO. unfold transition_hypers_row_divide. destruct (view_indexes_ok X outs C HO) as (is & EI & NI & HI). rewrite EI. cbn [obind views_of].
  assert (CH := view_indexes_chosen X outs is C HO EI).
  destruct (oseq (map (fun i => do v <- item X i; first_output v) is)) as [labels|e] eqn:EL; cbn [obind]; [|exists X; split; [reflexivity|intros; apply hypers_moved_refl]].
  assert (HL : forall o, In o labels -> exists m, In m X /\ chosen outs m /\ o = label_of m).
  { intros o Ho. destruct (oseq_map_In _ is labels o EL Ho) as (i & Hi & Ei). destruct (HI i Hi) as (m & N & Hm). unfold item in Ei. rewrite N in Ei. cbn [obind] in Ei.
    unfold first_output in Ei. rewrite (sheet_outputs m) in Ei by apply (crosscat_views X m C Hm). injection Ei as <-. exists m. split; [exact Hm|]. split; [|reflexivity].
    apply (CH i m N). exact Hi. }
  destruct (oseq (map (get_cgpms_by_output_index (CProd X)) labels)); cbn [obind]; [|exists X; split; [reflexivity|intros; apply hypers_moved_refl]]. apply any_order_always. intros ls P.
  eapply always_imp; [|apply (hypers_each_local labels _ X C)].
  - intros r (X' & E & (H1 & H2 & H3)). exists X'. split; [exact E|]. intros os HO'. split; [exact H1|]. split; [|exact H3]. intros o No. apply H2. intros Hl.
    destruct (HL o Hl) as (m & Hm & Cm & ->). apply No. now apply HO'.
  - intros p Hp. apply in_map_iff in Hp. destruct Hp as (o & <- & Ho). apply (Permutation_in o (Permutation_sym P)) in Ho. exact Ho.
Qed.

(** ** The sampler *)

Lemma sheet_validated : forall X, crosscat X -> validate_crosscat (CProd X) = Ok tt.
Proof.
  intros X C. cbn [validate_crosscat]. unfold oassert. rewrite (proj2 (forallb_forall _ _)); [reflexivity|]. intros m Hm. destruct (crosscat_views X m C Hm) as (_ & S & _).
  destruct S as [s bs cs r2i r2c _ _ _]. apply forallb_forall. intros c Hc. apply in_map_iff in Hc. destruct Hc as (d & <- & _). reflexivity.
Qed.

Lemma new_sampler_ok : forall f b X, spaced f -> crosscat X -> X <> [] -> no_normal_uc X ->
  exists g, new_sampler f b (CProd X) = Ok g /\ constrained g = b /\ grids_for X (grids_columns g) (grids_dividers g).
Proof.
  intros f b X SP C NE NU. unfold new_sampler. rewrite sheet_validated by exact C. cbn [obind views_of].
  assert (EX : exists m X0, X = m :: X0) by (destruct X; [congruence|eauto]). destruct EX as (m & X0 & EX). assert (Hm : In m X) by (rewrite EX; now left).
  assert (S := proj1 (proj2 (crosscat_views X m C Hm))). destruct S as [s bs cs r2i r2c NB HB HC].
  destruct (own_grids f (DCrp s) (flat_map (fun p : Z * val => match snd p with VQ q => [q] | VNan => [] end) (dist_data (DCrp s)) ++ []) 30 SP ltac:(lia) ltac:(discriminate)) as (GD & _).
  unfold transition_hyper_grids at 1. cbn [first_of forallb same_class andb oassert obind flat_map].
  set (gd := construct_hyper_grids f (DCrp s) _ 30) in *.
  set (one := fun o => do ds <- get_cgpms_by_output_index (CProd X) o; do g <- transition_hyper_grids f ds 30; Ok (o, g)).
  assert (ONE : forall o, In o (flat_map columns_of X) -> exists gs, one o = Ok (o, gs) /\ forall d, typed X o (kind_of d) -> good_grids d gs).
  { intros o Ho. destruct (column_tunable X o C NU Ho) as (ds & d0 & E & T & Ty). unfold one. rewrite E. cbn [obind].
    destruct (C41_own_grids f (CProd X) o ds d0 30 SP ltac:(lia) (crosscat_grown X C) E T) as (gs & -> & GG & _). cbn [obind]. exists gs. split; [reflexivity|].
    intros d Hd. apply (kind_names d0 d gs); [|exact GG]. destruct Ty as (m1 & Hm1 & K1). destruct Hd as (m2 & Hm2 & K2).
    assert (m1 = m2); [|subst; congruence].
    assert (O1 := kind_at_column m1 o _ (crosscat_views X m1 C Hm1) K1). assert (O2 := kind_at_column m2 o _ (crosscat_views X m2 C Hm2) K2).
    destruct (in_split _ _ Hm1) as (l & r & ER). rewrite ER in Hm2. apply in_app_or in Hm2.
    assert (Z : ~ In m2 (l ++ r)).
    { intros Y. apply (one_view l m1 r m2 o); [rewrite <- ER; exact C|apply column_output; [apply (crosscat_views X m1 C Hm1)|exact O1]|exact Y|].
      apply column_output; [|exact O2]. apply (crosscat_views X m2 C). rewrite ER. apply in_app_or in Y. apply in_or_app. cbn. tauto. }
    destruct Hm2 as [Y|[Y|Y]]; [exfalso; apply Z; apply in_or_app; now left|exact Y|exfalso; apply Z; apply in_or_app; now right]. }
  rewrite distribution_outputs by exact C.
  destruct (oseq_ok one (flat_map columns_of X)) as (cols & EC & F); [intros o Ho; destruct (ONE o Ho) as (gs & E & _); eauto|]. rewrite EC. cbn [obind].
  exists (mkSampler b cols gd). split; [rewrite EX; reflexivity|]. split; [reflexivity|]. cbn [grids_columns grids_dividers]. split.
  - intros v d Ty. assert (Hv : In v (flat_map columns_of X)).
    { destruct Ty as (m1 & Hm1 & K1). apply in_flat_map. exists m1. split; [exact Hm1|]. exact (kind_at_column m1 v _ (crosscat_views X m1 C Hm1) K1). }
    clear EC. induction F as [|o p l l' E F IH]; [destruct Hv|].
    destruct (ONE o (or_introl eq_refl)) as (gs & E1 & G1). rewrite E in E1. injection E1 as ->. cbn [lookup]. destruct (eq_dec v o) as [->|N].
    + exists gs. split; [reflexivity|]. apply G1. exact Ty.
    + apply IH; [|destruct Hv as [Y|Y]; [symmetry in Y; contradiction|exact Y]]. intros o' Ho'. apply ONE. now right.
  - intros s'. apply (kind_names (DCrp s)); [reflexivity|exact GD].
Qed.
