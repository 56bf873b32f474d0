(** Proofs about inference on a whole CrossCat model: arguments of transition reach the kernels. *)
From Coq Require Import List ZArith QArith Qcanon Reals Bool String Permutation Lia.
From Verif Require Import Base Xr Samp Lgamma Prims Cgpm Lib SpecPrims PrimsInv SpecComp CompInv CompDens CompThm SimShape
  SpecTable SpecHist Table Gibbs Hist Walks SpecWalks WalksThm Trans Views ViewsThm ViewsThm2 ViewsThm3 ViewsThm4 ViewsThm5
  Hypers SpecHypers HypersThm Progress SpecProgress Crosscat HypersThm2 PropHypers CrosscatThm CrosscatThm2 CrosscatThm3.
From Verif Require Import SpecViews SpecCrosscat.
Import ListNotations.
Local Open Scope Z_scope.

(** A kernel that keeps the data and a relation, run for any time. *)
Lemma transition_one : forall (Q : list cgpm -> Prop) X fuel clock g N T name outs rowids, crosscat X -> Q X ->
  (forall k Y, kernel_lookup g outs rowids name = Ok k -> same_data X Y -> Q Y ->
     always (k (CProd Y)) (fun r => exists W, fst r = CProd W /\ same_data X W /\ Q W)) ->
  forall names, (forall nm, In nm names -> nm = name) ->
  always (transition fuel clock g (CProd X) N T (Some names) outs rowids) (fun r => exists W, fst r = CProd W /\ same_data X W /\ Q W).
Proof.
  intros Q X fuel clock g N T name outs rowids C Q0 K names HN. assert (B : exists W, CProd X = CProd W /\ same_data X W /\ Q W) by (exists X; split; [reflexivity|]; split; [apply same_data_refl; exact C|exact Q0]).
  unfold transition, run_kernels. destruct (oseq _) as [ks|e] eqn:E; [|exact B].
  apply (generic_keeps (fun s => exists W, s = CProd W /\ same_data X W /\ Q W)); [|exact B].
  intros k s Hk (Y & -> & SD & QY). destruct (oseq_map_In _ names ks k E Hk) as (nm & Hn & En). rewrite (HN nm Hn) in En. apply K; assumption.
Qed.

Lemma chosen_same : forall outs m m', same_cells m m' -> (chosen outs m' <-> chosen outs m).
Proof. intros outs m m' (_ & E & _). unfold chosen. destruct outs as [[|o l]|]; [tauto| |tauto]. rewrite E. tauto. Qed.

Lemma rows_moved_trans : forall outs rowids a b c, rows_moved outs rowids a b -> rows_moved outs rowids b c -> rows_moved outs rowids a c.
Proof.
  intros outs rowids a b c (S1 & N1 & P1 & D1) (S2 & N2 & P2 & D2). split; [eapply same_cells_trans; eauto|]. split; [|split].
  - intros NC. rewrite N2, N1; auto. rewrite (chosen_same outs a b S1). exact NC.
  - intros r NP. rewrite P2, P1; auto.
  - intros r. rewrite D2. apply D1.
Qed.

Lemma rows_moved_refl : forall outs rowids m, rows_moved outs rowids m m.
Proof. intros. split; [apply same_cells_refl|]. split; [reflexivity|]. split; [reflexivity|tauto]. Qed.

Lemma transition_rows_local : forall X fuel clock g N T outs rowids names, crosscat X -> no_gaps X -> columns_given X outs ->
  (forall nm, In nm names -> nm = "row_assignments"%string) ->
  always (transition fuel clock g (CProd X) N T (Some names) outs rowids) (fun r => exists X', fst r = CProd X' /\ same_data X X' /\ Forall2 (rows_moved outs rowids) X X').
Proof.
  intros X fuel clock g N T outs rowids names C NG HO HN. apply (transition_one (Forall2 (rows_moved outs rowids) X) X) with (name := "row_assignments"%string); auto.
  - apply F2_same. intros. apply rows_moved_refl.
  - intros k Y E SD QY. unfold kernel_lookup in E. cbn in E. injection E as <-.
    assert (CY := proj1 SD). eapply always_imp; [|apply always_and; [apply (row_assignments_keeps X (CProd Y) outs rowids NG); exists Y; auto|apply (row_assignments_local Y outs rowids CY (same_data_gaps X Y SD NG) (same_data_given X Y outs SD HO))]].
    intros r ((W & E1 & SW) & _ & V & E2 & M). rewrite E1 in E2. injection E2 as <-. exists W. split; [exact E1|]. split; [exact SW|]. eapply F2_trans; [apply rows_moved_trans|exact QY|exact M].
Qed.

Definition columns_or (X : list cgpm) (outs : option (list Z)) : list Z := match outs with None | Some [] => flat_map columns_of X | Some l => l end.

Lemma hypers_moved_more : forall os os' X X', (forall o, In o os -> In o os') -> hypers_moved os X X' -> hypers_moved os' X X'.
Proof. intros os os' X X' L (A & B & D). split; [exact A|]. split; [|exact D]. intros o NO. apply B. intros Ho. apply NO. apply L. exact Ho. Qed.

Lemma transition_columns_local : forall X fuel clock g N T outs rowids names, crosscat X ->
  (forall nm, In nm names -> nm = "hypers_distributions"%string) ->
  always (transition fuel clock g (CProd X) N T (Some names) outs rowids) (fun r => exists X', fst r = CProd X' /\ same_data X X' /\ hypers_moved (columns_or X outs) X X').
Proof.
  intros X fuel clock g N T outs rowids names C HN. apply (transition_one (hypers_moved (columns_or X outs) X) X) with (name := "hypers_distributions"%string); auto using hypers_moved_refl.
  intros k Y E SD QY. unfold kernel_lookup in E. cbn in E. injection E as <-. assert (CY := proj1 SD).
  eapply always_imp; [|apply always_and; [apply (hypers_distributions_keeps X g (CProd Y) outs); exists Y; auto|apply (hypers_distributions_local Y g outs CY)]].
  intros r ((W & E1 & SW) & V & E2 & M). rewrite E1 in E2. injection E2 as <-. exists W. split; [exact E1|]. split; [exact SW|]. eapply hypers_moved_trans; [exact QY|].
  eapply hypers_moved_more; [|exact M]. intros o. unfold outputs_or, columns_or. destruct outs as [[|a l]|]; [|auto|]; rewrite distribution_outputs by exact CY; apply (same_data_columns X Y o SD).
Qed.

Lemma label_head : forall m, sheet m -> hd 0 (outputs m) = label_of m.
Proof. intros m [s bs cs r2i r2c NB _ _]. reflexivity. Qed.

Lemma transition_dividers_local : forall X fuel clock g N T outs rowids names, crosscat X -> columns_given X outs ->
  (forall nm, In nm names -> nm = "hypers_row_divide"%string) ->
  always (transition fuel clock g (CProd X) N T (Some names) outs rowids) (fun r => exists X', fst r = CProd X' /\ same_data X X' /\
    forall os, (forall m, In m X -> chosen outs m -> In (label_of m) os) -> hypers_moved os X X').
Proof.
  intros X fuel clock g N T outs rowids names C HO HN.
  apply (transition_one (fun X' => forall os, (forall m, In m X -> chosen outs m -> In (label_of m) os) -> hypers_moved os X X') X) with (name := "hypers_row_divide"%string); auto using hypers_moved_refl.
  intros k Y E SD QY. unfold kernel_lookup in E. cbn in E. injection E as <-. assert (CY := proj1 SD).
  eapply always_imp; [|apply always_and; [apply (hypers_row_divide_keeps X g (CProd Y) outs); exists Y; auto|apply (hypers_row_divide_local Y g outs CY (same_data_given X Y outs SD HO))]].
  intros r ((W & E1 & SW) & V & E2 & M). rewrite E1 in E2. injection E2 as <-. exists W. split; [exact E1|]. split; [exact SW|].
  intros os L. assert (XY := QY os L). eapply hypers_moved_trans; [exact XY|]. apply M. intros m' Hm' Ch.
  destruct XY as (F & _). clear - F Hm' Ch L C CY.
  assert (Z : exists m, In m X /\ same_cells m m'). { clear - F Hm'. induction F as [|a b X Y (S & _) F IH]; [destruct Hm'|]. destruct Hm' as [<-|Hm']; [exists a; cbn; auto|]. destruct (IH Hm') as (m & Hm & Sm). exists m. cbn. auto. }
  destruct Z as (m & Hm & S). assert (LM : label_of m' = label_of m).
  { rewrite <- (label_head m'), <- (label_head m) by (first [apply (crosscat_views Y m' CY Hm')|apply (crosscat_views X m C Hm)]). destruct S as (-> & _). reflexivity. }
  rewrite LM. apply L; [exact Hm|]. apply (chosen_same outs m m' S). exact Ch.
Qed.
