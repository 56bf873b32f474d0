(** Proofs about the deterministic operations on a whole CrossCat model. *)
From Coq Require Import List ZArith QArith Qcanon Reals Bool String Permutation Lia.
From Verif Require Import Base Xr Samp Lgamma Prims Cgpm Lib SpecPrims PrimsInv SpecComp CompInv CompDens CompThm SimShape
  SpecTable SpecHist Table Gibbs Hist PropTable Walks SpecWalks WalksThm Trans Views ViewsThm ViewsThm2 ViewsThm3 ViewsThm4 ViewsThm5
  Hypers SpecHypers HypersThm Progress SpecProgress Crosscat HypersThm2 PropHypers CrosscatThm CrosscatThm2.
From Verif Require Import SpecViews SpecCrosscat.
Import ListNotations.
Local Open Scope Z_scope.

Lemma moved_cells : forall m m' r0, good m -> sheet m' -> wf m' -> same_columns m m' -> others_same r0 m m' ->
  (forall o, In o (columns_of m) -> cell m' r0 o = cell m r0 o) -> same_cells m m'.
Proof.
  intros m m' r0 (G1 & G2 & G3) S W (C1 & C2 & C3) OS H. split; [rewrite (sheet_outputs _ S), (sheet_outputs m G2); now rewrite C1, C2|].
  split; [exact C2|]. split; [exact C3|]. intros r o. destruct (Z.eq_dec r r0) as [->|N]; [|apply (OS r N)].
  destruct (in_dec Z.eq_dec o (columns_of m)) as [Ho|Ho]; [auto|]. rewrite (cell_outside m r0 o (grown_wf m G1) G2 Ho). apply cell_outside; [exact W|exact S|]. now rewrite C2.
Qed.

Definition one_joined (r0 : Z) (r1 : option Z) (m m' : cgpm) : Prop :=
  good m' /\ same_cells m m' /\ (forall r, r <> r0 -> seat m' r = seat m r) /\
  match r1 with
  | Some r => seat m' r0 = seat m r
  | None => exists k, seat m' r0 = Some k /\ forall r, seat m' r = Some k -> r = r0
  end.

Lemma join_one : forall m r0 r1, good m -> seat m r0 <> None -> (forall r, r1 = Some r -> seat m r <> None /\ r <> r0) ->
  exists m', set_rowid_component m r0 r1 = Ret (m', Ok tt) /\ one_joined r0 r1 m m'.
Proof.
  intros m r0 [r1|] (G1 & G2 & G3) L0 L1.
  - destruct (L1 r1 eq_refl) as [L1' N]. destruct (C38_joins m r0 r1 G1 G2 G3 L0 L1' ltac:(congruence)) as (m' & E & A1 & A2 & A3 & A4 & A5 & A6 & _ & A8).
    exists m'. split; [exact E|]. split; [split; auto|]. split; [apply (moved_cells m m' r0); auto; [split; auto|apply grown_wf; exact A1]|].
    split; [intros r Nr; apply (A5 r Nr)|exact A6].
  - destruct (C38_alone m r0 G1 G2 G3 L0) as (m' & k & E & A1 & A2 & A3 & A4 & A5 & A6 & A7 & A8).
    exists m'. split; [exact E|]. split; [split; auto|]. split; [apply (moved_cells m m' r0); auto; [split; auto|apply grown_wf; exact A1]|].
    split; [intros r Nr; apply (A5 r Nr)|exists k; auto].
Qed.

Lemma views_reseat_local : forall is Y r0 r1, crosscat Y -> NoDup is -> (forall i, In i is -> exists m, nth_error Y i = Some m) ->
  (forall i m, In i is -> nth_error Y i = Some m -> seat m r0 <> None /\ forall r, r1 = Some r -> seat m r <> None /\ r <> r0) ->
  exists Y', views_reseat (CProd Y) is r0 r1 = Ret (CProd Y', Ok tt) /\ crosscat Y' /\ List.length Y' = List.length Y /\
    forall i m m', nth_error Y i = Some m -> nth_error Y' i = Some m' -> (~ In i is -> m' = m) /\ (In i is -> one_joined r0 r1 m m').
Proof.
  induction is as [|i is IH]; intros Y r0 r1 C ND HI HS; cbn [views_reseat].
  { exists Y. split; [reflexivity|]. split; [exact C|]. split; [reflexivity|]. intros i m m' E E'. split; [congruence|intros []]. }
  cbn [views_of]. destruct (HI i (or_introl eq_refl)) as (v & N). unfold item. rewrite N.
  assert (Hv : In v Y) by (eapply nth_error_In; eauto). assert (Gv := crosscat_views Y v C Hv). destruct (HS i v (or_introl eq_refl) N) as [S0 S1].
  destruct (join_one v r0 r1 Gv S0 S1) as (v' & E & J). rewrite E. cbn [sbind fst snd]. inversion ND as [|i0 is0 NI ND']; subst i0 is0.
  assert (EI : item Y i = Ok v) by (unfold item; rewrite N; reflexivity). destruct (item_Ok Y i v EI) as (a & b & EY & _ & ES).
  assert (Hi : (i < List.length Y)%nat) by (apply nth_error_Some; congruence).
  assert (SD : same_data Y (set_nth i v' Y)).
  { apply replaced; [exact C|]. rewrite ES. rewrite EY at 1. destruct J as (J1 & J2 & _). apply Forall2_app; [|constructor; [split; assumption|]];
    apply F2_same; intros y Hy; (split; [|apply same_cells_refl]); apply C; rewrite EY; apply in_or_app; cbn; tauto. }
  assert (OT : forall j, In j is -> nth_error (set_nth i v' Y) j = nth_error Y j) by (intros j Hj; apply nth_set_other; intros ->; contradiction).
  destruct (IH (set_nth i v' Y) r0 r1 (proj1 SD) ND') as (Y' & E1 & CY & LY & E3).
  - intros j Hj. rewrite OT by exact Hj. apply HI. now right.
  - intros j m Hj. rewrite OT by exact Hj. apply HS. now right.
  - exists Y'. split; [exact E1|]. split; [exact CY|]. rewrite set_nth_length in LY. split; [exact LY|]. intros j m m' Ej Ej'.
    destruct (Nat.eq_dec j i) as [->|Nj].
    + rewrite N in Ej. injection Ej as <-. destruct (E3 i v' m') as [F1 _]; [apply nth_set_same; exact Hi|exact Ej'|].
      split; [intros X1; exfalso; apply X1; now left|]. intros _. rewrite (F1 NI). exact J.
    + destruct (E3 j m m') as [F1 F2]; [rewrite nth_set_other by (intros X1; apply Nj; now symmetry); exact Ej|exact Ej'|].
      split; [intros X1; apply F1; intros X2; apply X1; now right|]. intros [X1|X1]; [congruence|auto].
Qed.

Lemma reseat_all : forall X outs r0 r1, crosscat X -> columns_given X outs ->
  (forall m, In m X -> chosen outs m -> seat m r0 <> None /\ forall r, r1 = Some r -> seat m r <> None /\ r <> r0) ->
  always (set_rowid_component_all (CProd X) outs r0 r1) (fun p => snd p = Ok tt /\ exists X', fst p = CProd X' /\ crosscat X' /\ Forall2 (row_joined outs r0 r1) X X').
Proof.
  intros X outs r0 r1 C HO HS. unfold set_rowid_component_all. destruct (view_indexes_ok X outs C HO) as (is & E & ND & HI). rewrite E.
  assert (CH := view_indexes_chosen X outs is C HO E). apply any_order_always. intros is' P.
  assert (PI' : forall i, In i is' <-> In i is) by (intros i; split; apply Permutation_in; [apply Permutation_sym|]; exact P).
  destruct (views_reseat_local is' X r0 r1 C (Permutation_NoDup P ND)) as (Y & E1 & CY & LY & E3).
  - intros i Hi. apply PI' in Hi. destruct (HI i Hi) as (m & N & _). eauto.
  - intros i m Hi N. apply PI' in Hi. apply HS; [eapply nth_error_In; eauto|]. apply (CH i m N). exact Hi.
  - rewrite E1. cbn [always fst snd]. split; [reflexivity|]. exists Y. split; [reflexivity|]. split; [exact CY|]. apply F2_nth; [now symmetry|].
    intros i m m' Em Em'. destruct (E3 i m m' Em Em') as [F1 F2].
    destruct (in_dec Nat.eq_dec i is') as [Hi|Hi].
    + destruct (F2 Hi) as (_ & J2 & J3 & J4). split; [exact J2|]. split; [intros NC; exfalso; apply NC; apply (CH i m Em); apply PI'; exact Hi|]. split; [exact J3|].
      intros _. exact J4.
    + rewrite (F1 Hi). split; [apply same_cells_refl|]. split; [reflexivity|]. split; [reflexivity|]. intros Y1. exfalso. apply Hi. apply PI'. apply (CH i m Em). exact Y1.
Qed.

Lemma set_hypers_adjusted : forall ds h, Forall2 adjusted ds (fst (set_hypers ds h)).
Proof.
  intros ds h. assert (U := proj1 (update_all_adjusted h ds)). unfold set_hypers. destruct ds as [|d ds]; [exact U|].
  destruct (first_of (d :: ds)); [exact U|apply adjusted_all].
Qed.

Lemma set_hypers_local : forall X o h, crosscat X -> exists X', fst (set_hypers_distribution (CProd X) o h) = CProd X' /\ crosscat X' /\ hypers_moved [o] X X' /\
  (forall ds, get_cgpms_by_output_index (CProd X) o = Ok ds ->
     get_cgpms_by_output_index (CProd X') o = Ok (fst (set_hypers ds h)) /\ snd (set_hypers_distribution (CProd X) o h) = snd (set_hypers ds h)).
Proof.
  intros X o h C. unfold set_hypers_distribution. destruct (get_cgpms_by_output_index (CProd X) o) as [ds|e] eqn:E.
  - assert (A := set_hypers_adjusted ds h). destruct (set_hypers ds h) as [ds' r] eqn:ES. cbn [fst] in A.
    destruct (put_moved [o] X o ds ds' C (or_introl eq_refl) E A) as (W & E1 & CW & HW & GW). cbn [fst snd]. exists W. split; [exact E1|]. split; [exact CW|]. split; [exact HW|].
    intros ds0 [= <-]. rewrite ES. auto.
  - exists X. cbn [fst]. split; [reflexivity|]. split; [exact C|]. split; [apply hypers_moved_refl|]. discriminate.
Qed.
