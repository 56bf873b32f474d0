(** Repeated column moves, and the trace a proposal leaves when rows are not aligned. *)
From Coq Require Import List ZArith QArith Qcanon Reals Bool String Permutation Lia.
From Verif Require Import Base Xr Samp Lgamma Prims Cgpm Lib SpecPrims PrimsInv SpecComp CompInv CompDens CompThm SimTotal
  SpecTable Table Walks SpecWalks WalksThm Trans Views SpecViews ViewsThm ViewsThm2 ViewsThm3 ViewsThm4.
From Verif Require Import SpecViews.
Import ListNotations.
Local Open Scope Z_scope.

Lemma reassigned_regrouped : forall outs X X', reassigned outs X X' -> regrouped outs X X'.
Proof. intros outs X X' (A & B & C & D & _ & E & F). repeat (split; [assumption|]). assumption. Qed.

Lemma regrouped_refl : forall outs X, crosscat X -> regrouped outs X X.
Proof.
  intros outs X C. split; [exact C|]. split; [apply Permutation_refl|]. do 3 (split; [reflexivity|]). intros m v H1 H2 _. exists m. auto.
Qed.

Lemma regrouped_trans : forall outs outs' X X' X'', incl outs' outs -> regrouped outs' X X' -> regrouped outs X' X'' -> regrouped outs X X''.
Proof.
  intros outs outs' X X' X'' I0 (A & B & C & D & E & F) (A' & B' & C' & D' & E' & F'). split; [exact A'|].
  split; [etransitivity; eassumption|]. split; [intros; rewrite C'; apply C|]. split; [intros; rewrite D'; apply D|].
  split.
  - intros v w Hv Hw. rewrite E' by assumption. apply E; intros Y; [apply Hv|apply Hw]; apply I0; exact Y.
  - intros m v Hm Hv NV. destruct (F m v Hm Hv) as (m1 & H1 & H2 & H3 & H4); [intros Y; apply NV, I0, Y|].
    destruct (F' m1 v H1 H2 NV) as (m2 & G1 & G2 & G3 & G4). exists m2. split; [exact G1|]. split; [exact G2|].
    split; [congruence|]. intros r. rewrite G4. apply H4.
Qed.

Lemma regrouped_complete : forall outs X X', regrouped outs X X' -> complete X -> complete X'.
Proof.
  intros outs X X' (_ & P & Hh & _) CX r v x w Hx Hw. apply Hh in Hx. apply (Permutation_in _ P) in Hw.
  destruct (CX r v x w Hx Hw) as [y Hy]. exists y. apply Hh. exact Hy.
Qed.

Lemma sheet_column : forall m, sheet m -> exists w, In w (columns_of m).
Proof.
  intros m Sh. destruct (sheet_inv m Sh) as (s & bs & cs & r2i & r2c & -> & NB & _).
  change (columns_of (mkview s bs cs r2i r2c)) with (outputs (CProd (map CDist bs))). rewrite outputs_prod.
  destruct bs as [|b bs]; [congruence|]. exists (dist_o b). now left.
Qed.

Lemma cell_seat : forall m r o x, cell m r o = Some x -> seat m r <> None.
Proof. intros [| | | |flex div arr r2c] r o x; cbn [cell seat]; try discriminate. destruct (lookup r r2c); congruence. Qed.

Lemma complete_aligned : forall X outs, crosscat X -> complete X -> aligned outs X.
Proof.
  intros X outs C CX r v x _ Hx m Hm. assert (G := crosscat_views _ m C Hm). destruct (sheet_column m (proj1 (proj2 G))) as [w Hw].
  destruct (CX r v x w Hx) as (y & m' & Hm' & Ey); [apply in_flat_map; eauto|].
  assert (Hw' : In w (columns_of m')) by (apply (holds_column m' r w y); [apply (crosscat_views _ m' C Hm')|exact Ey]).
  destruct (in_split _ _ Hm) as (l & r0 & E). rewrite E in Hm', C. apply in_app_or in Hm'. cbn [In] in Hm'.
  assert (m' = m) as ->; [|apply (cell_seat m r w y); exact Ey].
  destruct Hm' as [Y|[Y|Y]]; [|auto|]; exfalso; apply (one_view l m r0 m' w C); try (apply column_output; [apply G|exact Hw]);
    try (apply column_output; [|exact Hw']; apply (crosscat_views _ _ C)); apply in_or_app; cbn [In]; auto.
Qed.

Lemma views_columns : forall X, crosscat X -> (List.length X <= List.length (flat_map columns_of X))%nat.
Proof.
  intros X C. assert (V : forall m, In m X -> sheet m) by (intros m Hm; apply (crosscat_views _ m C Hm)). clear C.
  induction X as [|m X IH]; [auto|]. cbn [flat_map List.length]. rewrite app_length.
  destruct (sheet_column m (V m (or_introl eq_refl))) as [w Hw]. assert (1 <= List.length (columns_of m))%nat by (destruct (columns_of m); [destruct Hw|cbn; lia]).
  specialize (IH (fun x Hx => V x (or_intror Hx))). lia.
Qed.

Lemma reassign_each_ok : forall outs X, crosscat X -> complete X -> (Z.of_nat (List.length (flat_map columns_of X)) <= 257)%Z ->
  (forall o, In o outs -> In o (flat_map columns_of X)) ->
  always (reassign_each (CProd X) outs) (fun p => exists X', fst p = CProd X' /\ regrouped outs X X').
Proof.
  induction outs as [|o outs IH]; intros X C CX LX HO; cbn [reassign_each].
  - cbn [always fst]. exists X. split; [reflexivity|]. apply regrouped_refl. exact C.
  - destruct (proj1 (in_flat_map _ _ _) (HO o (or_introl eq_refl))) as (m & Hm & Hom).
    destruct (in_split _ _ Hm) as (l & r & ->). apply always_bind.
    assert (T := transition_main (fun _ => True) [o] l m r 1 C). cbv zeta in T.
    assert (LL := views_columns _ C). rewrite app_length in LL. cbn [List.length] in LL.
    assert (T' : given (fun _ => True) (transition_cgpm_view_assigments (CProd (l ++ m :: r)) [o] 1) (fun p =>
      fst p = CProd (l ++ m :: r) /\ (forall c, snd p = Ok c -> exists X', c = CProd X' /\ reassigned [o] (l ++ m :: r) X'))).
    { assert (T1 := T). specialize (T1 ltac:(discriminate)). specialize (T1 ltac:(repeat constructor; intros [])).
      specialize (T1 ltac:(intros o' [<-|[]]; exact Hom)). specialize (T1 (complete_aligned _ _ C CX)). specialize (T1 ltac:(lia)).
      revert T1. apply given_imp. intros p (A1 & A2 & _). split; [exact A1|]. intros c Ec. destruct (A2 c Ec) as (X' & B1 & B2 & _). eauto. }
    clear T. apply always_given in T'. revert T'. apply always_imp. intros [c res] [E1 E2]. cbn [fst snd] in *. destruct res as [c'|e].
    + destruct (E2 c' eq_refl) as (X1 & -> & RG). apply reassigned_regrouped in RG. assert (RG0 := RG). destruct RG0 as (C1 & P1 & _).
      assert (A := IH X1 C1 (regrouped_complete _ _ _ RG CX)).
      rewrite (Permutation_length P1) in A. specialize (A LX).
      assert (HO1 : forall o', In o' outs -> In o' (flat_map columns_of X1)) by (intros o' Ho'; apply (Permutation_in _ (Permutation_sym P1)), HO; now right).
      specialize (A HO1). revert A. apply always_imp. intros p (X2 & E & RG2). exists X2. split; [exact E|].
      apply (regrouped_trans (o :: outs) [o] _ X1 _); [intros x [<-|[]]; now left|exact RG|].
      destruct RG2 as (Q1 & Q2 & Q3 & Q4 & Q5 & Q6). repeat (split; [assumption|]). split.
      * intros v w Hv Hw. apply Q5; intros Y; [apply Hv|apply Hw]; now right.
      * intros m0 v Hm0 Hv NV. apply (Q6 m0 v Hm0 Hv). intros Y. apply NV. now right.
    + cbn [always fst]. exists (l ++ m :: r). split; [exact E1|]. apply regrouped_refl. exact C.
Qed.

Lemma distribution_outputs : forall X, crosscat X -> get_distribution_outputs (CProd X) = flat_map columns_of X.
Proof.
  intros X C. unfold get_distribution_outputs. cbn [views_of]. assert (V : forall m, In m X -> sheet m) by (intros m Hm; apply (crosscat_views _ m C Hm)). clear C.
  induction X as [|m X IH]; [reflexivity|]. cbn [flat_map]. rewrite (sheet_outputs m) at 1 by (apply V; now left). cbn [tl]. rewrite IH; auto.
  intros; apply V; now right.
Qed.

(** A row of the moved columns that the view does not have is seated in the view by the
    mere proposal. *)
Lemma existing_leak : forall D T v datasets r o x, good v -> new_columns D v -> suits D T -> List.concat datasets = entries T ->
  In (r, o, x) T -> always (proposal_existing_one v D datasets) (fun p => seat (fst p) r <> None).
Proof.
  intros D T v datasets r o x G ND S E Ht. destruct (add_all_ok D v G ND) as (p & Ep & Wp). assert (F := suits_fit D T v p Wp S).
  unfold proposal_existing_one. rewrite Ep, E. apply always_bind. assert (Gp : good p) by apply Wp.
  assert (A := rows_fill T p Gp F (proj2 S)). revert A. apply always_imp. intros [q res] [_ (Gq & _ & F1 & _)]. cbn [fst snd] in *. cbn [always fst].
  assert (SQ := cell_seat q r o x (F1 _ _ _ Ht)).
  destruct (sheet_inv v (proj1 (proj2 G))) as (s & bs & cs & r2i & r2c & -> & _).
  destruct (sheet_inv q (proj1 (proj2 Gq))) as (s' & bs' & cs' & r2i' & r2c' & -> & _). exact SQ.
Qed.
