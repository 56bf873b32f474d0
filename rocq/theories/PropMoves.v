(** C67: the law of a move of columns between views. *)
From Coq Require Import List ZArith QArith Qcanon Reals Bool String Permutation Lia Lra.
From Verif Require Import Base Xr Samp Lgamma Prims Cgpm Lib SpecPrims PrimsInv SpecComp CompInv CompDens CompThm PropPrims DemoComp
  SpecTable SpecHist Table PropTable Walks SpecWalks WalksThm Trans Views ViewsThm ViewsThm2 ViewsThm3 ViewsThm4 ViewsThm5 PropViews.
From Verif Require Import SpecViews SpecMoves ViewsLaw ViewsLaw2 ViewsLaw3.
Import ListNotations.
Local Open Scope Z_scope.

Lemma column_view : forall X a b v, crosscat X -> In a X -> In b X -> In v (columns_of a) -> In v (columns_of b) -> a = b.
Proof.
  intros X a b v C Ha Hb Va Vb. destruct (in_split _ _ Ha) as (l & r & ->). apply in_app_or in Hb. cbn [In] in Hb.
  assert (Ga := crosscat_views _ a C Ha).
  assert (N : In b (l ++ r) -> False).
  { intros Hb'. apply (one_view l a r b v C); [apply column_output; [apply Ga|exact Va]|exact Hb'|].
    apply column_output; [apply (crosscat_views _ b C)|exact Vb]. apply in_or_app. cbn [In]. apply in_app_or in Hb'. tauto. }
  destruct Hb as [Hb|[Hb|Hb]]; [|exact Hb|]; exfalso; apply N; apply in_or_app; auto.
Qed.

Lemma view_place : forall X i j a b v, crosscat X -> nth_error X i = Some a -> nth_error X j = Some b ->
  In v (columns_of a) -> In v (columns_of b) -> i = j.
Proof.
  intros X i j a b v C Ea Eb Va Vb. assert (a = b) as <- by (eapply column_view; eauto using nth_error_In).
  destruct C as [G ND]. assert (Oa : In v (outputs a)) by (apply column_output; [apply G; eauto using nth_error_In|exact Va]). clear G Va Vb.
  revert i j Ea Eb. induction X as [|x X IH]; intros [|i] [|j] Ea Eb; try discriminate; [reflexivity| | |f_equal].
  - cbn in *. injection Ea as ->. exfalso. apply (NoDup_app_disj _ _ ND v Oa). apply in_flat_map. eauto using nth_error_In.
  - cbn in *. injection Eb as ->. exfalso. apply (NoDup_app_disj _ _ ND v Oa). apply in_flat_map. eauto using nth_error_In.
  - cbn in ND. apply NoDup_app_parts in ND. apply IH; tauto.
Qed.

Lemma rsum_pick : forall (f : nat -> R) n i, (i < n)%nat -> (forall j, (j < n)%nat -> j <> i -> f j = 0%R) -> rsum (map f (seq 0 n)) = f i.
Proof.
  intros f n i Hi Hf.
  assert (Z : forall l, (forall j, In j l -> f j = 0%R) -> rsum (map f l) = 0%R).
  { induction l as [|a l IH]; intros Hl; [reflexivity|]. change (rsum (map f (a :: l))) with (f a + rsum (map f l))%R.
    rewrite IH by (intros; apply Hl; now right). rewrite (Hl a) by now left. lra. }
  assert (E : seq 0 n = seq 0 i ++ i :: seq (Datatypes.S i) (n - Datatypes.S i)).
  { replace n with (i + Datatypes.S (n - Datatypes.S i))%nat at 1 by lia. rewrite seq_app. reflexivity. }
  rewrite E, rsum_split, Z; [lra|]. intros j Hj. apply in_app_or in Hj. rewrite !in_seq in Hj. apply Hf; lia.
Qed.

(** The columns [outs] of the view [m] are moved by a column transition. There is one
    factor [k] for all columns [v] not moved: the outcome in which the moved columns join
    [v] is one model [X'], the same table with the same other views, and has the probability
    [k] times exp of the score of [X']. The model as it is is among these [X']. *)
Theorem C67_odds : forall X outs m aux, crosscat X -> outs <> [] -> NoDup outs -> In m X -> (forall o, In o outs -> In o (columns_of m)) ->
  aligned outs X -> (List.length X <= 257)%nat -> Z.of_nat (List.length outs) < 2 ^ 32 - 1 ->
  choices (transition_cgpm_view_assigments (CProd X) outs aux) /\
  exists k, (0 < k)%R /\ forall v, In v (flat_map columns_of X) -> ~ In v outs -> exists X' s,
    reassigned outs X X' /\ (forall o, In o outs -> together X' o v) /\ (In v (columns_of m) -> X' = X) /\
    score (CProd X') = Ok (Fin s) /\
    forall f, (forall p, ~ (exists Y o, snd p = Ok (CProd Y) /\ In o outs /\ together Y o v) -> f p = 0%R) ->
      mean (transition_cgpm_view_assigments (CProd X) outs aux) f = (k * exp s * f (CProd X, Ok (CProd X')))%R.
Proof.
  intros X outs m aux C NE ND Hm H AL LX LO. destruct (in_split _ _ Hm) as (l & r & EX). subst X. set (X := l ++ m :: r) in *.
  assert (Ll : (Z.of_nat (List.length l) <= 256)%Z) by (unfold X in LX; rewrite app_length in LX; cbn [List.length] in LX; lia).
  destruct (move_law outs l m r aux C NE ND H AL Ll LO) as (into & s & k & Hk & I0 & HI & CH & Law & _). fold X in HI, Law, CH, I0. split; [exact CH|].
  exists k. split; [exact Hk|]. intros v Hv Nv. apply in_flat_map in Hv. destruct Hv as (w & Hw & Vw).
  destruct (In_nth_error _ _ Hw) as [i Ei]. destruct (HI i w Ei) as (R1 & R2 & R3). exists (into i), (s i).
  split; [exact R1|]. split; [intros o Ho; apply R2; assumption|]. split.
  { intros Vm. assert (Em : nth_error X (List.length l) = Some m) by (unfold X; rewrite nth_error_app2, Nat.sub_diag by lia; reflexivity).
    rewrite (view_place X i _ w m v C Ei Em Vw Vm). exact I0. }
  split; [exact R3|]. intros f Hf. rewrite Law.
  - rewrite (rsum_pick _ _ i); [cbv beta; fold X; ring|apply nth_error_Some; congruence|]. intros j Hj Nj. destruct (nth_error X j) as [x|] eqn:Ej; [|apply nth_error_None in Ej; lia].
    destruct (HI j x Ej) as (J1 & J2 & _). rewrite Hf; [lra|]. intros (Y & o & EY & Ho & To). injection EY as <-.
    destruct (existsb (fun c => negb (memb c outs)) (columns_of x)) eqn:Ex.
    + apply existsb_exists in Ex. destruct Ex as (c & Hc & Nc). apply negb_true_iff, memb_false in Nc.
      destruct To as (a & Ha & Oa & Va). destruct (J2 o c Ho Hc) as (b & Hb & Ob & Cb).
      destruct J1 as (CJ & _ & _ & _ & _ & J6 & _). assert (a = b) as <- by exact (column_view _ a b o CJ Ha Hb Oa Ob).
      destruct (proj1 (J6 v c Nv Nc)) as (y & Hy & Vy & Cy); [exists a; auto|].
      assert (y = x) as -> by (apply (column_view X y x c C Hy); eauto using nth_error_In).
      apply Nj. apply (view_place X j i x w v C Ej Ei Vy Vw).
    + assert (AllIn : forall c, In c (columns_of x) -> In c outs).
      { intros c Hc. apply memb_In. destruct (memb c outs) eqn:E; [reflexivity|]. 
        assert (Y : existsb (fun c => negb (memb c outs)) (columns_of x) = true) by (apply existsb_exists; exists c; rewrite E; auto). congruence. }
      destruct (sheet_column x) as [c Hc]; [apply (crosscat_views X x C); eauto using nth_error_In|].
      assert (Ho' := AllIn c Hc).
      assert (x = m) as -> by (apply (column_view X x m c C); eauto using nth_error_In).
      assert (Em : nth_error X (List.length l) = Some m) by (unfold X; rewrite nth_error_app2, Nat.sub_diag by lia; reflexivity).
      assert (j = List.length l) as -> by (apply (view_place X j _ m m c C Ej Em Hc Hc)). rewrite I0 in To.
      destruct To as (a & Ha & Oa & Va). assert (a = m) as -> by (apply (column_view X a m o C Ha Hm Oa); apply H; exact Ho).
      apply Nv, AllIn. exact Va.
  - intros p Np. apply Hf. intros (Y & o & EY & Ho & To). apply Np. exists Y, o, v. auto.
Qed.
Print Assumptions C67_odds.

(** Without new views, the view is drawn with exactly the probabilities proportional to exp
    of the score. *)
Theorem C67_no_new_view : forall X outs m, crosscat X -> outs <> [] -> NoDup outs -> In m X -> (forall o, In o outs -> In o (columns_of m)) ->
  (exists o, In o (columns_of m) /\ ~ In o outs) ->
  aligned outs X -> (List.length X <= 257)%nat -> Z.of_nat (List.length outs) < 2 ^ 32 - 1 ->
  exists (into : list (list cgpm)) (s : list R), List.length into = List.length X /\ List.length s = List.length X /\ In X into /\
    (forall i w, nth_error X i = Some w -> exists X' si, nth_error into i = Some X' /\ nth_error s i = Some si /\
      reassigned outs X X' /\ (forall o v, In o outs -> In v (columns_of w) -> together X' o v) /\ score (CProd X') = Ok (Fin si)) /\
    forall f, (forall p, ~ joined outs p -> f p = 0%R) ->
      mean (transition_cgpm_view_assigments (CProd X) outs 0) f =
        (rsum (map (fun q => exp (snd q) * f (CProd X, Ok (CProd (fst q)))) (combine into s)) / rsum (map exp s))%R.
Proof.
  intros X outs m C NE ND Hm H HO AL LX LO. destruct (in_split _ _ Hm) as (l & r & EX). subst X. set (X := l ++ m :: r) in *.
  assert (LX' : (List.length l < List.length X)%nat) by (unfold X; rewrite app_length; cbn [List.length]; lia).
  assert (Ll : (Z.of_nat (List.length l) <= 256)%Z) by lia.
  destruct (move_law outs l m r 0 C NE ND H AL Ll LO) as (into & s & k & Hk & I0 & HI & _ & Law & One). specialize (One eq_refl HO). fold X in HI, Law, One, I0.
  exists (map into (seq 0 (List.length X))), (map s (seq 0 (List.length X))).
  split; [rewrite map_length, seq_length; reflexivity|]. split; [rewrite map_length, seq_length; reflexivity|].
  split; [apply in_map_iff; exists (List.length l); split; [exact I0|apply in_seq; lia]|]. split.
  - intros i w Ei. assert (Li : (i < List.length X)%nat) by (apply nth_error_Some; congruence). destruct (HI i w Ei) as (R1 & R2 & R3).
    exists (into i), (s i). assert (Es : nth_error (seq 0 (List.length X)) i = Some i).
    { rewrite (nth_error_nth' _ 0%nat) by (rewrite seq_length; exact Li). rewrite seq_nth by exact Li. reflexivity. }
    split; [apply map_nth_error; exact Es|]. split; [apply map_nth_error; exact Es|]. auto.
  - intros f Hf. rewrite (Law f Hf).
    assert (EC : forall n, combine (map into n) (map s n) = map (fun i => (into i, s i)) n) by (induction n as [|a n IH]; [reflexivity|cbn [map combine]; rewrite IH; reflexivity]).
    rewrite EC, !map_map. cbn [fst snd]. set (q := rsum (map (fun i => exp (s i)) (seq 0 (List.length X)))) in *.
    assert (SN : q <> 0%R) by (intros E; rewrite E, Rmult_0_r in One; lra).
    assert (Ek : k = (/ q)%R) by (apply (Rmult_eq_reg_r q); [rewrite One, Rinv_l by exact SN; reflexivity|exact SN]).
    rewrite Ek. unfold Rdiv. apply Rmult_comm.
Qed.
Print Assumptions C67_no_new_view.

Example C67_odds_case : crosscat demo_crosscat /\ In left2 demo_crosscat /\ columns_of left2 = [1; 2] /\
  aligned [2] demo_crosscat /\ (List.length demo_crosscat <= 257)%nat /\ In 3 (flat_map columns_of demo_crosscat) /\
  (exists o, In o (columns_of left2) /\ ~ In o [2]).
Proof.
  split; [exact demo_crosscat_ok|]. split; [now left|]. assert (E : columns_of left2 = [1; 2]) by (vm_compute; reflexivity). split; [exact E|].
  split; [exact (demo_aligned [2])|]. split; [cbn; lia|]. split.
  - replace (flat_map columns_of demo_crosscat) with [1; 2; 3] by (vm_compute; reflexivity). right. right. now left.
  - exists 1. rewrite E. split; [now left|]. intros [Y|[]]. discriminate.
Qed.
