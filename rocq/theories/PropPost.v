(** Property C76: row inference leaves the posterior over the partitions of the rows unchanged,
    can reach every partition and converges to the posterior. Statements use the model of the
    API (Cgpm.v, Trans.v, Crosscat.v) and the specification (SpecTable.v, SpecPost.v). *)
From Coq Require Import List ZArith QArith Qcanon Reals Bool String Permutation Lia Lra FunctionalExtensionality.
From Verif Require Import Base Xr Samp Lgamma Prims Cgpm Lib SpecPrims PrimsInv PrimsDens PrimsThm2
  SpecComp CompInv CompDens CompThm PropPrims DemoComp PropComp SpecBook Book
  SpecTable Trans SpecHist Table Gibbs Hist SpecWalks WalksThm PropTable Crosscat SpecSame SameHist PropSame PostThm PostThm2 PostThm3 PostThm4 SpecPost.
Import ListNotations.
Local Open Scope Z_scope.

(** There is a finite list of all the ways to divide the rows of a view into clusters, made of
    views the model can be in. *)
Theorem C76_exists : forall m0, grown m0 -> sheet m0 -> consistent m0 -> uniform m0 m0 -> (forall r, seat m0 r <> None -> observable m0 r) ->
  exists Om, all_partitions m0 Om.
Proof.
  intros m0 G S K U OBS. apply partitions_exist; [exact S| |exact OBS]. split; [exact G|]. split; [exact S|]. split; [exact K|]. split; [exact U|]. split; intros; tauto.
Qed.
Print Assumptions C76_exists.

(** The posterior gives every partition a positive probability and these sum to one. *)
Theorem C76_posterior : forall m0 Om r, sheet m0 -> all_partitions m0 Om -> seat m0 r <> None -> observable m0 r ->
  (forall m, In m Om -> (0 < posterior_of Om m)%R) /\ rsum (map (posterior_of Om) Om) = 1%R.
Proof.
  intros m0 Om r S AP SE OB. assert (M : movable m0 r) by (split; assumption). split; [|exact (average_one m0 Om r S AP M)].
  intros m Hm. apply Rdiv_lt_0_compat; [apply (score_pos m0 m r S (proj1 AP m Hm) M)|apply (total_pos m0 Om r S AP M)].
Qed.
Print Assumptions C76_posterior.

(** One row transition: if the partition is drawn from the posterior before it, it is
    distributed as the posterior after it. *)
Theorem C76_invariant : forall m0 Om r f, sheet m0 -> all_partitions m0 Om -> seat m0 r <> None -> observable m0 r -> of_blocks m0 f ->
  average Om (fun m => expect (transition_rows m r) (fun p => f (fst p))) = average Om f.
Proof. intros m0 Om r f S AP SE OB OF. rewrite !average_score. rewrite (step_invariant m0 Om r f S AP SE OB OF). reflexivity. Qed.
Print Assumptions C76_invariant.

(** The same for the transitions of any rows one after another, as in
    transition_row_assignments. *)
Theorem C76_sweep : forall m0 Om rids f, sheet m0 -> all_partitions m0 Om ->
  (forall r, In r rids -> seat m0 r <> None /\ observable m0 r) -> of_blocks m0 f ->
  average Om (fun m => expect (rows_each m rids) (fun p => f (fst p))) = average Om f.
Proof.
  intros m0 Om rids f S AP M OF. rewrite !average_score. change (fun m => (exp_score m * expect (rows_each m rids) (fun p => f (fst p)))%R) with (fun m => (exp_score m * after rids f m)%R).
  rewrite (sweep_invariant m0 Om rids f S AP M OF). reflexivity.
Qed.
Print Assumptions C76_sweep.

(** None of these transitions raises or leaves the table; what is known after them on average
    depends on the partition only. *)
Theorem C76_stays : forall m0 m rids, sheet m0 -> arranged m0 m -> (forall r, In r rids -> seat m0 r <> None /\ observable m0 r) ->
  always (rows_each m rids) (fun p => snd p = Ok tt /\ arranged m0 (fst p)).
Proof. intros m0 m rids S A M. exact (sweep_arranged m0 rids m S A M). Qed.
Print Assumptions C76_stays.

(** Sweeps over all the rows, each in an order of its own, forget where they started and
    converge to the posterior, at a geometric rate that no order and no start changes. *)
Theorem C76_converges : forall m0 Om n, sheet m0 -> all_partitions m0 Om -> (forall r, seat m0 r <> None -> observable m0 r) -> n <> O ->
  exists q, (0 <= q < 1)%R /\
    forall f B, of_blocks m0 f -> (forall m, In m Om -> (Rabs (f m - average Om f) <= B)%R) ->
    forall orders m, arranged m0 m -> (forall o, In o orders -> order_of m0 o /\ List.length o = n) ->
    (Rabs (expect (rows_each m (List.concat orders)) (fun p => f (fst p)) - average Om f) <= q ^ List.length orders * B)%R.
Proof.
  intros m0 Om n S AP OBS NZ.
  assert (D : (exists r, seat m0 r <> None) \/ (forall r, seat m0 r = None)).
  { destruct (rows_of m0) as [|r l] eqn:E.
    - right. intros r. destruct (seat m0 r) as [k|] eqn:Es; [|reflexivity]. exfalso.
      assert (X : In r (rows_of m0)) by (apply rows_seat; [exact S|congruence]). rewrite E in X. exact X.
    - left. exists r. apply rows_seat; [exact S|]. rewrite E. now left. }
  destruct D as [(r & SE)|EMP].
  - destruct (C76_posterior m0 Om r S AP SE (OBS r SE)) as (PP & _). destruct (least (posterior_of Om) Om PP) as (p & P1 & P2).
    exists (1 - p ^ n)%R. split.
    { assert (X := pow_lt p n (proj1 P1)). assert (Y := pow_incr p 1 n (conj (Rlt_le _ _ (proj1 P1)) (proj2 P1))). rewrite pow1 in Y. lra. }
    intros f B OF BD orders m A HO. apply (sweeps_converge m0 Om p f B n S AP P2 (proj1 P1) OF OBS BD orders m); [|exact A].
    intros o Ho. destruct (HO o Ho) as (O1 & O2). split; [exact O1|]. split; [exact O2|]. intros ->. apply NZ. symmetry. exact O2.
  - exists 0%R. split; [lra|]. intros f B OF BD orders m A HO. destruct orders as [|o orders].
    + cbn [List.concat rows_each expect fst List.length pow]. rewrite Rmult_1_l. destruct (representative m0 Om m AP A) as (x & Hx & Bx).
      rewrite <- (OF m x A (proj1 AP x Hx) Bx). apply BD. exact Hx.
    + exfalso. destruct (HO o (or_introl eq_refl)) as ((_ & FU) & L). destruct o as [|r o]; [apply NZ; symmetry; exact L|].
      apply (proj1 (FU r)); [now left|apply EMP].
Qed.
Print Assumptions C76_converges.

(** So the average of anything that depends on the partition tends to its posterior average as
    sweeps are added, wherever the inference started. *)
Theorem C76_limit : forall m0 Om n f eps, sheet m0 -> all_partitions m0 Om -> (forall r, seat m0 r <> None -> observable m0 r) -> n <> O ->
  of_blocks m0 f -> (0 < eps)%R ->
  exists N, forall orders m, (N <= List.length orders)%nat -> arranged m0 m -> (forall o, In o orders -> order_of m0 o /\ List.length o = n) ->
    (Rabs (expect (rows_each m (List.concat orders)) (fun p => f (fst p)) - average Om f) < eps)%R.
Proof.
  intros m0 Om n f eps S AP OBS NZ OF EP. destruct (C76_converges m0 Om n S AP OBS NZ) as (q & (Q0 & Q1) & C).
  destruct (greatest (fun m => Rabs (f m - average Om f)) Om) as (B & B0 & BD).
  destruct (pow_lt_1_zero q ltac:(rewrite Rabs_right; lra) (eps / (B + 1))) as (N & HN).
  { apply Rdiv_lt_0_compat; lra. }
  exists N. intros orders m LE A HO. apply Rle_lt_trans with (1 := C f B OF BD orders m A HO).
  assert (X := HN (List.length orders) LE). assert (Y := pow_le q (List.length orders) Q0). rewrite Rabs_right in X by lra.
  apply Rle_lt_trans with (q ^ List.length orders * (B + 1))%R; [apply Rmult_le_compat_l; lra|].
  apply (Rmult_lt_compat_r (B + 1)) in X; [|lra]. unfold Rdiv in X. rewrite Rmult_assoc, Rinv_l, Rmult_1_r in X by lra. exact X.
Qed.
Print Assumptions C76_limit.

(** Three rows without missing cells. *)
Definition full_events : list event :=
  [EObserve 0 [(9, vz 0); (1, vz 2); (2, vz 1)]; EObserve 1 [(9, vz 0); (1, vz 0); (2, vz 1)]; EObserve 2 [(9, vz 1); (1, vz 2); (2, vz 0)]].
Definition full1 : cgpm := state_of (observe demo_new 0 [(9, vz 0); (1, vz 2); (2, vz 1)] []).
Definition full2 : cgpm := state_of (observe full1 1 [(9, vz 0); (1, vz 0); (2, vz 1)] []).
Definition full_view : cgpm := state_of (observe full2 2 [(9, vz 1); (1, vz 2); (2, vz 0)] []).

Lemma full_history : history demo_new full_events full_view.
Proof.
  unfold full_events. eapply (h_step demo_new [_; _] full2); [eapply (h_step demo_new [_] full1); [eapply (h_step demo_new [] demo_new); [constructor|]|]|].
  all: apply observe_happens; [repeat constructor; cbn; intuition lia|intros y [= <-]; eexists; reflexivity|vm_compute; reflexivity].
Qed.

Lemma full_seat : forall r, seat full_view r = lookup r [(0, vz 0); (1, vz 0); (2, vz 1)].
Proof. intros r. reflexivity. Qed.

Lemma full_arranged : arranged full_view full_view /\ forall r, seat full_view r <> None -> observable full_view r.
Proof.
  destruct (C26_consistent _ _ _ demo_new_view full_history) as (A & B & C). split.
  - split; [apply creachable_grown; exact A|]. split; [exact B|]. split; [exact C|]. split; [|split; intros; tauto].
    destruct (fixed_new _ demo_new_view) as (st & L & F). assert (U : untuned full_events) by (intros J; cbn in J; intuition discriminate).
    assert (F1 := fixed_history st L demo_new full_events _ F U full_history). assert (F1' := F1). destruct F1' as (s & ix & bs & cs & r2i & r2c & E & _ & SB & _). rewrite E in *.
    destruct (fixed_component _ _ _ _ _ _ F1) as [P Q]. split; [reflexivity|]. intros k. rewrite Q, leaves_prod, SB. reflexivity.
  - intros r SE. apply observable_columns; [exact B|]. intros o Ho. change (columns_of full_view) with [1; 2] in Ho. rewrite full_seat in SE. cbn [lookup] in SE.
    destruct (eq_dec r 0) as [->|]; [|destruct (eq_dec r 1) as [->|]; [|destruct (eq_dec r 2) as [->|]; [|congruence]]];
      destruct Ho as [<-|[<-|[]]]; vm_compute; discriminate.
Qed.

Lemma full_order : order_of full_view [2; 0; 1] /\ order_of full_view [1; 2; 0].
Proof.
  split; (split; [repeat (constructor; [cbn; intuition discriminate|]); constructor|]); intros r; rewrite full_seat; cbn [lookup In];
    destruct (eq_dec r 0), (eq_dec r 1), (eq_dec r 2); split; intros X; try congruence; intuition congruence.
Qed.

(** Whether rows 0 and 1 are together is a property of the partition; it differs between
    partitions, so that the average is not trivial. *)
Definition together (m : cgpm) : R := if sameb (seat m 0) (seat m 1) then 1%R else 0%R.

Lemma together_blocks : of_blocks full_view together.
Proof.
  intros m m' A A' B. unfold together. assert (N := proj1 (proj2 (proj2 (proj2 (proj2 A))))).
  assert (X : seat m' 0 = seat m' 1 <-> seat m 0 = seat m 1) by (apply B; rewrite N, full_seat; discriminate).
  rewrite <- !sameb_iff in X. destruct (sameb (seat m 0) (seat m 1)), (sameb (seat m' 0) (seat m' 1)); try reflexivity; exfalso; destruct X as [X1 X2]; [now specialize (X2 eq_refl)|now specialize (X1 eq_refl)].
Qed.

Lemma full_good : grown full_view /\ sheet full_view /\ consistent full_view /\ uniform full_view full_view.
Proof. destruct full_arranged as ((A & B & C & D & _) & _). split; [exact A|]. split; [exact B|]. split; [exact C|exact D]. Qed.

Example C76_exists_case : exists Om, all_partitions full_view Om /\
  (exists m m', In m Om /\ In m' Om /\ together m = 1%R /\ together m' = 0%R).
Proof.
  destruct full_arranged as (A & OBS). destruct full_good as (GG & SS & KK & UU). destruct (C76_exists full_view) as (Om & AP); [exact GG|exact SS|exact KK|exact UU|exact OBS|].
  exists Om. split; [exact AP|]. destruct AP as (_ & _ & AL). destruct (AL (fun _ => 0)) as (m & Hm & E). destruct (AL (fun r => r)) as (m' & Hm' & E').
  exists m, m'. split; [exact Hm|]. split; [exact Hm'|]. unfold together. split.
  - assert (X : seat m 0 = seat m 1) by (apply E; rewrite ?full_seat; try discriminate; reflexivity). apply sameb_iff in X. now rewrite X.
  - destruct (sameb (seat m' 0) (seat m' 1)) eqn:X; [|reflexivity]. apply sameb_iff in X. apply E' in X; [discriminate|rewrite full_seat; discriminate|rewrite full_seat; discriminate].
Qed.

Example C76_invariant_case : exists Om, all_partitions full_view Om /\ seat full_view 1 <> None /\ observable full_view 1 /\ of_blocks full_view together /\
  average Om (fun m => expect (transition_rows m 1) (fun p => together (fst p))) = average Om together.
Proof.
  destruct full_arranged as (A & OBS). destruct full_good as (GG & SS & KK & UU). destruct C76_exists_case as (Om & AP & _). exists Om. assert (SE : seat full_view 1 <> None) by (rewrite full_seat; discriminate).
  do 2 (split; [assumption|]). split; [exact (OBS 1 SE)|]. split; [exact together_blocks|]. exact (C76_invariant full_view Om 1 together SS AP SE (OBS 1 SE) together_blocks).
Qed.

Example C76_posterior_case : exists Om, all_partitions full_view Om /\ rsum (map (posterior_of Om) Om) = 1%R /\ (0 < average Om together < 1)%R.
Proof.
  destruct full_arranged as (A & OBS). destruct full_good as (GG & SS & KK & UU). destruct C76_exists_case as (Om & AP & m1 & m2 & H1 & H2 & T1 & T2). exists Om. split; [exact AP|].
  assert (SE : seat full_view 1 <> None) by (rewrite full_seat; discriminate).
  destruct (C76_posterior full_view Om 1) as (P & ONE); [exact SS|exact AP|exact SE|exact (OBS 1 SE)|]. split; [exact ONE|].
  assert (TB : forall m, (0 <= together m <= 1)%R) by (intros m; unfold together; destruct (sameb _ _); lra).
  assert (LO : (posterior_of Om m1 * together m1 <= average Om together)%R).
  { apply (EntropyThm.rsum_ge (map (fun m => posterior_of Om m * together m)%R Om)); [|apply (in_map (fun m => (posterior_of Om m * together m)%R)); exact H1].
    intros x Hx. apply in_map_iff in Hx. destruct Hx as (m & <- & Hm). assert (Y := P m Hm). assert (Z := TB m). apply Rmult_le_pos; lra. }
  assert (HI : (posterior_of Om m2 * (1 - together m2) <= average Om (fun m => -1 * together m + 1))%R).
  { apply Rle_trans with (posterior_of Om m2 * (-1 * together m2 + 1))%R; [apply Req_le; ring|].
    apply (EntropyThm.rsum_ge (map (fun m => posterior_of Om m * (-1 * together m + 1))%R Om)); [|apply (in_map (fun m => (posterior_of Om m * (-1 * together m + 1))%R)); exact H2].
    intros x Hx. apply in_map_iff in Hx. destruct Hx as (m & <- & Hm). assert (Y := P m Hm). assert (Z := TB m). apply Rmult_le_pos; lra. }
  rewrite (average_affine full_view Om 1) in HI; [|exact SS|exact AP|split; [exact SE|exact (OBS 1 SE)]].
  rewrite T1 in LO. rewrite T2 in HI. assert (Y1 := P m1 H1). assert (Y2 := P m2 H2). lra.
Qed.

Example C76_sweep_case : exists Om, all_partitions full_view Om /\ (forall r, In r [2; 0; 1; 1] -> seat full_view r <> None /\ observable full_view r) /\
  average Om (fun m => expect (rows_each m [2; 0; 1; 1]) (fun p => together (fst p))) = average Om together.
Proof.
  destruct full_arranged as (A & OBS). destruct full_good as (GG & SS & KK & UU). destruct C76_exists_case as (Om & AP & _). exists Om. split; [exact AP|].
  assert (M : forall r, In r [2; 0; 1; 1] -> seat full_view r <> None /\ observable full_view r).
  { intros r Hr. assert (SE : seat full_view r <> None) by (rewrite full_seat; destruct Hr as [<-|[<-|[<-|[<-|[]]]]]; discriminate). split; [exact SE|exact (OBS r SE)]. }
  split; [exact M|]. exact (C76_sweep full_view Om [2; 0; 1; 1] together SS AP M together_blocks).
Qed.

Example C76_stays_case : arranged full_view full_view /\ always (rows_each full_view [2; 0; 1]) (fun p => snd p = Ok tt /\ arranged full_view (fst p)).
Proof.
  destruct full_arranged as (A & OBS). destruct full_good as (GG & SS & KK & UU). split; [exact A|]. apply C76_stays; [exact SS|exact A|]. intros r Hr.
  assert (SE : seat full_view r <> None) by (rewrite full_seat; destruct Hr as [<-|[<-|[<-|[]]]]; discriminate). split; [exact SE|exact (OBS r SE)].
Qed.

Example C76_converges_case : exists Om q, all_partitions full_view Om /\ arranged full_view full_view /\ order_of full_view [2; 0; 1] /\ order_of full_view [1; 2; 0] /\ (0 <= q < 1)%R /\
  (Rabs (expect (rows_each full_view ([2; 0; 1]%Z ++ [1; 2; 0]%Z)%list) (fun p => together (fst p)) - average Om together) <= q ^ 2 * 1)%R.
Proof.
  destruct full_arranged as (A & OBS). destruct full_good as (GG & SS & KK & UU). destruct C76_posterior_case as (Om & AP & _ & AV). destruct full_order as (O1 & O2).
  destruct (C76_converges full_view Om 3) as (q & Q & C); [exact SS|exact AP|exact OBS|discriminate|]. exists Om, q.
  split; [exact AP|]. split; [exact A|]. split; [exact O1|]. split; [exact O2|]. split; [exact Q|].
  apply (C together 1%R together_blocks) with (orders := [[2; 0; 1]; [1; 2; 0]]%list).
  - intros m Hm. unfold together at 1. destruct (sameb _ _); unfold Rabs; destruct (Rcase_abs _); lra.
  - exact A.
  - intros o [<-|[<-|[]]]; (split; [assumption|reflexivity]).
Qed.

Example C76_limit_case : exists Om N, all_partitions full_view Om /\ forall orders, (N <= List.length orders)%nat -> (forall o, In o orders -> o = [2; 0; 1] \/ o = [1; 2; 0]) ->
  (Rabs (expect (rows_each full_view (List.concat orders)) (fun p => together (fst p)) - average Om together) < 1 / 1000)%R.
Proof.
  destruct full_arranged as (A & OBS). destruct full_good as (GG & SS & KK & UU). destruct C76_exists_case as (Om & AP & _). destruct full_order as (O1 & O2).
  destruct (C76_limit full_view Om 3 together (1 / 1000)) as (N & L); [exact SS|exact AP|exact OBS|discriminate|exact together_blocks|lra|]. exists Om, N. split; [exact AP|].
  intros orders LE HO. apply L; [exact LE|exact A|]. intros o Ho. destruct (HO o Ho) as [-> | ->]; (split; [assumption|reflexivity]).
Qed.
