(** Sweeps over the rows: invariance, reachability of every partition, convergence. *)
From Coq Require Import List ZArith QArith Qcanon Reals Bool String Permutation Lia Lra Sorted.
From Verif Require Import Base Xr Samp Lgamma Prims Cgpm Lib SpecPrims PrimsInv PrimsDens PrimsThm PrimsThm2
  SpecComp CompInv CompDens CompThm SpecBook Book SpecTable Trans SpecHist Table Gibbs Hist SimLaw ChainLaw ManyLaw5 SpecWalks WalksThm Crosscat SimShape ViewsThm CrosscatThm SpecCrosscat SpecSame SameThm SameHist SameRel SpecPost PostThm PostThm2.
Import ListNotations.
Local Open Scope Z_scope.

(** The draws are from finitely many choices, along every path that can be taken. *)
Fixpoint fine {A} (m : samp A) : Prop :=
  match m with
  | Ret _ => True
  | Flip ws k => (forall w, In w ws -> (0 <= w)%R) /\ (0 < rsum ws)%R /\ forall i, (i < List.length ws)%nat -> (0 < nth i ws 0)%R -> fine (k i)
  | _ => False
  end.

Lemma finite_fine : forall {A} (m : samp A), finite_choices m -> fine m.
Proof.
  intros A0 m. induction m as [a|ws k IH|l k IH|n p k IH|lo hi k IH|n k IH]; intros F; cbn in *; try contradiction; auto.
  destruct F as (F1 & F2 & F3). auto.
Qed.

Lemma fine_bind : forall {A B} (m : samp A) (f : A -> samp B), fine m -> always m (fun a => fine (f a)) -> fine (sbind m f).
Proof.
  intros A0 B0 m. induction m as [a|ws k IH|l k IH|n p k IH|lo hi k IH|n k IH]; intros f F A; cbn in *; try contradiction; auto.
  destruct F as (F1 & F2 & F3). auto.
Qed.

Lemma seq_map_nth : forall (ws : list R) c, rsum (map (fun i => (nth i ws 0 / c)%R) (seq 0 (List.length ws))) = (rsum ws / c)%R.
Proof.
  intros ws c. rewrite <- (map_map (fun i => nth i ws 0%R) (fun x => (x / c)%R)).
  assert (E : map (fun i => nth i ws 0%R) (seq 0 (List.length ws)) = ws).
  { apply (nth_ext _ _ 0%R 0%R); [now rewrite map_length, seq_length|]. rewrite map_length, seq_length. intros i Hi.
    rewrite (nth_indep _ 0%R (nth 0 ws 0%R)) by (rewrite map_length, seq_length; exact Hi). rewrite (map_nth (fun i => nth i ws 0%R)). now rewrite seq_nth by exact Hi. }
  rewrite E. unfold Rdiv. rewrite Rmult_comm, <- rsum_scale. f_equal. apply map_ext. intros; ring.
Qed.

Lemma fine_const : forall {A} (m : samp A) c, fine m -> expect m (fun _ => c) = c.
Proof.
  intros A0 m c. induction m as [a|ws k IH|l k IH|n p k IH|lo hi k IH|n k IH]; intros F; cbn in *; try contradiction; auto.
  destruct F as (F1 & F2 & F3). rewrite (map_ext_in _ (fun i => c * (nth i ws 0 / rsum ws))%R).
  - rewrite <- (map_map (fun i => (nth i ws 0 / rsum ws)%R) (fun x => (c * x)%R)), rsum_scale, seq_map_nth. field. lra.
  - intros i Hi. apply in_seq in Hi. assert (X := F1 (nth i ws 0%R) (nth_In ws 0%R (proj2 Hi))). destruct (Rle_lt_or_eq_dec _ _ X) as [Y|Y].
    + rewrite (IH i (F3 i (proj2 Hi) Y)). ring.
    + replace (nth i ws 0%R) with 0%R. unfold Rdiv. ring.
Qed.

Lemma fine_nonneg : forall {A} (m : samp A) (f : A -> R), fine m -> always m (fun a => (0 <= f a)%R) -> (0 <= expect m f)%R.
Proof.
  intros A0 m f. induction m as [a|ws k IH|l k IH|n p k IH|lo hi k IH|n k IH]; intros F A; cbn in *; try contradiction; auto.
  destruct F as (F1 & F2 & F3). apply rsum_nonneg. intros x Hx. apply in_map_iff in Hx. destruct Hx as (i & <- & Hi). apply in_seq in Hi.
  assert (X := F1 (nth i ws 0%R) (nth_In ws 0%R (proj2 Hi))). destruct (Rle_lt_or_eq_dec _ _ X) as [Y|Y].
  - apply Rmult_le_pos; [|apply IH; [apply F3; [apply Hi|exact Y]|apply A; [apply Hi|exact Y]]]. apply Rmult_le_pos; [exact X|]. apply Rlt_le, Rinv_0_lt_compat. exact F2.
  - replace (nth i ws 0%R) with 0%R. unfold Rdiv. rewrite !Rmult_0_l. lra.
Qed.

(** The rows of a table that row inference can move. *)
Definition movable (m0 : cgpm) (r : Z) : Prop := seat m0 r <> None /\ observable m0 r.

Lemma arranged_observable : forall m0 m r, sheet m0 -> arranged m0 m -> observable m0 r -> observable m r.
Proof.
  intros m0 m r S0 A OB o E. destruct (arranged_columns m0 m S0 A) as (_ & EC & EK). rewrite EK. apply OB.
  destruct (in_dec Z.eq_dec o (columns_of m)) as [J|J].
  - rewrite <- E. symmetry. apply A. rewrite <- EC. exact J.
  - rewrite (cell_outside m r o (arranged_wf _ _ A) (proj1 (proj2 A)) J) in E. discriminate.
Qed.

Lemma step_arranged : forall m0 m r, sheet m0 -> arranged m0 m -> movable m0 r ->
  always (transition_rows m r) (fun p => snd p = Ok tt /\ arranged m0 (fst p)).
Proof.
  intros m0 m r S0 A (SE & OB). assert (OB' := arranged_observable m0 m r S0 A OB). assert (A' := A). destruct A' as (G & S & K & U & N & C).
  assert (SE' : seat m r <> None) by (rewrite N; exact SE). assert (W := arranged_wf _ _ A).
  assert (T := transition_row_keeps m r (conj G (conj S K)) SE' OB').
  assert (F := fixed_transition _ _ m r (uniform_fixed m0 m W S U)).
  generalize (always_and _ _ _ T F). apply always_imp. intros p ((E & (G1 & S1 & K1) & (C1 & C2 & C3 & C4) & N1 & _) & F1). split; [exact E|].
  split; [exact G1|]. split; [exact S1|]. split; [exact K1|]. split; [exact (fixed_uniform m0 m (fst p) U F1)|]. split.
  - intros r'. rewrite <- N. specialize (N1 r'). destruct (seat (fst p) r'), (seat m r'); split; intros X; try congruence; exfalso; [apply (proj1 N1); congruence|apply (proj2 N1); congruence].
  - intros r' o Ho. rewrite <- C by exact Ho. apply C4.
Qed.

Lemma sweep_arranged : forall m0 rids m, sheet m0 -> arranged m0 m -> (forall r, In r rids -> movable m0 r) ->
  always (rows_each m rids) (fun p => snd p = Ok tt /\ arranged m0 (fst p)).
Proof.
  intros m0 rids. induction rids as [|r rids IH]; intros m S0 A M; cbn [rows_each].
  - cbn [always fst snd]. auto.
  - apply always_bind. eapply always_imp; [|apply (step_arranged m0 m r S0 A (M r (or_introl eq_refl)))]. intros p (-> & A').
    apply IH; auto. intros r' Hr'. apply M. now right.
Qed.

Lemma step_finite : forall m0 m r, sheet m0 -> arranged m0 m -> movable m0 r -> finite_choices (transition_rows m r).
Proof. intros m0 m r S0 A (SE & OB). destruct (step_law m0 m r S0 A SE OB) as (K & mz & _ & _ & _ & _ & _ & _ & FC & _). exact FC. Qed.

Lemma sweep_finite : forall m0 rids m, sheet m0 -> arranged m0 m -> (forall r, In r rids -> movable m0 r) -> fine (rows_each m rids).
Proof.
  intros m0 rids. induction rids as [|r rids IH]; intros m S0 A M; cbn [rows_each]; [exact Logic.I|].
  apply fine_bind; [apply finite_fine, (step_finite m0 m r S0 A (M r (or_introl eq_refl)))|].
  eapply always_imp; [|apply (step_arranged m0 m r S0 A (M r (or_introl eq_refl)))]. intros p (-> & A'). apply IH; auto. intros r' Hr'. apply M. now right.
Qed.

(** What a function is on average after row transitions. *)
Definition after (rids : list Z) (f : cgpm -> R) (m : cgpm) : R := expect (rows_each m rids) (fun p => f (fst p)).

Lemma after_cons : forall m0 r rids f m, sheet m0 -> arranged m0 m -> (forall r', In r' (r :: rids) -> movable m0 r') ->
  after (r :: rids) f m = expect (transition_rows m r) (fun p => after rids f (fst p)).
Proof.
  intros m0 r rids f m S0 A M. unfold after. cbn [rows_each]. rewrite expect_bind.
  apply (expect_always _ (fun p => snd p = Ok tt /\ arranged m0 (fst p))).
  - apply (step_finite m0); auto. apply M. now left.
  - apply (step_arranged m0); auto. apply M. now left.
  - intros p (-> & _). reflexivity.
Qed.

Lemma after_app : forall m0 rids rids' f m, sheet m0 -> arranged m0 m -> (forall r', In r' (rids ++ rids') -> movable m0 r') ->
  after (rids ++ rids') f m = after rids (after rids' f) m.
Proof.
  intros m0 rids rids' f. induction rids as [|r rids IH]; intros m S0 A M; [reflexivity|]. cbn [app] in *.
  rewrite (after_cons m0 r (rids ++ rids') f m S0 A M). rewrite (after_cons m0 r rids _ m S0 A).
  2: { intros r' Hr'. apply M. destruct Hr' as [->|Hr']; [now left|]. right. apply in_or_app. now left. }
  assert (Mr := M r (or_introl eq_refl)).
  apply (expect_always _ (fun p => snd p = Ok tt /\ arranged m0 (fst p))); [apply (step_finite m0); auto|apply (step_arranged m0); auto|].
  intros p (_ & A'). apply IH; auto. intros r' Hr'. apply M. now right.
Qed.

Lemma after_blocks : forall m0 Om rids f, sheet m0 -> all_partitions m0 Om -> (forall r, In r rids -> movable m0 r) -> of_blocks m0 f -> of_blocks m0 (after rids f).
Proof.
  intros m0 Om rids f S0 AP. induction rids as [|r rids IH]; intros M OF; [exact OF|].
  assert (OF' : of_blocks m0 (after rids f)) by (apply IH; auto; intros; apply M; now right).
  destruct (M r (or_introl eq_refl)) as (SE & OB). intros m m' A A' B. rewrite !(after_cons m0 r rids f) by auto.
  apply (step_blocks m0 Om r (after rids f) S0 AP SE OB OF' m m' A A' B).
Qed.

Theorem sweep_invariant : forall m0 Om rids f, sheet m0 -> all_partitions m0 Om -> (forall r, In r rids -> movable m0 r) -> of_blocks m0 f ->
  rsum (map (fun m => exp_score m * after rids f m)%R Om) = rsum (map (fun m => exp_score m * f m)%R Om).
Proof.
  intros m0 Om rids f S0 AP. induction rids as [|r rids IH]; intros M OF; [reflexivity|]. assert (IO : forall m', In m' Om -> arranged m0 m') by apply AP.
  assert (M' : forall r', In r' rids -> movable m0 r') by (intros; apply M; now right).
  rewrite <- (IH M' OF). destruct (M r (or_introl eq_refl)) as (SE & OB).
  rewrite <- (step_invariant m0 Om r (after rids f) S0 AP SE OB (after_blocks m0 Om rids f S0 AP M' OF)).
  f_equal. apply map_ext_in. intros m Hm. rewrite (after_cons m0 r rids f m S0 (IO m Hm) M). reflexivity.
Qed.

(** ** Averages over the partitions *)

Lemma average_score : forall Om f, average Om f = (rsum (map (fun m => exp_score m * f m)%R Om) / rsum (map exp_score Om))%R.
Proof.
  intros Om f. unfold average, posterior_of. set (Z := rsum (map exp_score Om)). unfold Rdiv. rewrite Rmult_comm, <- rsum_scale, map_map. f_equal. apply map_ext. intros m. ring.
Qed.

Lemma score_pos : forall m0 m r, sheet m0 -> arranged m0 m -> movable m0 r -> (0 < exp_score m)%R.
Proof.
  intros m0 m r S0 A (SE & OB). destruct (step_law m0 m r S0 A SE OB) as (K & mz & _ & _ & MZ & EL & FR & FU & _).
  assert (SE' : seat m r <> None) by (assert (X := A); destruct X as (_ & _ & _ & _ & N & _); rewrite N; exact SE).
  destruct (seat m r) as [k|] eqn:E; [|congruence]. destruct (seat_label m r k (proj1 (proj2 (proj2 A))) E) as (z0 & ->).
  assert (B : exists z, In z K /\ same_blocks (mz z) m).
  { destruct (Exists_dec (fun r' => r' <> r /\ seat m r' = Some (vz z0)) (rows_of m)) as [X|X].
    { intros r'. destruct (Z.eq_dec r' r); [right; tauto|]. destruct (seat_dec (seat m r') (Some (vz z0))); [left|right]; tauto. }
    - apply Exists_exists in X. destruct X as (r' & _ & NE & X). assert (Hz : In z0 K) by (apply EL; exists r'; auto). exists z0. split; [exact Hz|].
      destruct (MZ z0 Hz) as (_ & Sz & Oz & _). assert (Y : forall r1, seat (mz z0) r1 = seat m r1) by (intros r1; destruct (Z.eq_dec r1 r) as [->|N1]; [congruence|auto]).
      intros r1 r2 _ _. rewrite !Y. reflexivity.
    - destruct FR as (z & Hz & Nz). exists z. split; [exact Hz|]. destruct (MZ z Hz) as (_ & Sz & Oz & _).
      assert (Y0 : forall r1, r1 <> r -> seat m r1 <> Some (vz z)) by (intros r1 N1 Y; apply Nz; exists r1; auto).
      assert (Y1 : forall r1, r1 <> r -> seat m r1 <> Some (vz z0)).
      { intros r1 N1 Y. apply X. apply Exists_exists. exists r1. split; [apply rows_seat; [apply A|congruence]|auto]. }
      intros r1 r2 _ _. destruct (Z.eq_dec r1 r) as [->|N1], (Z.eq_dec r2 r) as [->|N2]; [tauto| | |].
      + rewrite Sz, E, (Oz r2 N2). split; intros Y; exfalso; symmetry in Y; [apply (Y1 r2 N2 Y)|apply (Y0 r2 N2 Y)].
      + rewrite Sz, E, (Oz r1 N1). split; intros Y; exfalso; [apply (Y1 r1 N1 Y)|apply (Y0 r1 N1 Y)].
      + rewrite (Oz r1 N1), (Oz r2 N2). tauto. }
  destruct B as (z & Hz & B). destruct (MZ z Hz) as (Az & _ & _ & P). rewrite (exp_score_blocks m0 S0 (mz z) m Az A B). exact P.
Qed.

Lemma total_pos : forall m0 Om r, sheet m0 -> all_partitions m0 Om -> movable m0 r -> (0 < rsum (map exp_score Om))%R.
Proof.
  intros m0 Om r S0 AP M. apply rsum_pos.
  - intros ->. destruct AP as (_ & _ & AL). destruct (AL (fun _ => 0)) as (m & [] & _).
  - intros m Hm. apply (score_pos m0 m r S0); [apply AP; exact Hm|exact M].
Qed.

Lemma average_one : forall m0 Om r, sheet m0 -> all_partitions m0 Om -> movable m0 r -> rsum (map (posterior_of Om) Om) = 1%R.
Proof.
  intros m0 Om r S0 AP M. assert (P := total_pos m0 Om r S0 AP M). assert (X := average_score Om (fun _ => 1%R)). unfold average in X.
  rewrite (map_ext _ (posterior_of Om)) in X by (intros; ring). rewrite X. rewrite (map_ext _ exp_score) by (intros; ring). field. lra.
Qed.

(** ** Every partition is reached *)

Definition placed (m0 : cgpm) (a : Z -> Z) (l : list Z) (m : cgpm) : Prop :=
  arranged m0 m /\ (forall r1 r2, In r1 l -> In r2 l -> (seat m r1 = seat m r2 <-> a r1 = a r2)) /\
  (forall r1 r2, In r1 l -> ~ In r2 l -> seat m0 r2 <> None -> seat m r1 <> seat m r2).

Lemma placed_step : forall m0 a l m r, sheet m0 -> placed m0 a l m -> movable m0 r -> ~ In r l -> (forall r', In r' l -> movable m0 r') ->
  exists (K : list Z) (mz : Z -> cgpm) (z : Z), NoDup K /\ In z K /\ placed m0 a (r :: l) (mz z) /\ (forall z, In z K -> arranged m0 (mz z) /\ (0 < exp_score (mz z))%R) /\
    finite_choices (transition_rows m r) /\
    (forall Om f, all_partitions m0 Om -> of_blocks m0 f -> rsum (map (fun z => exp_score (mz z) * f (mz z))%R K) = share Om r f m) /\
    forall f, expect (transition_rows m r) f = (rsum (map (fun z => exp_score (mz z) * f (mz z, Ok tt)) K) / rsum (map (fun z => exp_score (mz z)) K))%R.
Proof.
  intros m0 a l m r S0 (A & P1 & P2) (SE & OB) NI ML. destruct (step_law m0 m r S0 A SE OB) as (K & mz & ND & NE & MZ & EL & FR & FU & FC & EX).
  assert (MA : forall Om f, all_partitions m0 Om -> of_blocks m0 f -> rsum (map (fun z => exp_score (mz z) * f (mz z))%R K) = share Om r f m)
    by (intros Om f AP OF; apply (matched m0 Om m r f K mz); assumption).
  assert (NL : forall r', In r' l -> r' <> r) by (intros r' Hr' ->; contradiction).
  assert (X : exists z, In z K /\ placed m0 a (r :: l) (mz z)).
  { destruct (Exists_dec (fun r' => a r' = a r) l) as [E|E]; [intros r'; apply Z.eq_dec| |].
    - apply Exists_exists in E. destruct E as (r' & Hr' & E). assert (N' := NL r' Hr').
      assert (SR : seat m r' <> None) by (assert (X := A); destruct X as (_ & _ & _ & _ & N & _); rewrite N; apply ML; exact Hr').
      destruct (seat m r') as [k|] eqn:Ek; [|congruence]. destruct (seat_label m r' k (proj1 (proj2 (proj2 A))) Ek) as (z & ->).
      assert (Hz : In z K) by (apply EL; exists r'; auto). exists z. split; [exact Hz|]. destruct (MZ z Hz) as (Az & Sz & Oz & _).
      split; [exact Az|]. split.
      + intros r1 r2 [<-|H1] [<-|H2]; [tauto| | |].
        * rewrite Sz, (Oz r2 (NL r2 H2)), <- Ek, <- E. apply P1; auto.
        * rewrite Sz, (Oz r1 (NL r1 H1)), <- Ek, <- E. apply P1; auto.
        * rewrite (Oz r1 (NL r1 H1)), (Oz r2 (NL r2 H2)). apply P1; auto.
      + intros r1 r2 H1 H2 H3. assert (N2 : r2 <> r) by (intros ->; apply H2; now left). rewrite (Oz r2 N2).
        assert (H2' : ~ In r2 l) by (intros Y; apply H2; now right). destruct H1 as [<-|H1].
        * rewrite Sz, <- Ek. apply P2; auto.
        * rewrite (Oz r1 (NL r1 H1)). apply P2; auto.
    - destruct FR as (z & Hz & Nz). exists z. split; [exact Hz|]. destruct (MZ z Hz) as (Az & Sz & Oz & _).
      assert (Y0 : forall r1, r1 <> r -> seat m r1 <> Some (vz z)) by (intros r1 N1 Y; apply Nz; exists r1; auto).
      assert (Y1 : forall r1, In r1 l -> a r1 <> a r) by (intros r1 H1 Y; apply E, Exists_exists; exists r1; auto).
      split; [exact Az|]. split.
      + intros r1 r2 [<-|H1] [<-|H2]; [tauto| | |].
        * rewrite Sz, (Oz r2 (NL r2 H2)). split; intros Y; exfalso; symmetry in Y; [apply (Y0 r2 (NL r2 H2) Y)|apply (Y1 r2 H2 Y)].
        * rewrite Sz, (Oz r1 (NL r1 H1)). split; intros Y; exfalso; [apply (Y0 r1 (NL r1 H1) Y)|apply (Y1 r1 H1 Y)].
        * rewrite (Oz r1 (NL r1 H1)), (Oz r2 (NL r2 H2)). apply P1; auto.
      + intros r1 r2 H1 H2 H3. assert (N2 : r2 <> r) by (intros ->; apply H2; now left). rewrite (Oz r2 N2).
        assert (H2' : ~ In r2 l) by (intros Y; apply H2; now right). destruct H1 as [<-|H1].
        * rewrite Sz. intros Y. symmetry in Y. apply (Y0 r2 N2 Y).
        * rewrite (Oz r1 (NL r1 H1)). apply P2; auto. }
  destruct X as (z & Hz & PL). exists K, mz, z. split; [exact ND|]. split; [exact Hz|]. split; [exact PL|]. split; [|auto].
  intros z' Hz'. destruct (MZ z' Hz') as (Y1 & _ & _ & Y2). auto.
Qed.

Lemma after_nonneg : forall m0 rids f m, sheet m0 -> arranged m0 m -> (forall r, In r rids -> movable m0 r) -> (forall m', arranged m0 m' -> (0 <= f m')%R) -> (0 <= after rids f m)%R.
Proof.
  intros m0 rids f m S0 A M P. apply fine_nonneg; [apply (sweep_finite m0); auto|].
  eapply always_imp; [|apply (sweep_arranged m0 rids m S0 A M)]. intros p (_ & A'). apply P. exact A'.
Qed.

Lemma sweep_reaches : forall m0 Om a p f c, sheet m0 -> all_partitions m0 Om -> (forall m, In m Om -> (p <= posterior_of Om m)%R) -> (0 < p)%R ->
  (forall m', arranged m0 m' -> (0 <= f m')%R) -> (0 <= c)%R ->
  forall rids l m, NoDup rids -> (forall r, In r rids -> ~ In r l /\ movable m0 r) -> (forall r, In r l -> movable m0 r) -> placed m0 a l m ->
  (forall m', placed m0 a (rev rids ++ l) m' -> (c <= f m')%R) -> (p ^ List.length rids * c <= after rids f m)%R.
Proof.
  intros m0 Om a p f c S0 AP HP PP HF HC. induction rids as [|r rids IH]; intros l m ND HR HL PL HE.
  - unfold after. cbn [rows_each expect fst List.length pow]. rewrite Rmult_1_l. apply HE. exact PL.
  - inversion ND as [|? ? ND1 ND2]; subst. destruct (HR r (or_introl eq_refl)) as (NI & MR).
    assert (ALL : forall r', In r' (r :: rids) -> movable m0 r') by (intros r' Hr'; apply HR; exact Hr').
    assert (TP := total_pos m0 Om r S0 AP MR). assert (A := proj1 PL). rewrite (after_cons m0 r rids f m S0 A ALL).
    destruct (placed_step m0 a l m r S0 PL MR NI HL) as (K & mz & z & NDK & Hz & PZ & MZ & FC & MA & EX). rewrite EX. cbn [fst].
    assert (TOT : (0 < rsum (map (fun z => exp_score (mz z)) K) <= rsum (map exp_score Om))%R).
    { split; [apply rsum_pos; [intros ->; exact Hz|intros z' Hz'; apply MZ; exact Hz']|].
      rewrite (map_ext _ (fun z => exp_score (mz z) * 1)%R) by (intros; ring). rewrite (MA Om (fun _ => 1%R) AP (one_blocks m0)). unfold share.
      apply EntropyThm.rsum_le. intros m' Hm'. assert (Y := score_pos m0 m' r S0 (proj1 AP m' Hm') MR). destruct (offb r m m'); lra. }
    destruct TOT as [T1 T2]. set (T := rsum (map (fun z => exp_score (mz z)) K)) in *. set (TT := rsum (map exp_score Om)) in *.
    assert (REC : (p ^ List.length rids * c <= after rids f (mz z))%R).
    { apply (IH (r :: l)); auto.
      - intros r' Hr'. destruct (HR r' (or_intror Hr')) as (N' & M'). split; [|exact M']. intros [->|Y]; [contradiction|contradiction].
      - intros r' [<-|Hr']; auto.
      - intros m' P'. apply HE. cbn [rev]. rewrite <- app_assoc. exact P'. }
    assert (GE : (exp_score (mz z) * after rids f (mz z) <= rsum (map (fun z => exp_score (mz z) * after rids f (mz z)) K))%R).
    { apply EntropyThm.rsum_ge; [|apply (in_map (fun z => (exp_score (mz z) * after rids f (mz z))%R)); exact Hz]. intros x Hx. apply in_map_iff in Hx. destruct Hx as (z' & <- & Hz'). destruct (MZ z' Hz') as (Az' & Pz').
      assert (Y := after_nonneg m0 rids f (mz z') S0 Az' (fun r' H' => ALL r' (or_intror H')) HF). apply Rmult_le_pos; lra. }
    assert (PZ' : (p * TT <= exp_score (mz z))%R).
    { destruct (MZ z Hz) as (Az & _). destruct (representative m0 Om (mz z) AP Az) as (m' & Hm' & B).
      rewrite <- (exp_score_blocks m0 S0 (mz z) m' Az (proj1 AP m' Hm') B). assert (Y := HP m' Hm'). unfold posterior_of in Y. fold TT in Y.
      apply (Rmult_le_compat_r TT) in Y; [|lra]. unfold Rdiv in Y. rewrite Rmult_assoc, Rinv_l, Rmult_1_r in Y by lra. exact Y. }
    apply (Rmult_le_reg_r T); [exact T1|]. unfold Rdiv. rewrite (Rmult_assoc _ (/ T) T), Rinv_l, Rmult_1_r by lra.
    apply Rle_trans with (2 := GE). cbn [List.length pow].
    assert (Q : (0 <= p ^ List.length rids * c)%R) by (apply Rmult_le_pos; [apply pow_le; lra|exact HC]).
    apply Rle_trans with (exp_score (mz z) * (p ^ List.length rids * c))%R.
    + replace (p * p ^ List.length rids * c * T)%R with (p * T * (p ^ List.length rids * c))%R by ring. apply Rmult_le_compat_r; [exact Q|].
      apply Rle_trans with (p * TT)%R; [apply Rmult_le_compat_l; lra|exact PZ'].
    + apply Rmult_le_compat_l; [|exact REC]. destruct (MZ z Hz) as (_ & Y). lra.
Qed.

Lemma sweep_low : forall m0 Om p g rids m, sheet m0 -> all_partitions m0 Om -> (forall m, In m Om -> (p <= posterior_of Om m)%R) -> (0 < p)%R ->
  (forall r, In r rids -> movable m0 r) -> order_of m0 rids -> rids <> [] -> of_blocks m0 g -> (forall m', arranged m0 m' -> (0 <= g m')%R) -> arranged m0 m ->
  (p ^ List.length rids * average Om g <= after rids g m)%R.
Proof.
  intros m0 Om p g rids m S0 AP HP PP M (ND & FULL) NE OF POS A.
  destruct rids as [|r0 rs] eqn:ER; [congruence|]. rewrite <- ER in *. assert (M0 : movable m0 r0) by (apply M; rewrite ER; now left).
  assert (ONE := average_one m0 Om r0 S0 AP M0). unfold average. rewrite <- rsum_scale, map_map.
  rewrite <- (Rmult_1_r (after rids g m)). rewrite <- ONE, <- rsum_scale, map_map. apply EntropyThm.rsum_le. intros m' Hm'.
  assert (A' := proj1 AP m' Hm').
  assert (Y : (p ^ List.length rids * g m' <= after rids g m)%R).
  { apply (sweep_reaches m0 Om (number m') p g (g m') S0 AP HP PP POS (POS m' A') rids [] m ND).
    - intros r Hr. split; [intros []|apply M; exact Hr].
    - intros r [].
    - split; [exact A|]. split; intros r1 r2 [].
    - intros x (Ax & P1 & _). rewrite app_nil_r in P1. apply Req_le. symmetry. apply (OF m' x A' Ax).
      assert (N' := proj1 (proj2 (proj2 (proj2 (proj2 A'))))).
      intros r1 r2 H1 H2. rewrite P1 by (rewrite <- in_rev; apply FULL; rewrite <- N'; assumption). apply number_seat; [apply A'|exact H1|exact H2]. }
  assert (PM : (0 <= posterior_of Om m')%R) by (assert (X := HP m' Hm'); lra).
  replace (p ^ List.length rids * (posterior_of Om m' * g m'))%R with (p ^ List.length rids * g m' * posterior_of Om m')%R by ring. apply Rmult_le_compat_r; assumption.
Qed.

Lemma average_affine : forall m0 Om r f c d, sheet m0 -> all_partitions m0 Om -> movable m0 r -> average Om (fun m => c * f m + d)%R = (c * average Om f + d)%R.
Proof.
  intros m0 Om r f c d S0 AP M. assert (X := average_one m0 Om r S0 AP M). unfold average.
  assert (G : forall (q : cgpm -> R) l, rsum (map (fun m => q m * (c * f m + d))%R l) = (c * rsum (map (fun m => q m * f m)%R l) + d * rsum (map q l))%R).
  { intros q l. induction l as [|x l IH]; unfold rsum in *; cbn [map fold_right] in *; [ring|]. rewrite IH. ring. }
  rewrite G, X. ring.
Qed.

Lemma after_affine : forall m0 rids f c d m, sheet m0 -> arranged m0 m -> (forall r, In r rids -> movable m0 r) ->
  after rids (fun m => c * f m + d)%R m = (c * after rids f m + d)%R.
Proof.
  intros m0 rids f c d m S0 A M. unfold after. rewrite (expect_plus _ (fun p => (c * f (fst p))%R) (fun _ => d)), expect_scale, fine_const; [reflexivity|].
  apply (sweep_finite m0); auto.
Qed.

Lemma sweep_contracts : forall m0 Om p f rids m B, sheet m0 -> all_partitions m0 Om -> (forall m, In m Om -> (p <= posterior_of Om m)%R) -> (0 < p)%R ->
  (forall r, In r rids -> movable m0 r) -> order_of m0 rids -> rids <> [] -> of_blocks m0 f ->
  (forall m', arranged m0 m' -> (Rabs (f m' - average Om f) <= B)%R) -> arranged m0 m ->
  (Rabs (after rids f m - average Om f) <= (1 - p ^ List.length rids) * B)%R.
Proof.
  intros m0 Om p f rids m B S0 AP HP PP M OR NE OF BD A. assert (M0 : exists r, movable m0 r) by (destruct rids as [|r l]; [congruence|]; exists r; apply M; now left).
  destruct M0 as (r0 & M0). set (F := average Om f) in *.
  assert (LOW : forall c, (c = 1 \/ c = -1)%R -> (p ^ List.length rids * B <= c * after rids f m + (B - c * F))%R).
  { intros c Hc. rewrite <- (after_affine m0 rids f c (B - c * F) m S0 A M).
    assert (X := sweep_low m0 Om p (fun m => c * f m + (B - c * F))%R rids m S0 AP HP PP M OR NE).
    rewrite (average_affine m0 Om r0 f c (B - c * F) S0 AP M0) in X. fold F in X. replace (c * F + (B - c * F))%R with B in X by ring. apply X; [| |exact A].
    - intros x y Ax Ay Bxy. now rewrite (OF x y Ax Ay Bxy).
    - intros m' A'. assert (Y := BD m' A'). unfold Rabs in Y. destruct (Rcase_abs (f m' - F)); destruct Hc as [-> | ->]; lra. }
  assert (L1 := LOW 1%R (or_introl eq_refl)). assert (L2 := LOW (-1)%R (or_intror eq_refl)). unfold Rabs. destruct (Rcase_abs _); lra.
Qed.

Theorem sweeps_converge : forall m0 Om p f B n, sheet m0 -> all_partitions m0 Om -> (forall m, In m Om -> (p <= posterior_of Om m)%R) -> (0 < p)%R ->
  of_blocks m0 f -> (forall r, seat m0 r <> None -> observable m0 r) ->
  (forall m', In m' Om -> (Rabs (f m' - average Om f) <= B)%R) ->
  forall orders m, (forall o, In o orders -> order_of m0 o /\ List.length o = n /\ o <> []) -> arranged m0 m ->
  (Rabs (after (List.concat orders) f m - average Om f) <= (1 - p ^ n) ^ List.length orders * B)%R.
Proof.
  intros m0 Om p f B n S0 AP HP PP OF OBS BD. 
  assert (BD' : forall m', arranged m0 m' -> (Rabs (f m' - average Om f) <= B)%R).
  { intros m' A'. destruct (representative m0 Om m' AP A') as (x & Hx & Bx). rewrite <- (OF m' x A' (proj1 AP x Hx) Bx). apply BD. exact Hx. }
  clear BD. induction orders as [|o orders IH]; intros m HO A.
  - unfold after. cbn [List.concat rows_each expect fst List.length pow]. rewrite Rmult_1_l. apply BD'. exact A.
  - assert (MV : forall o', In o' (o :: orders) -> forall r, In r o' -> movable m0 r).
    { intros o' Ho' r Hr. destruct (HO o' Ho') as ((_ & FULL) & _). apply FULL in Hr. split; [exact Hr|apply OBS; exact Hr]. }
    assert (MC : forall r, In r (List.concat orders) -> movable m0 r).
    { intros r Hr. apply in_concat in Hr. destruct Hr as (o' & Ho' & Hr). apply (MV o'); [now right|exact Hr]. }
    assert (Mo := MV o (or_introl eq_refl)). destruct (HO o (or_introl eq_refl)) as (OO & LO & NO).
    assert (M0 : exists r, movable m0 r) by (destruct o as [|r l]; [congruence|]; exists r; apply Mo; now left). destruct M0 as (r0 & M0).
    cbn [List.concat]. rewrite (after_app m0 o (List.concat orders) f m S0 A).
    2: { intros r Hr. apply in_app_or in Hr. destruct Hr; auto. }
    set (g := after (List.concat orders) f).
    assert (OG : of_blocks m0 g) by (apply (after_blocks m0 Om); auto).
    assert (EA : average Om g = average Om f) by (rewrite !average_score; unfold g; rewrite (sweep_invariant m0 Om (List.concat orders) f S0 AP MC OF); reflexivity).
    assert (X := sweep_contracts m0 Om p g o m ((1 - p ^ n) ^ List.length orders * B) S0 AP HP PP Mo OO NO OG). rewrite EA, LO in X.
    cbn [List.length pow]. rewrite Rmult_assoc. apply X; [|exact A]. intros m' A'. apply IH; [|exact A']. intros o' Ho'. apply HO. now right.
Qed.
