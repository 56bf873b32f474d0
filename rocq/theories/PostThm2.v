(** Row transitions leave the posterior over partitions invariant: sums over partitions. *)
From Coq Require Import List ZArith QArith Qcanon Reals Bool String Permutation Lia Lra Sorted.
From Verif Require Import Base Xr Samp Lgamma Prims Cgpm Lib SpecPrims PrimsInv PrimsDens PrimsThm PrimsThm2
  SpecComp CompInv CompDens CompThm SpecBook Book SpecTable Trans SpecHist Table Gibbs Hist SimLaw ChainLaw SpecWalks WalksThm SpecSame SameThm SameHist SameRel SpecPost PostThm.
Import ListNotations.
Local Open Scope Z_scope.

(** ** Sums *)

Lemma rsum_match : forall {A B} (Rel : A -> B -> Prop) (F : A -> R) (G : B -> R) (Om : list B) (K : list A), NoDup K ->
  (forall b, In b Om -> exists a, In a K /\ Rel a b) -> (forall a, In a K -> exists b, In b Om /\ Rel a b) ->
  (forall a a' b, In a K -> In a' K -> In b Om -> Rel a b -> Rel a' b -> a = a') ->
  ForallOrdPairs (fun b b' => forall a, In a K -> Rel a b -> Rel a b' -> False) Om ->
  (forall a b, In a K -> In b Om -> Rel a b -> F a = G b) -> rsum (map F K) = rsum (map G Om).
Proof.
  intros A B Rel F G Om. induction Om as [|b Om IH]; intros K ND H1 H2 H3 H4 H5.
  - destruct K as [|a K]; [reflexivity|]. destruct (H2 a (or_introl eq_refl)) as (b & [] & _).
  - destruct (H1 b (or_introl eq_refl)) as (a & Ha & Rab). destruct (in_split a K Ha) as (l1 & l2 & ->).
    assert (P : Permutation (l1 ++ a :: l2) (a :: l1 ++ l2)) by (symmetry; apply Permutation_middle).
    rewrite (rsum_perm _ _ (Permutation_map F P)). cbn [map]. change (rsum (?x :: ?y)) with (x + rsum y)%R.
    inversion H4 as [|? ? H4a H4b]; subst. rewrite Forall_forall in H4a.
    assert (NI : ~ In a (l1 ++ l2) /\ NoDup (l1 ++ l2)) by (apply (Permutation_NoDup P) in ND; inversion ND; auto). destruct NI as [NI ND'].
    assert (SUB : forall x, In x (l1 ++ l2) -> In x (l1 ++ a :: l2)) by (intros x Hx; apply (Permutation_in x (Permutation_sym P)); now right).
    f_equal; [apply H5; [exact Ha|now left|exact Rab]|]. apply IH; [exact ND'| | | | |].
    + intros b' Hb'. destruct (H1 b' (or_intror Hb')) as (a' & Ha' & R'). exists a'. split; [|exact R'].
      apply (Permutation_in a' P) in Ha'. destruct Ha' as [<-|Ha']; [|exact Ha']. exfalso. exact (H4a b' Hb' a Ha Rab R').
    + intros a' Ha'. destruct (H2 a' (SUB a' Ha')) as (b' & Hb' & R'). destruct Hb' as [<-|Hb']; [|exists b'; auto].
      exfalso. apply NI. rewrite (H3 a a' b Ha (SUB a' Ha') (or_introl eq_refl) Rab R'). exact Ha'.
    + intros x x' b' Hx Hx' Hb'. apply H3; auto. now right.
    + clear - H4b SUB. induction H4b as [|b' l H1 H2 IH]; constructor; [|exact IH]. rewrite Forall_forall in *. intros c Hc a' Ha'. apply H1; auto.
    + intros x b' Hx Hb'. apply H5; auto. now right.
Qed.

Lemma rsum_filter_if : forall {A} (P : A -> bool) (F : A -> R) l, rsum (map F (filter P l)) = rsum (map (fun a => if P a then F a else 0%R) l).
Proof.
  intros A P F l. induction l as [|a l IH]; [reflexivity|]. cbn [filter map].
  destruct (P a); cbn [map]; unfold rsum in *; cbn [fold_right] in *; rewrite IH; lra.
Qed.

Lemma pairs_filter : forall {A} (Q : A -> A -> Prop) (P : A -> bool) l, ForallOrdPairs Q l -> ForallOrdPairs Q (filter P l).
Proof.
  intros A Q P l H. induction H as [|a l H1 H2 IH]; [constructor|]. cbn [filter]. destruct (P a); [|exact IH]. constructor; [|exact IH].
  rewrite Forall_forall in *. intros b Hb. apply filter_In in Hb. apply H1. tauto.
Qed.

Lemma pairs_imp : forall {A} (Q Q' : A -> A -> Prop) l, (forall a b, In a l -> In b l -> Q a b -> Q' a b) -> ForallOrdPairs Q l -> ForallOrdPairs Q' l.
Proof.
  intros A Q Q' l H F. induction F as [|a l F1 F2 IH]; [constructor|]. constructor.
  - rewrite Forall_forall in *. intros b Hb. apply H; [now left|now right|auto].
  - apply IH. intros x y Hx Hy. apply H; now right.
Qed.

(** ** Blocks *)

Lemma blocks_sym : forall m0 m m', arranged m0 m -> arranged m0 m' -> same_blocks m m' -> same_blocks m' m.
Proof.
  intros m0 m m' (_ & _ & _ & _ & N & _) (_ & _ & _ & _ & N' & _) B r r' H H'. symmetry. apply B; rewrite N, <- N'; assumption.
Qed.

Lemma blocks_trans : forall m0 a b c, arranged m0 a -> arranged m0 b -> same_blocks a b -> same_blocks b c -> same_blocks a c.
Proof.
  intros m0 a b c (_ & _ & _ & _ & N & _) (_ & _ & _ & _ & N' & _) B B' r r' H H'. rewrite <- (B r r' H H'). apply B'; rewrite N', <- N; assumption.
Qed.

Lemma arranged_uniform : forall m0 m m', arranged m0 m -> arranged m0 m' -> uniform m m'.
Proof.
  intros m0 m m' A A'.
  assert (F := uniform_fixed m0 m (arranged_wf m0 m A) (proj1 (proj2 A)) (proj1 (proj2 (proj2 (proj2 A))))).
  assert (F' := uniform_fixed m0 m' (arranged_wf m0 m' A') (proj1 (proj2 A')) (proj1 (proj2 (proj2 (proj2 A'))))).
  destruct F as (s & ix & bs & cs & r2i & r2c & -> & E1 & E2 & _). assert (X := F'). destruct X as (s' & ix' & bs' & cs' & r2i' & r2c' & -> & _).
  destruct (fixed_component _ _ _ _ _ _ F') as [P Q]. split; [congruence|]. intros k. rewrite Q, leaves_prod. symmetry. exact E2.
Qed.

Lemma exp_score_blocks : forall m0, sheet m0 -> of_blocks m0 exp_score.
Proof.
  intros m0 S0 m m' A A' B. unfold exp_score. destruct (arranged_columns m0 m S0 A) as (_ & EC & _).
  rewrite (renamed_score (naming m m') m m'); [reflexivity| | | | | | | | |].
  - exact (arranged_wf _ _ A).
  - exact (arranged_wf _ _ A').
  - apply A.
  - apply A'.
  - apply A.
  - apply A'.
  - exact (blocks_renamed m0 m m' A A' B EC).
  - exact (arranged_uniform m0 m m A A).
  - exact (arranged_uniform m0 m m' A A').
Qed.

Definition number (m : cgpm) (r : Z) : Z := match seat m r with Some (VQ q) => trunc q | _ => 0 end.

Lemma number_seat : forall m r r', consistent m -> seat m r <> None -> seat m r' <> None -> (number m r = number m r' <-> seat m r = seat m r').
Proof.
  intros m r r' K N N'. unfold number. destruct (seat m r) as [k|] eqn:E; [|congruence]. destruct (seat m r') as [k'|] eqn:E'; [|congruence].
  destruct (seat_label m r k K E) as (z & ->). destruct (seat_label m r' k' K E') as (z' & ->).
  change (match vz z with VQ q => trunc q | VNan => 0 end) with (trunc (qz z)). change (match vz z' with VQ q => trunc q | VNan => 0 end) with (trunc (qz z')).
  rewrite !trunc_qz. split; [intros ->; reflexivity|]. intros J. apply vz_inj. congruence.
Qed.

Lemma representative : forall m0 Om m, all_partitions m0 Om -> arranged m0 m -> exists m', In m' Om /\ same_blocks m m'.
Proof.
  intros m0 Om m (_ & _ & AL) (_ & _ & K & _ & N & _). destruct (AL (number m)) as (m' & Hm' & B). exists m'. split; [exact Hm'|].
  intros r r' H H'. rewrite B by (rewrite <- N; assumption). apply number_seat; assumption.
Qed.

(** The same rows are together, row [r] left out. *)
Definition off (r : Z) (m m' : cgpm) : Prop :=
  forall r1 r2, r1 <> r -> r2 <> r -> seat m r1 <> None -> seat m r2 <> None -> (seat m' r1 = seat m' r2 <-> seat m r1 = seat m r2).

Definition sameb (a b : option val) : bool := if seat_dec a b then true else false.
Definition offb (r : Z) (m m' : cgpm) : bool :=
  forallb (fun r1 => forallb (fun r2 => (r1 =? r) || (r2 =? r) || Bool.eqb (sameb (seat m r1) (seat m r2)) (sameb (seat m' r1) (seat m' r2))) (rows_of m)) (rows_of m).

Lemma sameb_iff : forall a b, sameb a b = true <-> a = b.
Proof. intros a b. unfold sameb. destruct (seat_dec a b); split; congruence. Qed.

Lemma offb_off : forall r m m', sheet m -> (offb r m m' = true <-> off r m m').
Proof.
  intros r m m' S. unfold offb, off. rewrite forallb_forall. split.
  - intros H r1 r2 N1 N2 H1 H2. apply (rows_seat m r1 S) in H1. apply (rows_seat m r2 S) in H2.
    specialize (H r1 H1). rewrite forallb_forall in H. specialize (H r2 H2). apply orb_true_iff in H. destruct H as [H|H].
    + apply orb_true_iff in H. destruct H as [H|H]; apply Z.eqb_eq in H; congruence.
    + apply Bool.eqb_prop in H. rewrite <- !sameb_iff, H. reflexivity.
  - intros H r1 H1. apply forallb_forall. intros r2 H2. apply (rows_seat m r1 S) in H1. apply (rows_seat m r2 S) in H2.
    destruct (Z.eqb_spec r1 r) as [|N1]; [reflexivity|]. destruct (Z.eqb_spec r2 r) as [|N2]; [reflexivity|]. cbn [orb].
    specialize (H r1 r2 N1 N2 H1 H2). rewrite <- !sameb_iff in H. apply Bool.eqb_true_iff.
    destruct (sameb (seat m r1) (seat m r2)), (sameb (seat m' r1) (seat m' r2)); try reflexivity; [symmetry; apply H; reflexivity|apply H; reflexivity].
Qed.

Lemma off_sym : forall m0 r m m', arranged m0 m -> arranged m0 m' -> off r m m' -> off r m' m.
Proof.
  intros m0 r m m' (_ & _ & _ & _ & N & _) (_ & _ & _ & _ & N' & _) B r1 r2 N1 N2 H H'. symmetry. apply B; auto; rewrite N, <- N'; assumption.
Qed.

Lemma off_trans : forall m0 r a b c, arranged m0 a -> arranged m0 b -> off r a b -> off r b c -> off r a c.
Proof.
  intros m0 r a b c (_ & _ & _ & _ & N & _) (_ & _ & _ & _ & N' & _) B B' r1 r2 N1 N2 H H'. rewrite <- (B r1 r2 N1 N2 H H'). apply B'; auto; rewrite N', <- N; assumption.
Qed.

Lemma off_blocks : forall r m m', same_blocks m m' -> off r m m'.
Proof. intros r m m' B r1 r2 _ _. apply B. Qed.

(** ** The law of one step, as a ratio of sums over partitions *)

Definition share (Om : list cgpm) (r : Z) (f : cgpm -> R) (m : cgpm) : R :=
  rsum (map (fun m' => if offb r m m' then (exp_score m' * f m')%R else 0%R) Om).

Lemma matched : forall m0 Om m r f K (mz : Z -> cgpm), sheet m0 -> all_partitions m0 Om -> arranged m0 m -> seat m0 r <> None -> of_blocks m0 f -> NoDup K ->
  (forall z, In z K -> arranged m0 (mz z) /\ seat (mz z) r = Some (vz z) /\ (forall r', r' <> r -> seat (mz z) r' = seat m r') /\ (0 < exp_score (mz z))%R) ->
  (forall z, elsewhere m r z -> In z K) -> (exists z, In z K /\ ~ elsewhere m r z) ->
  (forall z z', In z K -> In z' K -> ~ elsewhere m r z -> ~ elsewhere m r z' -> z = z') ->
  rsum (map (fun z => exp_score (mz z) * f (mz z))%R K) = share Om r f m.
Proof.
  intros m0 Om m r f K mz S0 AP A SE OF ND MZ EL FR FU. unfold share. rewrite <- (rsum_filter_if (offb r m) (fun m' => (exp_score m' * f m')%R)).
  assert (Sm : sheet m) by apply A.
  assert (OFFZ : forall z, In z K -> off r m (mz z)).
  { intros z Hz r1 r2 N1 N2 _ _. destruct (MZ z Hz) as (_ & _ & X & _). rewrite !X by assumption. reflexivity. }
  assert (IO : forall m', In m' Om -> arranged m0 m') by apply AP.
  assert (UN : forall z z' m', In z K -> In z' K -> arranged m0 m' -> same_blocks (mz z) m' -> same_blocks (mz z') m' -> z = z').
  { intros z z' m' Hz Hz' A' B B'. destruct (MZ z Hz) as (Az & Sz & Oz & _). destruct (MZ z' Hz') as (Az' & Sz' & Oz' & _).
    assert (BB : same_blocks (mz z) (mz z')) by (apply (blocks_trans m0 (mz z) m' (mz z')); auto; apply (blocks_sym m0 (mz z') m'); auto).
    assert (T : forall r', r' <> r -> seat m r' <> None -> (seat m r' = Some (vz z') <-> seat m r' = Some (vz z))).
    { intros r' NE Hr'. rewrite <- Sz, <- Sz', <- (Oz r' NE). rewrite (Oz r' NE). rewrite <- (Oz' r' NE) at 1. rewrite <- (Oz r' NE).
      apply BB; [rewrite (Oz r' NE); exact Hr'|rewrite Sz; discriminate]. }
    assert (DE : {exists r', In r' (rows_of m) /\ r' <> r /\ seat m r' = Some (vz z)} + {~ exists r', In r' (rows_of m) /\ r' <> r /\ seat m r' = Some (vz z)}).
    { destruct (Exists_dec (fun r' => r' <> r /\ seat m r' = Some (vz z)) (rows_of m)) as [E|E].
      - intros r'. destruct (Z.eq_dec r' r); [right; tauto|]. destruct (seat_dec (seat m r') (Some (vz z))); [left|right]; tauto.
      - left. apply Exists_exists in E. exact E.
      - right. intros J. apply E. apply Exists_exists. exact J. }
    destruct DE as [(r' & _ & NE & E)|NE].
    - apply vz_inj. assert (X : seat m r' = Some (vz z')) by (apply T; [exact NE|congruence|exact E]). congruence.
    - assert (Ez : ~ elsewhere m r z).
      { intros (r' & N' & E). apply NE. exists r'. split; [apply rows_seat; [exact Sm|congruence]|auto]. }
      apply FU; auto. intros (r' & N' & E). apply Ez. exists r'. split; [exact N'|]. apply T; [exact N'|congruence|exact E]. }
  apply (rsum_match (fun z m' => same_blocks (mz z) m')); [exact ND| | | | |].
  - intros m' Hm'. apply filter_In in Hm'. destruct Hm' as [Hm' OB]. apply (offb_off r m m' Sm) in OB. assert (A' := IO m' Hm').
    assert (RN : forall x r', arranged m0 x -> (seat x r' <> None <-> seat m0 r' <> None)) by (intros x r' (_ & _ & _ & _ & N & _); rewrite N; reflexivity).
    destruct (Exists_dec (fun r' => r' <> r /\ seat m' r' = seat m' r) (rows_of m')) as [E|E].
    { intros r'. destruct (Z.eq_dec r' r); [right; tauto|]. destruct (seat_dec (seat m' r') (seat m' r)); [left|right]; tauto. }
    + apply Exists_exists in E. destruct E as (r' & Hr' & NE & E). apply rows_seat in Hr'; [|apply A'].
      assert (Hm : seat m r' <> None) by (apply (RN m r' A), (RN m' r' A'); exact Hr').
      destruct (seat m r') as [k|] eqn:Ek; [|congruence]. destruct (seat_label m r' k (proj1 (proj2 (proj2 A))) Ek) as (z & ->).
      assert (Hz : In z K) by (apply EL; exists r'; auto). exists z. split; [exact Hz|]. destruct (MZ z Hz) as (Az & Sz & Oz & _).
      (* row r is with r' in both *)
      assert (X : forall r1, r1 <> r -> seat m r1 <> None -> (seat m' r1 = seat m' r <-> seat m r1 = Some (vz z))).
      { intros r1 N1 H1. rewrite <- E, <- Ek. apply OB; auto. congruence. }
      intros r1 r2 H1 H2. apply (RN _ _ Az), (RN m _ A) in H1. apply (RN _ _ Az), (RN m _ A) in H2.
      destruct (Z.eq_dec r1 r) as [->|N1], (Z.eq_dec r2 r) as [->|N2].
      * split; reflexivity.
      * rewrite Sz, (Oz r2 N2). split; intros Y; symmetry; apply X; auto.
      * rewrite Sz, (Oz r1 N1). apply X; auto.
      * rewrite (Oz r1 N1), (Oz r2 N2). apply OB; auto.
    + destruct FR as (z & Hz & Nz). exists z. split; [exact Hz|]. destruct (MZ z Hz) as (Az & Sz & Oz & _).
      assert (X : forall r1, r1 <> r -> seat m r1 <> None -> (seat m' r1 = seat m' r <-> seat m r1 = Some (vz z))).
      { intros r1 N1 H1. split; intros Y; exfalso; [|apply Nz; exists r1; auto]. apply E. apply Exists_exists. exists r1. split; [|auto].
        apply rows_seat; [apply A'|]. apply (RN m' r1 A'), (RN m r1 A). exact H1. }
      intros r1 r2 H1 H2. apply (RN _ _ Az), (RN m _ A) in H1. apply (RN _ _ Az), (RN m _ A) in H2.
      destruct (Z.eq_dec r1 r) as [->|N1], (Z.eq_dec r2 r) as [->|N2].
      * split; reflexivity.
      * rewrite Sz, (Oz r2 N2). split; intros Y; symmetry; apply X; auto.
      * rewrite Sz, (Oz r1 N1). apply X; auto.
      * rewrite (Oz r1 N1), (Oz r2 N2). apply OB; auto.
  - intros z Hz. destruct (MZ z Hz) as (Az & _). destruct (representative m0 Om (mz z) AP Az) as (m' & Hm' & B). exists m'. split; [|exact B].
    apply filter_In. split; [exact Hm'|]. apply (offb_off r m m' Sm). apply (off_trans m0 r m (mz z) m' A Az (OFFZ z Hz)). apply off_blocks. exact B.
  - intros z z' m' Hz Hz' Hm' B B'. apply filter_In in Hm'. apply (UN z z' m'); auto. apply IO. tauto.
  - apply (pairs_imp (fun m1 m2 => ~ same_blocks m1 m2)); [|apply pairs_filter; apply AP].
    intros m1 m2 H1 H2 NB z Hz B1 B2. apply filter_In in H1, H2. destruct (MZ z Hz) as (Az & _). apply NB.
    apply (blocks_trans m0 m1 (mz z) m2); [apply IO; tauto|exact Az| |exact B2]. apply (blocks_sym m0 (mz z) m1); [exact Az|apply IO; tauto|exact B1].
  - intros z m' Hz Hm' B. apply filter_In in Hm'. destruct (MZ z Hz) as (Az & _). assert (A' := IO m' (proj1 Hm')).
    rewrite (OF (mz z) m' Az A' B), (exp_score_blocks m0 S0 (mz z) m' Az A' B). reflexivity.
Qed.

Lemma one_blocks : forall m0, of_blocks m0 (fun _ => 1%R).
Proof. intros m0 m m' _ _ _. reflexivity. Qed.

Lemma step_share : forall m0 Om m r f, sheet m0 -> all_partitions m0 Om -> arranged m0 m -> seat m0 r <> None -> observable m0 r -> of_blocks m0 f ->
  finite_choices (transition_rows m r) /\ (0 < share Om r (fun _ => 1) m)%R /\
  expect (transition_rows m r) (fun x => f (fst x)) = (share Om r f m / share Om r (fun _ => 1) m)%R.
Proof.
  intros m0 Om m r f S0 AP A SE OB OF.
  destruct (step_law m0 m r S0 A SE OB) as (K & mz & ND & NE & MZ & EL & FR & FU & FC & EX).
  assert (X := matched m0 Om m r f K mz S0 AP A SE OF ND MZ EL FR FU).
  assert (X1 := matched m0 Om m r (fun _ => 1%R) K mz S0 AP A SE (one_blocks m0) ND MZ EL FR FU).
  rewrite (map_ext _ (fun z => exp_score (mz z))) in X1 by (intros; ring).
  split; [exact FC|]. split.
  - rewrite <- X1. apply rsum_pos; [exact NE|]. intros z Hz. apply MZ. exact Hz.
  - rewrite EX. cbn [fst]. rewrite X, X1. reflexivity.
Qed.

(** The law depends on which rows are together only. *)
Lemma share_off : forall m0 Om r f m m', all_partitions m0 Om -> arranged m0 m -> arranged m0 m' -> off r m m' -> share Om r f m' = share Om r f m.
Proof.
  intros m0 Om r f m m' (IO & _) A A' B. unfold share. f_equal. apply map_ext_in. intros x Hx. assert (Ax := IO x Hx).
  assert (E : offb r m' x = offb r m x).
  { apply Bool.eq_iff_eq_true. rewrite (offb_off r m' x) by apply A'. rewrite (offb_off r m x) by apply A. split; intros O.
    - apply (off_trans m0 r m m' x); auto.
    - apply (off_trans m0 r m' m x); auto. apply (off_sym m0 r m m'); auto. }
  rewrite E. reflexivity.
Qed.

Lemma step_blocks : forall m0 Om r f, sheet m0 -> all_partitions m0 Om -> seat m0 r <> None -> observable m0 r -> of_blocks m0 f ->
  of_blocks m0 (fun m => expect (transition_rows m r) (fun x => f (fst x))).
Proof.
  intros m0 Om r f S0 AP SE OB OF m m' A A' B. destruct (step_share m0 Om m r f S0 AP A SE OB OF) as (_ & _ & ->).
  destruct (step_share m0 Om m' r f S0 AP A' SE OB OF) as (_ & _ & ->). rewrite !(share_off m0 Om r _ m m' AP A A' (off_blocks r m m' B)). reflexivity.
Qed.

Theorem step_invariant : forall m0 Om r f, sheet m0 -> all_partitions m0 Om -> seat m0 r <> None -> observable m0 r -> of_blocks m0 f ->
  rsum (map (fun m => exp_score m * expect (transition_rows m r) (fun x => f (fst x)))%R Om) = rsum (map (fun m => exp_score m * f m)%R Om).
Proof.
  intros m0 Om r f S0 AP SE OB OF. assert (IO : forall m', In m' Om -> arranged m0 m') by apply AP.
  rewrite (map_ext_in _ (fun m => rsum (map (fun m' => if offb r m m' then (exp_score m * exp_score m' * f m' / share Om r (fun _ => 1%R) m)%R else 0%R) Om))).
  2: { intros m Hm. destruct (step_share m0 Om m r f S0 AP (IO m Hm) SE OB OF) as (_ & _ & ->). unfold share at 1, Rdiv.
       rewrite <- Rmult_assoc, (Rmult_comm _ (/ _)), <- Rmult_assoc. rewrite <- rsum_scale, map_map. f_equal. apply map_ext. intros m'. destruct (offb r m m'); ring. }
  rewrite (rsum_swap (fun m m' => if offb r m m' then (exp_score m * exp_score m' * f m' / share Om r (fun _ => 1%R) m)%R else 0%R) Om Om).
  f_equal. apply map_ext_in. intros m' Hm'. destruct (step_share m0 Om m' r f S0 AP (IO m' Hm') SE OB OF) as (_ & PO & _).
  rewrite (map_ext_in _ (fun m => (exp_score m' * f m' / share Om r (fun _ => 1%R) m' * (if offb r m' m then exp_score m * 1 else 0))%R)).
  2: { intros m Hm. destruct (offb r m m') eqn:E.
       - apply (offb_off r m m') in E; [|apply IO; exact Hm]. assert (E' := off_sym m0 r m m' (IO m Hm) (IO m' Hm') E).
         rewrite <- (share_off m0 Om r (fun _ => 1%R) m m' AP (IO m Hm) (IO m' Hm') E). apply (offb_off r m' m) in E'; [|apply IO; exact Hm']. rewrite E'. field. lra.
       - destruct (offb r m' m) eqn:E'; [|ring]. apply (offb_off r m' m) in E'; [|apply IO; exact Hm'].
         assert (X := off_sym m0 r m' m (IO m' Hm') (IO m Hm) E'). apply (offb_off r m m') in X; [congruence|apply IO; exact Hm]. }
  rewrite <- (map_map (fun m => if offb r m' m then (exp_score m * 1)%R else 0%R) (fun x => (exp_score m' * f m' / share Om r (fun _ => 1%R) m' * x)%R)), rsum_scale.
  fold (share Om r (fun _ => 1%R) m'). field. lra.
Qed.
