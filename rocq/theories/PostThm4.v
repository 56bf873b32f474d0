(** Every table has a list of all the partitions of its rows. *)
From Coq Require Import List ZArith QArith Qcanon Reals Bool String Permutation Lia Lra Sorted.
From Verif Require Import Base Xr Samp Lgamma Prims Cgpm Lib SpecPrims PrimsInv PrimsDens PrimsThm PrimsThm2
  SpecComp CompInv CompDens CompThm SpecBook Book SpecTable Trans SpecHist Table Gibbs Hist SimLaw ChainLaw ManyLaw5 SpecWalks WalksThm Crosscat SimShape ViewsThm CrosscatThm SpecCrosscat SpecSame SameThm SameHist SameRel SpecPost PostThm PostThm2 PostThm3.
Import ListNotations.
Local Open Scope Z_scope.

Lemma placed_exists : forall m0 a, sheet m0 -> arranged m0 m0 -> forall rids, NoDup rids -> (forall r, In r rids -> movable m0 r) -> exists m, placed m0 a rids m.
Proof.
  intros m0 a S0 A0 rids. induction rids as [|r rids IH]; intros ND M.
  - exists m0. split; [exact A0|]. split; intros r1 r2 [].
  - inversion ND as [|? ? N1 N2]; subst. destruct IH as (m & P); [exact N2|intros; apply M; now right|].
    destruct (placed_step m0 a rids m r S0 P (M r (or_introl eq_refl)) N1) as (K & mz & z & _ & _ & P' & _); [intros; apply M; now right|]. exists (mz z). exact P'.
Qed.

(** All the ways to give every element of [L] one of [K]. *)
Fixpoint all_maps (L K : list Z) : list (list (Z * Z)) :=
  match L with
  | [] => [[]]
  | r :: L => flat_map (fun k => map (cons (r, k)) (all_maps L K)) K
  end.

Lemma all_maps_In : forall L K g, (forall r, In r L -> In (g r) K) -> In (map (fun r => (r, g r)) L) (all_maps L K).
Proof.
  intros L K g. induction L as [|r L IH]; intros H; [now left|]. cbn [map all_maps]. apply in_flat_map. exists (g r).
  split; [apply H; now left|]. apply in_map. apply IH. intros r' Hr'. apply H. now right.
Qed.

Definition read (w : list (Z * Z)) (r : Z) : Z := match lookup r w with Some k => k | None => 0 end.

Lemma read_map : forall L g r, In r L -> read (map (fun r => (r, g r)) L) r = g r.
Proof.
  intros L g r. unfold read. induction L as [|x L IH]; intros H; [destruct H|]. cbn [map lookup]. destruct (eq_dec r x) as [->|N]; [reflexivity|].
  apply IH. destruct H as [->|H]; [congruence|exact H].
Qed.

(** The first element of [L] that [a] sends where it sends [r]. *)
Definition first_like (a : Z -> Z) (L : list Z) (r : Z) : Z := match find (fun x => a x =? a r) L with Some x => x | None => r end.

Lemma first_like_spec : forall a L r, In r L -> In (first_like a L r) L /\ a (first_like a L r) = a r.
Proof.
  intros a L r H. unfold first_like. destruct (find (fun x => a x =? a r) L) as [x|] eqn:E.
  - apply find_some in E. destruct E as [E1 E2]. apply Z.eqb_eq in E2. auto.
  - exfalso. assert (X := find_none _ _ E r H). cbn in X. rewrite Z.eqb_refl in X. discriminate.
Qed.

Lemma first_like_iff : forall a L r r', In r L -> In r' L -> (first_like a L r = first_like a L r' <-> a r = a r').
Proof.
  intros a L r r' H H'. split; intros E.
  - rewrite <- (proj2 (first_like_spec a L r H)), <- (proj2 (first_like_spec a L r' H')), E. reflexivity.
  - unfold first_like. rewrite E. destruct (find (fun x => a x =? a r') L) as [x|] eqn:EF; [reflexivity|].
    exfalso. assert (X := find_none _ _ EF r' H'). cbn in X. rewrite Z.eqb_refl in X. discriminate.
Qed.

Definition blocksb (m m' : cgpm) : bool :=
  forallb (fun r1 => forallb (fun r2 => Bool.eqb (sameb (seat m r1) (seat m r2)) (sameb (seat m' r1) (seat m' r2))) (rows_of m)) (rows_of m).

Lemma blocksb_iff : forall m m', sheet m -> (blocksb m m' = true <-> same_blocks m m').
Proof.
  intros m m' S. unfold blocksb, same_blocks. rewrite forallb_forall. split.
  - intros H r1 r2 H1 H2. apply (rows_seat m r1 S) in H1. apply (rows_seat m r2 S) in H2.
    specialize (H r1 H1). rewrite forallb_forall in H. specialize (H r2 H2). apply Bool.eqb_prop in H. rewrite <- !sameb_iff, H. reflexivity.
  - intros H r1 H1. apply forallb_forall. intros r2 H2. apply (rows_seat m r1 S) in H1. apply (rows_seat m r2 S) in H2.
    specialize (H r1 r2 H1 H2). rewrite <- !sameb_iff in H. apply Bool.eqb_true_iff.
    destruct (sameb (seat m r1) (seat m r2)), (sameb (seat m' r1) (seat m' r2)); try reflexivity; [symmetry; apply H; reflexivity|apply H; reflexivity].
Qed.

(** One of each. *)
Lemma representatives : forall m0 Ms, (forall m, In m Ms -> arranged m0 m) ->
  exists Om, (forall m, In m Om -> In m Ms) /\ ForallOrdPairs (fun m m' => ~ same_blocks m m') Om /\ forall m, In m Ms -> exists m', In m' Om /\ same_blocks m m'.
Proof.
  intros m0 Ms. induction Ms as [|m Ms IH]; intros H.
  - exists []. split; [intros m []|]. split; [constructor|intros m []].
  - destruct IH as (Om & O1 & O2 & O3); [intros; apply H; now right|]. assert (A : arranged m0 m) by (apply H; now left).
    assert (Sm : sheet m) by apply A. destruct (existsb (blocksb m) Om) eqn:E.
    + exists Om. split; [intros x Hx; right; auto|]. split; [exact O2|]. intros x [<-|Hx]; [|auto]. apply existsb_exists in E. destruct E as (x & Hx & B).
      exists x. split; [exact Hx|]. apply blocksb_iff; assumption.
    + exists (m :: Om). split; [intros x [<-|Hx]; [now left|right; auto]|]. split.
      * constructor; [|exact O2]. rewrite Forall_forall. intros x Hx B. apply (blocksb_iff m x Sm) in B.
        assert (X : existsb (blocksb m) Om = true) by (apply existsb_exists; exists x; auto). congruence.
      * intros x [<-|Hx]; [exists m; split; [now left|]; intros r1 r2 _ _; reflexivity|]. destruct (O3 x Hx) as (x' & Hx' & B). exists x'. split; [now right|exact B].
Qed.

Lemma finite_choice : forall {A B} (P : A -> B -> Prop) l, (forall a, In a l -> exists b, P a b) -> exists bs, Forall2 P l bs.
Proof.
  intros A B P l. induction l as [|a l IH]; intros H; [exists []; constructor|]. destruct (H a (or_introl eq_refl)) as (b & Hb).
  destruct IH as (bs & Hbs); [intros; apply H; now right|]. exists (b :: bs). constructor; assumption.
Qed.

Lemma F2_in_l : forall {A B} (P : A -> B -> Prop) l l' a, Forall2 P l l' -> In a l -> exists b, In b l' /\ P a b.
Proof. intros A B P l l' a F. induction F as [|x y l l' H F IH]; [intros []|]; intros [<-|J]; [exists y; split; [now left|exact H]|]. destruct (IH J) as (b & Hb & X). exists b. split; [now right|exact X]. Qed.
Lemma F2_in_r : forall {A B} (P : A -> B -> Prop) l l' b, Forall2 P l l' -> In b l' -> exists a, In a l /\ P a b.
Proof. intros A B P l l' b F. induction F as [|x y l l' H F IH]; [intros []|]; intros [<-|J]; [exists x; split; [now left|exact H]|]. destruct (IH J) as (a & Ha & X). exists a. split; [now right|exact X]. Qed.

Theorem partitions_exist : forall m0, sheet m0 -> arranged m0 m0 -> (forall r, seat m0 r <> None -> observable m0 r) -> exists Om, all_partitions m0 Om.
Proof.
  intros m0 S0 A0 OBS. set (L := nodup Z.eq_dec (rows_of m0)).
  assert (HL : forall r, In r L <-> seat m0 r <> None) by (intros r; unfold L; rewrite nodup_In; apply rows_seat; exact S0).
  assert (ML : forall r, In r L -> movable m0 r) by (intros r Hr; apply HL in Hr; split; [exact Hr|apply OBS; exact Hr]).
  destruct (finite_choice (fun w m => placed m0 (read w) L m) (all_maps L L)) as (Ms & F2).
  { intros w _. apply placed_exists; auto. apply NoDup_nodup. }
  assert (AM : forall m, In m Ms -> arranged m0 m) by (intros m Hm; destruct (F2_in_r _ _ _ m F2 Hm) as (w & _ & P & _); exact P).
  destruct (representatives m0 Ms AM) as (Om & O1 & O2 & O3). exists Om. split; [intros m Hm; apply AM, O1, Hm|]. split; [exact O2|].
  intros a. set (w := map (fun r => (r, first_like a L r)) L).
  assert (Hw : In w (all_maps L L)) by (apply all_maps_In; intros r Hr; apply first_like_spec; exact Hr).
  destruct (F2_in_l _ _ _ w F2 Hw) as (m & Hm & P0 & P1 & _). destruct (O3 m Hm) as (m' & Hm' & B). exists m'. split; [exact Hm'|].
  assert (N := proj1 (proj2 (proj2 (proj2 (proj2 P0))))).
  intros r r' H H'. rewrite (B r r') by (rewrite N; assumption). apply HL in H, H'. rewrite (P1 r r' H H'). unfold w. rewrite !read_map by assumption.
  apply first_like_iff; assumption.
Qed.

(** The least posterior probability. *)
Lemma least : forall {A} (q : A -> R) l, (forall a, In a l -> (0 < q a)%R) -> exists p, (0 < p <= 1)%R /\ forall a, In a l -> (p <= q a)%R.
Proof.
  intros A q l. induction l as [|a l IH]; intros H; [exists 1%R; split; [lra|intros a []]|].
  destruct IH as (p & P1 & P2); [intros; apply H; now right|]. assert (Q := H a (or_introl eq_refl)). exists (Rmin p (q a)).
  split; [unfold Rmin; destruct (Rle_dec p (q a)); lra|]. intros x [<-|Hx]; [apply Rmin_r|]. apply Rle_trans with p; [apply Rmin_l|apply P2, Hx].
Qed.

Lemma greatest : forall {A} (q : A -> R) l, exists B, (0 <= B)%R /\ forall a, In a l -> (q a <= B)%R.
Proof.
  intros A q l. induction l as [|a l IH]; [exists 0%R; split; [lra|intros a []]|]. destruct IH as (B & B1 & B2). exists (Rmax B (q a)).
  split; [apply Rle_trans with B; [exact B1|apply Rmax_l]|]. intros x [<-|Hx]; [apply Rmax_r|]. apply Rle_trans with B; [apply B2, Hx|apply Rmax_l].
Qed.
