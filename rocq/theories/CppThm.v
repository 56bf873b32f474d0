(** Proofs about taking over a structure found by the external engine. *)
From Coq Require Import List ZArith QArith Qcanon Reals Bool String Permutation Sorted Lia.
From Verif Require Import Base Xr Samp Lgamma Prims Cgpm Lib SpecPrims PrimsInv SpecComp CompInv CompDens CompThm SimShape
  SpecTable SpecHist Table Gibbs Hist PropTable Meta MetaThm Walks SpecWalks WalksThm Trans Views ViewsThm ViewsThm2 ViewsThm3 ViewsThm4 ViewsThm5
  Hypers SpecHypers Progress Crosscat CrosscatThm CrosscatThm2 CrosscatThm3 Cpp.
From Verif Require Import SpecViews SpecCrosscat SpecCpp.
Import ListNotations.
Local Open Scope Z_scope.

(** ** Outcomes *)

Lemma outcome_bind : forall {A B} (m : samp A) (f : A -> samp B) draws b, outcome (sbind m f) draws b ->
  exists d1 d2 a, draws = d1 ++ d2 /\ outcome m d1 a /\ outcome (f a) d2 b.
Proof.
  induction m as [x|ws k IH|l k IH|n p k IH|lo hi k IH|n k IH]; intros f draws b Hm; cbn [sbind outcome] in *.
  - exists [], draws, x. auto.
  - destruct Hm as (i & H1 & H2 & H3). destruct (IH i f draws b H3) as (d1 & d2 & a & E & O1 & O2). exists d1, d2, a. eauto 7.
  - destruct Hm as (q & H1 & H2). destruct (IH q f draws b H2) as (d1 & d2 & a & E & O1 & O2). exists d1, d2, a. eauto 7.
  - destruct Hm as (q & H2). destruct (IH q f draws b H2) as (d1 & d2 & a & E & O1 & O2). exists d1, d2, a. eauto 7.
  - destruct Hm as (z & rest & -> & H1 & H2). destruct (IH z f rest b H2) as (d1 & d2 & a & -> & O1 & O2). exists (z :: d1), d2, a.
    split; [reflexivity|]. split; [exists z, d1; auto|exact O2].
  - destruct Hm as (q & H1 & H2). destruct (IH q f draws b H2) as (d1 & d2 & a & E & O1 & O2). exists d1, d2, a. eauto 7.
Qed.

Lemma given_outcome : forall {A} (m : samp A) F P draws a, given F m P -> outcome m draws a -> (forall z, In z draws -> F z) -> P a.
Proof.
  induction m as [x|ws k IH|l k IH|n p k IH|lo hi k IH|n k IH]; intros F P draws a G O HF; cbn [given outcome] in *.
  - destruct O as [_ ->]. exact G.
  - destruct O as (i & H1 & H2 & H3). eapply (IH i F P draws a); eauto.
  - destruct O as (q & H1 & H2). eapply (IH q F P draws a); eauto.
  - destruct O as (q & H2). eapply (IH q F P draws a); eauto.
  - destruct O as (z & rest & -> & H1 & H2). eapply (IH z F P rest a); eauto.
    + apply G; [exact H1|]. apply HF. now left.
    + intros z0 Hz. apply HF. now right.
  - destruct O as (q & H1 & H2). eapply (IH q F P draws a); eauto.
Qed.

Lemma always_outcome : forall {A} (m : samp A) (P : A -> Prop), (forall draws a, outcome m draws a -> P a) -> always m P.
Proof.
  induction m as [x|ws k IH|l k IH|n p k IH|lo hi k IH|n k IH]; intros P G; cbn [always outcome] in *.
  - apply (G []). auto.
  - intros i H1 H2. apply IH. intros draws a O. apply (G draws). eauto.
  - intros q H1. apply IH. intros draws a O. apply (G draws). eauto.
  - intros q. apply IH. intros draws a O. apply (G draws). eauto.
  - intros z H1. apply IH. intros draws a O. apply (G (z :: draws)). eauto.
  - intros q H1. apply IH. intros draws a O. apply (G draws). eauto.
Qed.

(** ** Blocks *)

Lemma enum_from_In : forall {A} (l : list A) i n x, In (n, x) (enum_from i l) <-> exists j, n = (i + j)%nat /\ nth_error l j = Some x.
Proof.
  induction l as [|a l IH]; intros i n x; cbn [enum_from In].
  - split; [intros []|intros (j & _ & E); destruct j; discriminate].
  - rewrite IH. split.
    + intros [E|(j & -> & E)]; [injection E as <- <-; exists 0%nat; split; [lia|reflexivity]|exists (S j); split; [lia|exact E]].
    + intros (j & -> & E). destruct j as [|j]; [left; injection E as <-; f_equal; lia|right; exists j; split; [lia|exact E]].
Qed.

Lemma enum_from_NoDup : forall {A} (l : list A) i, NoDup (map fst (enum_from i l)).
Proof.
  induction l as [|a l IH]; intros i; cbn [enum_from map fst]; constructor; [|apply IH]. intros Y. apply in_map_iff in Y.
  destruct Y as ([n x] & E & Hn). cbn in E. subst n. apply enum_from_In in Hn. destruct Hn as (j & E & _). lia.
Qed.

Lemma block_of_In : forall {A} `{EqDec A} (u : A) l i, In i (block_of u l) <-> nth_error l i = Some u.
Proof.
  intros A D u l i. unfold block_of. rewrite in_map_iff. split.
  - intros ([n x] & E & Hn). cbn in E. subst n. apply filter_In in Hn. destruct Hn as [Hn E]. apply enum_from_In in Hn. destruct Hn as (j & -> & Ej).
    cbn in E. unfold eqb in E. destruct (eq_dec x u) as [->|]; [exact Ej|discriminate].
  - intros E. exists (i, u). split; [reflexivity|]. apply filter_In. split; [apply enum_from_In; exists i; auto|]. cbn. unfold eqb. destruct (eq_dec u u); congruence.
Qed.

Lemma NoDup_map_filter : forall {A B} (f : A -> B) (g : A -> bool) l, NoDup (map f l) -> NoDup (map f (filter g l)).
Proof.
  induction l as [|a l IH]; intros ND; cbn [filter map]; [constructor|]. cbn [map] in ND. inversion ND as [|? ? N ND']; subst. destruct (g a); [|auto]. cbn [map].
  constructor; [|auto]. intros Y. apply N. apply in_map_iff in Y. destruct Y as (x & E & Hx). apply filter_In in Hx. apply in_map_iff. exists x. tauto.
Qed.

Lemma block_of_NoDup : forall {A} `{EqDec A} (u : A) l, NoDup (block_of u l).
Proof. intros A D u l. unfold block_of. apply NoDup_map_filter. apply enum_from_NoDup. Qed.

(** ** Seating the rows of one view *)

Lemma join_rows_ok : forall rs v r0, good v -> seat v r0 <> None -> (forall r, In r rs -> seat v r <> None) -> ~ In r0 rs ->
  exists v', join_rows v r0 rs = Ret (v', Ok tt) /\ good v' /\ same_cells v v' /\ (forall r, ~ In r rs -> seat v' r = seat v r) /\
    forall r, In r rs -> seat v' r = seat v r0.
Proof.
  induction rs as [|r rs IH]; intros v r0 G S0 SR N; cbn [join_rows].
  { exists v. split; [reflexivity|]. split; [exact G|]. split; [apply same_cells_refl|]. split; [reflexivity|intros r []]. }
  assert (NR : r0 <> r) by (intros ->; apply N; now left).
  destruct (join_one v r (Some r0) G (SR r (or_introl eq_refl))) as (v1 & E & G1 & C1 & O1 & J1).
  { intros r1 [= <-]. split; [exact S0|congruence]. }
  rewrite E. cbn [sbind fst snd]. destruct (IH v1 r0 G1) as (v2 & E2 & G2 & C2 & O2 & J2).
  - rewrite O1 by congruence. exact S0.
  - intros r1 H1. destruct (Z.eq_dec r1 r) as [->|NE]; [rewrite J1; exact S0|]. rewrite O1 by exact NE. apply SR. now right.
  - intros Y. apply N. now right.
  - exists v2. split; [exact E2|]. split; [exact G2|]. split; [eapply same_cells_trans; eassumption|]. split.
    + intros r1 H1. rewrite O2 by (intros Y; apply H1; now right). apply O1. intros ->. apply H1. now left.
    + intros r1 H1. destruct (in_dec Z.eq_dec r1 rs) as [Y|Y].
      * rewrite (J2 r1 Y). apply O1. exact NR.
      * destruct H1 as [<-|H1]; [|contradiction]. rewrite O2 by exact Y. exact J1.
Qed.

(** The rows of a block. *)
Definition at_rows (rowids : list Z) (b : list nat) (R : list Z) : Prop :=
  oseq (map (fun i => match nth_error rowids i with Some r => Ok r | None => Err KeyError end) b) = Ok R.

Definition own_cluster (v : cgpm) (R : list Z) : Prop := exists k, (forall r, In r R -> seat v r = Some k) /\ forall r, seat v r = Some k -> In r R.

Lemma seat_blocks_ok : forall rowids blocks Rs v, good v -> Forall2 (at_rows rowids) blocks Rs -> (forall R, In R Rs -> R <> []) ->
  NoDup (List.concat Rs) -> (forall r, In r (List.concat Rs) -> seat v r <> None) ->
  exists v', seat_blocks v rowids blocks = Ret (v', Ok tt) /\ good v' /\ same_cells v v' /\ (forall r, ~ In r (List.concat Rs) -> seat v' r = seat v r) /\
    forall R, In R Rs -> own_cluster v' R.
Proof.
  intros rowids blocks Rs v G F. revert v G. induction F as [|b R blocks Rs HR F IH]; intros v G NE ND SR; cbn [seat_blocks].
  { exists v. split; [reflexivity|]. split; [exact G|]. split; [apply same_cells_refl|]. split; [reflexivity|intros R []]. }
  unfold at_rows in HR. rewrite HR. cbn [List.concat] in ND, SR. assert (NER := NE R (or_introl eq_refl)). destruct R as [|r0 rs]; [congruence|]. clear NER.
  destruct (join_one v r0 None G) as (v1 & E1 & G1 & C1 & O1 & k & K1 & K2); [apply SR; now left|intros r [=]|].
  rewrite E1. cbn [sbind fst snd]. cbn [app] in ND, SR. inversion ND as [|x xs N0 ND0]; subst x xs. assert (ND1 := NoDup_app_parts _ _ ND0).
  assert (SR1 : forall r, In r (rs ++ List.concat Rs) -> seat v1 r <> None).
  { intros r Hr. rewrite O1 by (intros ->; contradiction). apply SR. now right. }
  destruct (join_rows_ok rs v1 r0 G1) as (v2 & E2 & G2 & C2 & O2 & J2).
  - rewrite K1. discriminate.
  - intros r Hr. apply SR1. apply in_or_app. now left.
  - intros Y. apply N0. apply in_or_app. now left.
  - rewrite E2. cbn [sbind fst snd]. destruct (IH v2 G2) as (v3 & E3 & G3 & C3 & O3 & J3).
    + intros R HR'. apply NE. now right.
    + apply ND1.
    + intros r Hr. rewrite O2. { apply SR1. apply in_or_app. now right. }
      intros Y. apply (NoDup_app_disj _ _ ND0 r Y Hr).
    + exists v3. split; [exact E3|]. split; [exact G3|]. split; [eapply same_cells_trans; [exact C1|]; eapply same_cells_trans; eassumption|]. 
      assert (B2 : forall r, In r (r0 :: rs) -> seat v2 r = Some k).
      { intros r [<-|Hr]; [|rewrite (J2 r Hr); exact K1]. rewrite O2; [exact K1|]. intros Y. apply N0. apply in_or_app. now left. }
      assert (B3 : forall r, seat v2 r = Some k -> In r (r0 :: rs)).
      { intros r Hr. destruct (in_dec Z.eq_dec r rs) as [Y|Y]; [now right|]. rewrite O2 in Hr by exact Y. left. symmetry. apply K2. exact Hr. }
      assert (DJ : forall r, In r (r0 :: rs) -> ~ In r (List.concat Rs)).
      { intros r [<-|Hr] Y; [apply N0; apply in_or_app; now right|]. apply (NoDup_app_disj _ _ ND0 r Hr Y). }
      split.
      * intros r Hr. rewrite O3 by (intros Y; apply Hr; cbn [List.concat app]; right; apply in_or_app; now right).
        rewrite O2 by (intros Y; apply Hr; cbn [List.concat app]; right; apply in_or_app; now left). apply O1. intros ->. apply Hr. now left.
      * intros R [<-|HR']; [|exact (J3 R HR')]. exists k. split.
        -- intros r Hr. rewrite O3 by (apply DJ; exact Hr). apply B2. exact Hr.
        -- intros r Hr. destruct (in_dec Z.eq_dec r (List.concat Rs)) as [Y|Y]; [|apply B3; rewrite <- O3 by exact Y; exact Hr].
           exfalso. apply in_concat in Y. destruct Y as (R & HR' & Hr'). destruct (J3 R HR') as (k' & L1 & L2). rewrite (L1 r Hr') in Hr. injection Hr as ->.
           apply (DJ r0 (or_introl eq_refl)). apply in_concat. exists R. split; [exact HR'|]. apply L2. rewrite O3 by (apply DJ; now left). apply B2. now left.
Qed.

Lemma NoDup_flat_map : forall {A B} (f : A -> list B) us, NoDup us -> (forall u, In u us -> NoDup (f u)) ->
  (forall u v x, In u us -> In v us -> In x (f u) -> In x (f v) -> u = v) -> NoDup (flat_map f us).
Proof.
  induction us as [|u us IH]; intros ND Hf Hd; cbn [flat_map]; [constructor|]. inversion ND as [|? ? N ND']; subst. apply NoDup_app_intro.
  - apply Hf. now left.
  - apply IH; [exact ND'|intros; apply Hf; now right|]. intros a b x Ha Hb. apply Hd; now right.
  - intros x H1 H2. apply in_flat_map in H2. destruct H2 as (v & Hv & Hx). apply N. rewrite (Hd u v x); auto; [now left|now right].
Qed.

(** The members of a block of [part] among the [names]. *)
Definition named (names : list Z) (part : list Z) (u : Z) : list Z := map (fun i => nth i names 0) (block_of u part).

Lemma nth_error_combine : forall {A B} (l : list A) (l' : list B) i a b, nth_error l i = Some a -> nth_error l' i = Some b -> In (a, b) (combine l l').
Proof.
  induction l as [|x l IH]; intros l' i a b E E'; [destruct i; discriminate|]. destruct l' as [|y l']; [destruct i; discriminate|]. destruct i as [|i]; cbn in E, E' |- *.
  - left. congruence.
  - right. eapply IH; eassumption.
Qed.

Lemma combine_nth_error : forall {A B} (l : list A) (l' : list B) a b, In (a, b) (combine l l') -> exists i, nth_error l i = Some a /\ nth_error l' i = Some b.
Proof.
  induction l as [|x l IH]; intros l' a b Y; [destruct Y|]. destruct l' as [|y l']; [destruct Y|]. cbn [combine In] in Y. destruct Y as [E|Y].
  - injection E as <- <-. exists 0%nat. auto.
  - destruct (IH l' a b Y) as (i & E1 & E2). exists (S i). auto.
Qed.

Lemma named_In : forall names part u r, List.length part = List.length names -> (In r (named names part u) <-> In (r, u) (combine names part)).
Proof.
  intros names part u r L. unfold named. rewrite in_map_iff. split.
  - intros (i & E & Hi). apply block_of_In in Hi. assert (i < List.length part)%nat by (apply nth_error_Some; congruence).
    eapply nth_error_combine; [|exact Hi]. rewrite <- E. apply nth_error_nth'. lia.
  - intros Y. apply combine_nth_error in Y. destruct Y as (i & E1 & E2). exists i. split; [apply nth_error_nth; exact E1|]. apply block_of_In. exact E2.
Qed.

Lemma named_at : forall names part u, List.length part = List.length names -> at_rows names (block_of u part) (named names part u).
Proof.
  intros names part u L. unfold at_rows, named. assert (B : forall i, In i (block_of u part) -> (i < List.length names)%nat).
  { intros i Hi. apply block_of_In in Hi. rewrite <- L. apply nth_error_Some. congruence. }
  induction (block_of u part) as [|i b IH]; [reflexivity|]. cbn [map oseq]. rewrite (nth_error_nth' names 0) by (apply B; now left).
  rewrite IH by (intros; apply B; now right). reflexivity.
Qed.

Lemma combine_functional : forall (names part : list Z) r u v, NoDup names -> In (r, u) (combine names part) -> In (r, v) (combine names part) -> u = v.
Proof.
  intros names part r u v ND H1 H2. apply combine_nth_error in H1, H2. destruct H1 as (i & E1 & F1), H2 as (j & E2 & F2).
  assert (i = j); [|congruence]. apply (proj1 (NoDup_nth_error names) ND); [apply nth_error_Some; congruence|congruence].
Qed.

Lemma named_NoDup : forall names part u, NoDup names -> List.length part = List.length names -> NoDup (named names part u).
Proof.
  intros names part u ND L. unfold named. assert (B : forall i, In i (block_of u part) -> (i < List.length names)%nat).
  { intros i Hi. apply block_of_In in Hi. rewrite <- L. apply nth_error_Some. congruence. }
  assert (NB := block_of_NoDup u part). induction (block_of u part) as [|i b IH]; cbn [map]; [constructor|]. inversion NB as [|? ? N NB']; subst. constructor.
  - intros Y. apply in_map_iff in Y. destruct Y as (j & E & Hj). apply N. replace i with j; [exact Hj|].
    apply (proj1 (NoDup_nth names 0) ND); [apply B; now right|apply B; now left|exact E].
  - apply IH; [intros; apply B; now right|exact NB'].
Qed.

Lemma named_concat : forall names part us, NoDup names -> List.length part = List.length names -> NoDup us -> NoDup (List.concat (map (named names part) us)).
Proof.
  intros names part us ND L NU. rewrite <- flat_map_concat_map. apply NoDup_flat_map; [exact NU|intros; apply named_NoDup; assumption|].
  intros u v x _ _ H1 H2. apply named_In in H1; [|exact L]. apply named_In in H2; [|exact L]. apply (combine_functional names part x); assumption.
Qed.

(** The rows [rowids] are in the clusters numbered by [part]. *)
Definition parted (rowids part : list Z) (m : cgpm) : Prop :=
  forall r k r' l, In (r, k) (combine rowids part) -> In (r', l) (combine rowids part) -> seat m r <> None /\ (seat m r = seat m r' <-> k = l).

Lemma seat_partition : forall order rowids part v, good v -> NoDup rowids -> List.length part = List.length rowids ->
  (forall l, NoDup (order l) /\ forall z : Z, In z (order l) <-> In z l) -> (forall r, In r rowids -> seat v r <> None) ->
  exists v', seat_blocks v rowids (partition_assignments_to_blocks order part) = Ret (v', Ok tt) /\ good v' /\ same_cells v v' /\ parted rowids part v'.
Proof.
  intros order rowids part v G ND L OR SR. destruct (OR part) as [NO IO].
  destruct (seat_blocks_ok rowids (partition_assignments_to_blocks order part) (map (named rowids part) (order part)) v G) as (v' & E & G' & C' & _ & J).
  - unfold partition_assignments_to_blocks. clear - L. induction (order part) as [|u us IH]; cbn [map]; constructor; [apply named_at; exact L|exact IH].
  - intros R HR. apply in_map_iff in HR. destruct HR as (u & <- & Hu). apply IO in Hu. apply In_nth_error in Hu. destruct Hu as (i & Ei).
    assert (Hi : In i (block_of u part)) by (apply block_of_In; exact Ei). unfold named. destruct (block_of u part); [destruct Hi|discriminate].
  - apply named_concat; assumption.
  - intros r Hr. apply SR. apply in_concat in Hr. destruct Hr as (R & HR & Hr). apply in_map_iff in HR. destruct HR as (u & <- & _).
    apply named_In in Hr; [|exact L]. apply in_combine_l in Hr. exact Hr.
  - exists v'. split; [exact E|]. split; [exact G'|]. split; [exact C'|]. intros r k r' l H1 H2.
    assert (K : forall r k, In (r, k) (combine rowids part) -> In (named rowids part k) (map (named rowids part) (order part)) /\ In r (named rowids part k)).
    { intros r1 k1 Y. split; [apply in_map; apply IO; eapply in_combine_r; exact Y|apply named_In; assumption]. }
    destruct (K r k H1) as [K1 K2]. destruct (K r' l H2) as [K3 K4]. destruct (J _ K1) as (c & A1 & A2). destruct (J _ K3) as (c' & B1 & B2).
    rewrite (A1 r K2), (B1 r' K4). split; [discriminate|]. split.
    + intros [= ->]. assert (Y := B2 r (A1 r K2)). apply named_In in Y; [|exact L]. eapply combine_functional; [exact ND|exact H1|exact Y].
    + intros ->. rewrite <- (A1 r' K4). rewrite (B1 r' K4). reflexivity.
Qed.

(** ** Moving the columns of a block together *)

Lemma regrouped_incl : forall outs outs' X X', incl outs outs' -> regrouped outs X X' -> regrouped outs' X X'.
Proof.
  intros outs outs' X X' IN (Q1 & Q2 & Q3 & Q4 & Q5 & Q6). repeat (split; [assumption|]). split.
  - intros v w Hv Hw. apply Q5; intros Y; [apply Hv|apply Hw]; apply IN; exact Y.
  - intros m v Hm Hv NV. apply (Q6 m v Hm Hv). intros Y. apply NV. apply IN. exact Y.
Qed.

Lemma labelled_trans : forall (F G H : Z -> Prop) X Y W, labelled F X Y -> labelled G Y W -> (forall z, F z \/ G z -> H z) -> labelled H X W.
Proof. intros F G H X Y W A B C z Hz. destruct (B z Hz) as [Y0|Y0]; [|auto]. destruct (A z Y0) as [Y1|Y1]; auto. Qed.

Lemma together_sym : forall X v w, together X v w -> together X w v.
Proof. intros X v w (m & H1 & H2 & H3). exists m. auto. Qed.

Lemma same_view : forall X m m' o, crosscat X -> In m X -> In m' X -> In o (columns_of m) -> In o (columns_of m') -> m' = m.
Proof.
  intros X m m' o C Hm Hm' Ho Ho'. destruct (in_split _ _ Hm) as (l & r & E). rewrite E in *. assert (N := one_view l m r m' o C).
  assert (G := crosscat_views _ m C Hm). assert (G' := crosscat_views _ m' C Hm').
  apply in_app_or in Hm'. cbn [In] in Hm'. destruct Hm' as [Y|[Y|Y]]; [|auto|]; exfalso; apply N; try (apply column_output; [apply G|exact Ho]);
    try (apply column_output; [apply G'|exact Ho']); apply in_or_app; auto.
Qed.

Lemma together_trans : forall X u v w, crosscat X -> together X u v -> together X v w -> together X u w.
Proof. intros X u v w C (m & H1 & H2 & H3) (m' & H4 & H5 & H6). assert (m' = m) by (eapply same_view; eauto). subst m'. exists m. auto. Qed.

Lemma join_columns_ok : forall rest Y o0, crosscat Y -> complete Y -> In o0 (flat_map columns_of Y) -> ~ In o0 rest ->
  (forall o, In o rest -> In o (flat_map columns_of Y)) ->
  exists Y', join_columns (CProd Y) o0 rest = Ret (Ok (CProd Y')) /\ regrouped rest Y Y' /\ labelled (fun _ => False) Y Y' /\
    forall v, together Y' o0 v <-> together Y o0 v \/ In v rest.
Proof.
  induction rest as [|o rest IH]; intros Y o0 C CM H0 N HR; cbn [join_columns].
  { exists Y. split; [reflexivity|]. split; [apply regrouped_refl; exact C|]. split; [now left|]. intros v. cbn [In]. tauto. }
  assert (NE : o0 <> o) by (intros ->; apply N; now left).
  destruct (proj1 (in_flat_map _ _ _) (HR o (or_introl eq_refl))) as (m & Hm & Ho).
  destruct (proj1 (in_flat_map _ _ _) H0) as (w & Hw & Ho0).
  destruct (set_existing_main Y o o0 m w C Hm Ho Hw Ho0) as (Y1 & E1 & RA & TG & LB).
  { intros r x Ex. apply (complete_aligned Y [o] C CM r o x); [now left|exists m; auto|exact Hw]. }
  rewrite E1. cbn [sbind fst snd]. assert (RG := reassigned_regrouped _ _ _ RA). destruct RA as (C1 & P1 & _ & _ & _ & TR & _).
  destruct (IH Y1 o0 C1) as (Y2 & E2 & RG2 & LB2 & TG2).
  - eapply regrouped_complete; eassumption.
  - apply (Permutation_in _ (Permutation_sym P1)). exact H0.
  - intros Z0. apply N. now right.
  - intros v Hv. apply (Permutation_in _ (Permutation_sym P1)). apply HR. now right.
  - exists Y2. split; [exact E2|]. split.
    { apply (regrouped_trans (o :: rest) [o] _ Y1); [intros x [<-|[]]; now left|exact RG|]. eapply regrouped_incl; [|exact RG2]. intros x Hx. now right. }
    split; [eapply labelled_trans; [exact LB|exact LB2|tauto]|]. intros v. rewrite TG2. cbn [In]. destruct (Z.eq_dec v o) as [->|NV].
    + split; [tauto|]. intros _. left. apply together_sym. exact TG.
    + rewrite (TR o0 v) by (intros [Z0|[]]; congruence). split; [tauto|]. intros [A|[A|A]]; [tauto|congruence|tauto].
Qed.

(** The columns [os] make up a view, and its rows are in the clusters numbered by [part]. *)
Definition placed (rowids : list Z) (os part : list Z) (Y : list cgpm) : Prop :=
  (forall o v, In o os -> (together Y o v <-> In v os)) /\
  (forall m o, In m Y -> In o os -> In o (columns_of m) -> parted rowids part m).

Lemma labels_outputs : forall F X X' z, crosscat X -> crosscat X' -> Permutation (flat_map columns_of X') (flat_map columns_of X) -> labelled F X X' ->
  In z (flat_map outputs X') -> In z (flat_map outputs X) \/ F z.
Proof.
  intros F X X' z C C' P LB Hz. apply in_flat_map in Hz. destruct Hz as (m & Hm & Hz). rewrite (sheet_outputs m) in Hz by apply (crosscat_views _ m C' Hm).
  destruct Hz as [<-|Hz].
  - destruct (LB (label_of m)) as [Y|Y]; [apply in_map; exact Hm| |now right]. left. apply in_map_iff in Y. destruct Y as (x & E & Hx). apply in_flat_map. exists x.
    split; [exact Hx|]. rewrite (sheet_outputs x) by apply (crosscat_views _ x C Hx). now left.
  - left. assert (Y : In z (flat_map columns_of X)) by (apply (Permutation_in _ P); apply in_flat_map; eauto). apply in_flat_map in Y. destruct Y as (x & Hx & Hzx).
    apply in_flat_map. exists x. split; [exact Hx|]. apply column_output; [apply (crosscat_views _ x C Hx)|exact Hzx].
Qed.

Lemma replace_view : forall l m m' r os, crosscat (l ++ m :: r) -> good m' -> same_cells m m' -> (forall v, In v (columns_of m) -> In v os) ->
  regrouped os (l ++ m :: r) (l ++ m' :: r) /\ labelled (fun _ => False) (l ++ m :: r) (l ++ m' :: r) /\
  (forall v w, together (l ++ m' :: r) v w <-> together (l ++ m :: r) v w).
Proof.
  intros l m m' r os C G SC HO. assert (SD : same_data (l ++ m :: r) (l ++ m' :: r)).
  { apply replaced; [exact C|]. apply Forall2_app; [|constructor; [split; assumption|]]; apply F2_same; intros y Hy; (split; [|apply same_cells_refl]); apply C; apply in_or_app; cbn; tauto. }
  assert (EC : columns_of m' = columns_of m) by apply SC.
  assert (TG : forall v w, together (l ++ m' :: r) v w <-> together (l ++ m :: r) v w).
  { intros v w. unfold together. split; intros (x & Hx & A & B); apply in_app_or in Hx; cbn [In] in Hx.
    - destruct Hx as [Hx|[<-|Hx]]; [exists x|exists m; rewrite <- EC|exists x]; (split; [apply in_or_app; cbn; tauto|auto]).
    - destruct Hx as [Hx|[<-|Hx]]; [exists x|exists m'; rewrite EC|exists x]; (split; [apply in_or_app; cbn; tauto|auto]). }
  destruct SD as (C' & P' & Hh & Ht). split; [|split; [|exact TG]].
  - repeat (split; [assumption|]). split; [intros v w _ _; apply TG|]. intros x v Hx Hv NV. exists x. split; [|auto].
    apply in_app_or in Hx. cbn [In] in Hx. apply in_or_app. cbn. destruct Hx as [Hx|[<-|Hx]]; [tauto| |tauto]. exfalso. apply NV. apply HO. exact Hv.
  - intros z Hz. left. rewrite map_app in *. cbn [map] in *. assert (GM : good m) by (apply (crosscat_views _ m C); apply in_or_app; right; now left).
    assert (EL : label_of m' = label_of m).
    { destruct SC as (EO & _). rewrite (sheet_outputs m') in EO by apply G. rewrite (sheet_outputs m) in EO by apply GM. now injection EO. }
    rewrite EL in Hz. exact Hz.
Qed.

(** ** All blocks *)

Lemma realise_ok : forall order outs rowids, (forall l, NoDup (order l) /\ forall z : Z, In z (order l) <-> In z l) -> NoDup rowids ->
  forall blocks Os, Forall2 (fun (b : list nat * list Z) os => at_rows outs (fst b) os) blocks Os ->
  forall Y, crosscat Y -> complete Y -> (forall os, In os Os -> os <> []) -> NoDup (List.concat Os) ->
  (forall o, In o (List.concat Os) -> In o (flat_map columns_of Y)) ->
  (forall b, In b blocks -> List.length (snd b) = List.length rowids) ->
  (forall r, In r rowids -> exists v x, holds Y r v x) ->
  forall draws res, outcome (realise order (CProd Y) outs rowids blocks) draws res ->
    (forall c, res = Ok c -> exists Y', c = CProd Y' /\ regrouped (List.concat Os) Y Y' /\ Forall2 (fun b os => placed rowids os (snd b) Y') blocks Os) /\
    (NoDup draws -> (forall z, In z draws -> ~ In z (flat_map outputs Y)) -> exists c, res = Ok c).
Proof.
  intros order outs rowids OR NR blocks Os F. induction F as [|[b part] os blocks Os HB F IH]; intros Y C CM NE ND HO HL HR draws res OC; cbn [realise] in OC.
  { cbn [outcome] in OC. destruct OC as [-> ->]. split; [|eauto]. intros c [= <-]. exists Y. split; [reflexivity|]. split; [apply regrouped_refl; exact C|constructor]. }
  cbn [fst] in HB. unfold at_rows in HB. rewrite HB in OC. assert (NEO := NE os (or_introl eq_refl)). destruct os as [|o0 os]; [congruence|]. clear NEO.
  cbn [List.concat] in ND, HO. assert (ND0 := ND). apply NoDup_app_parts in ND0. destruct ND0 as [NDo NDr]. inversion NDo as [|x xs N0 ND1]; subst x xs.
  assert (H0 : In o0 (flat_map columns_of Y)) by (apply HO; now left).
  destruct (proj1 (in_flat_map _ _ _) H0) as (m & Hm & Hom).
  apply outcome_bind in OC. destruct OC as (d1 & d2 & p & -> & O1 & O2).
  assert (S1 := given_outcome _ _ _ d1 p (set_singleton_main (fun z => In z d1) Y o0 m C Hm Hom) O1 (fun z Hz => Hz)).
  destruct p as [c0 res1]. cbn [fst snd] in *. destruct S1 as (_ & A1 & A2). destruct res1 as [c1|e].
  2:{ cbn [outcome] in O2. destruct O2 as [-> ->]. split; [discriminate|]. intros NDd FR. rewrite app_nil_r in FR. destruct (A2 FR) as [c Ec]. discriminate. }
  destruct (A1 c1 eq_refl) as (Y1 & -> & RA1 & AL1 & LB1). clear A1 A2. assert (RG1 := reassigned_regrouped _ _ _ RA1).
  assert (RG1' := RG1). destruct RG1' as (C1 & P1 & _). assert (CM1 := regrouped_complete _ _ _ RG1 CM).
  destruct (join_columns_ok os Y1 o0 C1 CM1) as (Y2 & E2 & RG2 & LB2 & TG2).
  { apply (Permutation_in _ (Permutation_sym P1)). exact H0. } { exact N0. }
  { intros o Ho. apply (Permutation_in _ (Permutation_sym P1)). apply HO. apply in_or_app. left. now right. }
  rewrite E2 in O2. cbn [sbind obind] in O2. assert (RG2' := RG2). destruct RG2' as (C2 & P2 & _).
  assert (RG12 : regrouped (o0 :: os) Y Y2).
  { apply (regrouped_trans _ [o0] _ Y1); [intros x [<-|[]]; now left|exact RG1|]. eapply regrouped_incl; [|exact RG2]. intros x Hx. now right. }
  assert (T2 : forall v, together Y2 o0 v <-> In v (o0 :: os)).
  { intros v. rewrite TG2. cbn [In]. split.
    - intros [T|T]; [left; symmetry; apply AL1; exact T|now right].
    - intros [<-|T]; [|now right]. left. assert (Y0 : In o0 (flat_map columns_of Y1)) by (apply (Permutation_in _ (Permutation_sym P1)); exact H0).
      apply in_flat_map in Y0. destruct Y0 as (x & Hx & Hxo). exists x. auto. }
  assert (V2 : exists m2, In m2 Y2 /\ forall v, In v (columns_of m2) <-> In v (o0 :: os)).
  { destruct (proj2 (T2 o0) (or_introl eq_refl)) as (m2 & H2 & H2o & _). exists m2. split; [exact H2|]. intros v. rewrite <- T2. split.
    - intros Hv. exists m2. auto.
    - intros (x & Hx & Hxo & Hxv). rewrite (same_view Y2 m2 x o0 C2 H2 Hx H2o Hxo) in Hxv. exact Hxv. }
  destruct V2 as (m2 & H2 & CO2). assert (G2 := crosscat_views _ m2 C2 H2). destruct (in_split _ _ H2) as (l & r & EY).
  assert (CM2 := regrouped_complete _ _ _ RG12 CM).
  assert (E3 : get_cgpm_current_view_index (CProd Y2) (o0 :: os) = Ok (List.length l)).
  { rewrite EY. apply index_ok; [rewrite <- EY; exact C2|discriminate|]. intros o Ho. apply column_output; [apply G2|]. apply CO2. exact Ho. }
  rewrite E3 in O2. cbn [obind views_of] in O2. assert (E4 : item Y2 (List.length l) = Ok m2) by (rewrite EY; apply item_at). rewrite E4 in O2. cbn [obind] in O2.
  destruct (seat_partition order rowids part m2 G2 NR (HL (b, part) (or_introl eq_refl)) OR) as (m3 & E5 & G3 & SC3 & PT3).
  { intros r0 Hr0. destruct (HR r0 Hr0) as (v & x & Hx). apply (complete_aligned Y2 [v] C2 CM2 r0 v x); [now left|apply RG12; exact Hx|exact H2]. }
  rewrite E5 in O2. cbn [sbind fst snd] in O2. destruct (item_Ok _ _ _ E4) as (l' & r' & EY' & LL & ES). rewrite ES in O2.
  destruct (replace_view l' m2 m3 r' (o0 :: os)) as (RG3 & LB3 & T3); [rewrite <- EY'; exact C2|exact G3|exact SC3|intros v Hv; apply CO2; exact Hv|].
  rewrite <- EY' in RG3, LB3, T3. set (Y3 := l' ++ m3 :: r') in *.
  assert (RG13 : regrouped (o0 :: os) Y Y3) by (apply (regrouped_trans _ (o0 :: os) _ Y2); [apply incl_refl|exact RG12|exact RG3]).
  assert (RG3' := RG3). destruct RG3' as (C3 & P3 & _). assert (RG13' := RG13). destruct RG13' as (_ & P13 & HH13 & _ & _ & _).
  assert (LB13 : labelled (fun z => In z d1) Y Y3).
  { eapply (labelled_trans (fun z => In z d1) (fun _ => False)); [eapply (labelled_trans (fun z => In z d1) (fun _ => False) (fun z => In z d1)); [exact LB1|exact LB2|tauto]|exact LB3|]. tauto. }
  assert (PL3 : placed rowids (o0 :: os) part Y3).
  { split.
    - intros o v Ho. rewrite T3. assert (To : together Y2 o0 o) by (apply T2; exact Ho). rewrite <- T2. split; intros T.
      + eapply together_trans; [exact C2|exact To|exact T].
      + eapply together_trans; [exact C2|apply together_sym; exact To|exact T].
    - intros x o Hx Ho Hxo. assert (In m3 Y3) by (apply in_or_app; right; now left). assert (Hm3 : In o (columns_of m3)).
      { destruct SC3 as (_ & -> & _). apply CO2. exact Ho. }
      rewrite (same_view Y3 m3 x o C3) by assumption. exact PT3. }
  destruct (IH Y3 C3) with (draws := d2) (res := res) as [B1 B2].
  - eapply regrouped_complete; [exact RG13|exact CM].
  - intros os' Hos. apply NE. now right.
  - exact NDr.
  - intros o Ho. apply (Permutation_in _ (Permutation_sym P13)). apply HO. apply in_or_app. now right.
  - intros b0 Hb0. apply HL. now right.
  - intros r0 Hr0. destruct (HR r0 Hr0) as (v & x & Hx). exists v, x. apply HH13. exact Hx.
  - exact O2.
  - split.
    + intros c Ec. destruct (B1 c Ec) as (Y' & -> & RG & PL). exists Y'. split; [reflexivity|]. cbn [List.concat]. split.
      { apply (regrouped_trans _ (o0 :: os) _ Y3); [apply incl_appl; apply incl_refl|exact RG13|]. eapply regrouped_incl; [|exact RG]. apply incl_appr. apply incl_refl. }
      constructor; [|exact PL]. destruct RG as (C' & P' & _ & _ & TR & SR). destruct PL3 as [PL3 PL3r]. cbn [snd]. 
      assert (DJ : forall o, In o (o0 :: os) -> ~ In o (List.concat Os)) by (intros o Ho Y0; apply (NoDup_app_disj _ _ ND o Ho Y0)).
      split.
      * intros o v Ho. destruct (in_dec Z.eq_dec v (List.concat Os)) as [Hv|Hv].
        -- split; [|intros Y0; exfalso; apply (DJ v Y0 Hv)]. intros T. exfalso. apply in_concat in Hv. destruct Hv as (os' & Hos & Hv).
           assert (Z0 : exists b0, In b0 blocks /\ placed rowids os' (snd b0) Y').
           { clear - PL Hos. induction PL as [|b0 o1 bs Os P0 PL IHP]; [destruct Hos|]. destruct Hos as [<-|Hos]; [exists b0; split; [now left|exact P0]|].
             destruct (IHP Hos) as (b1 & I1 & P1). exists b1. split; [now right|exact P1]. }
           destruct Z0 as (b0 & _ & Z0 & _). apply (DJ o Ho). apply in_concat. exists os'. split; [exact Hos|]. apply (Z0 v o Hv). apply together_sym. exact T.
        -- rewrite TR; [apply PL3; exact Ho|apply DJ; exact Ho|exact Hv].
      * intros x o Hx Ho Hxo. assert (Y0 : In o (flat_map columns_of Y3)) by (apply (Permutation_in _ P'); apply in_flat_map; eauto).
        apply in_flat_map in Y0. destruct Y0 as (x3 & Hx3 & Hx3o). destruct (SR x3 o Hx3 Hx3o (DJ o Ho)) as (x' & Hx' & Hxo' & _ & SS).
        rewrite (same_view Y' x' x o C' Hx' Hx Hxo' Hxo). assert (PP := PL3r x3 o Hx3 Ho Hx3o). intros r1 k r2 k' I1 I2. rewrite !SS. apply PP; assumption.
    + intros NDd FR. apply B2.
      * apply NoDup_app_parts in NDd. apply NDd.
      * intros z Hz Y0. destruct (labels_outputs _ Y Y3 z C C3 P13 LB13 Y0) as [Y1'|Y1'].
        -- apply (FR z); [apply in_or_app; now right|exact Y1'].
        -- apply (NoDup_app_disj _ _ NDd z Y1' Hz).
Qed.
