(** The law of a move of columns between views: the choice. *)
From Coq Require Import List ZArith QArith Qcanon Reals Bool String Permutation Lia Lra.
From Verif Require Import Base Xr Samp Lgamma Prims Cgpm Lib SpecPrims PrimsInv PrimsDens PrimsThm2
  SpecComp CompInv CompDens CompThm SpecBook Book SpecTable SpecSim SimShape SimTotal SimLaw Trans SpecHist Table Gibbs Hist Meta MetaThm
  Walks SpecWalks WalksThm PropPrims PropWalks Views SpecViews ViewsThm ViewsThm2 ViewsThm3 ViewsThm4 SpecMoves ViewsLaw ViewsLaw2.
Import ListNotations.
Local Open Scope Z_scope.

Lemma existing_list : forall (Q : cgpm -> cgpm -> Prop) vs i cur D L, 
  (forall v j, nth_error vs j = Some v -> (i + j)%nat <> cur -> exists q, proposal_existing_one v D L = Ret (v, Ok q) /\ Q v q) -> 
  (Z.of_nat cur <= 256)%Z ->
  exists E, proposals_existing i cur vs D L = Ret (vs, Ok E) /\ List.length E = List.length vs /\
    (forall j w, (i + j)%nat <> cur -> nth_error vs j = Some w -> exists q, nth_error E j = Some q /\ Q w q) /\
    (forall j w, (i + j)%nat = cur -> nth_error vs j = Some w -> nth_error E j = Some w).
Proof.
  intros Q. induction vs as [|v vs IH]; intros i cur D L H HC.
  - exists []. split; [reflexivity|]. split; [reflexivity|]. split; intros [|j] w _ E; discriminate.
  - cbn [proposals_existing].
    destruct (IH (Datatypes.S i) cur D L) as (E & E1 & E2 & E3 & E4); [|exact HC|].
    { intros v' j Hv N. apply (H v' (Datatypes.S j)); [exact Hv|lia]. }
    destruct (Nat.eq_dec i cur) as [->|NI].
    + replace (int_is (Z.of_nat cur) (Z.of_nat cur)) with true.
      * cbn [sbind snd fst]. rewrite E1. cbn [sbind fst snd omap]. exists (v :: E). split; [reflexivity|]. split; [cbn; lia|].
        split; intros [|j] w N Ew; [lia| |exact Ew|lia]. cbn [nth_error] in *. apply E3; [lia|exact Ew].
      * symmetry. unfold int_is. rewrite Z.eqb_refl. cbn. rewrite (proj2 (Z.leb_le _ _)) by lia. rewrite (proj2 (Z.leb_le _ _)) by lia. reflexivity.
    + replace (int_is (Z.of_nat i) (Z.of_nat cur)) with false.
      * destruct (H v 0%nat eq_refl) as (q & Eq & Mq); [lia|]. rewrite Eq. cbn [sbind snd fst]. rewrite E1. cbn [sbind fst snd omap].
        exists (q :: E). split; [reflexivity|]. split; [cbn; lia|].
        split; intros [|j] w N Ew; cbn [nth_error] in *; [injection Ew as <-; eauto| |lia|]; [apply E3|apply E4]; try lia; exact Ew.
      * symmetry. unfold int_is. rewrite (proj2 (Z.eqb_neq _ _)) by lia. reflexivity.
Qed.

Definition elsewhere (outs : list Z) (o : Z) : bool := negb (memb o outs).

(** ** Scores *)

Lemma total_view : forall outs v, good v -> total_score v = (part (fun o => memb o outs) v + part (elsewhere outs) v)%R.
Proof.
  intros outs v G. destruct (good_plain v G) as [Gr P]. rewrite total_prims; [|apply good_wf; exact G|exact P]. apply part_split.
Qed.

Lemma part_nothing : forall outs w, good w -> (forall o, In o outs -> ~ In o (outputs w)) -> part (fun o => memb o outs) w = 0%R.
Proof.
  intros outs w G H. unfold part. rewrite filter_none; [reflexivity|]. intros d Hd. apply memb_false. intros Y. apply (H _ Y).
  apply prims_outputs; [apply good_wf; exact G|exact Hd].
Qed.

Lemma total_left : forall outs m m', good m -> ~ In (label_of m) outs -> remove_all outs m = Ok m' -> wf m' -> plain m' -> 
  total_score m' = part (elsewhere outs) m.
Proof.
  intros outs m m' G N E W P. destruct (good_plain m G) as [Gr Pm]. rewrite total_prims by assumption. rewrite (remove_all_prims outs m m' Gr Pm N E). reflexivity.
Qed.

Lemma crosscat_score : forall X, crosscat X -> score (CProd X) = Ok (Fin (rsum (map total_score X))).
Proof.
  intros X C. change (rsum (map total_score X)) with (total_score (CProd X)). apply score_total.
  - apply grown_wf. apply crosscat_grown. exact C.
  - apply tidy_prod. intros c Hc. apply sheet_tidy. apply (crosscat_views X c C Hc).
Qed.

(** ** Taking a proposal *)

(** What is left of the view [m]. *)
Definition rest (outs : list Z) (m : cgpm) (Y : list cgpm) : Prop :=
  (Y = [] /\ forall o, In o (columns_of m) -> In o outs) \/
  (exists m', Y = [m'] /\ remove_all outs m = Ok m' /\ narrowed outs m m' /\ columns_of m' <> []).

Lemma rest_one : forall outs m Y Y', rest outs m Y -> rest outs m Y' -> Y = Y'.
Proof.
  assert (X : forall outs m m', narrowed outs m m' -> columns_of m' <> [] -> (forall o, In o (columns_of m) -> In o outs) -> False).
  { intros outs m m' (_ & _ & _ & _ & EC & _) N H. destruct (columns_of m') as [|o cs]; [congruence|].
    assert (Y : In o (without outs (columns_of m))) by (rewrite <- EC; now left). apply without_In in Y. destruct Y as [Y1 Y2]. apply Y2. apply H. exact Y1. }
  intros outs m Y Y' [[-> H]|(a & -> & E & N & NE)] [[-> H']|(b & -> & E' & N' & NE')].
  - reflexivity.
  - exfalso. eapply X; eauto.
  - exfalso. eapply X; eauto.
  - congruence.
Qed.

Lemma rest_ok : forall outs l m r, let X := l ++ m :: r in crosscat X -> (forall o, In o outs -> In o (columns_of m)) ->
  exists m' Y, remove_all outs m = Ok m' /\ rest outs m Y /\ leaves_over outs m Y /\
    (if Nat.ltb 1 (List.length (outputs m')) then add_cgpm (CProd (l ++ r)) m' else Ok (CProd (l ++ r))) = Ok (CProd ((l ++ r) ++ Y)).
Proof.
  intros outs l m r X C H.
  assert (Gm : good m) by (apply (crosscat_views _ m C); apply in_or_app; right; now left).
  destruct (good_plain m Gm) as [Gr Pm].
  destruct (remove_all_ok outs m Gr Pm) as (m' & Em & Nm).
  { intros Y. apply (label_outside m (good_wf m Gm)); [apply Gm|]. apply H. exact Y. }
  assert (LO := leaves_narrowed outs m m' Gm Nm).
  assert (PX : Permutation X (m :: l ++ r)) by (apply Permutation_sym, Permutation_middle).
  assert (CX := crosscat_perm _ _ PX C). exists m'. destruct (Nat.ltb 1 (List.length (outputs m'))) eqn:EL.
  - exists [m']. split; [exact Em|]. split; [right; exists m'; repeat split; auto; try apply Nm|]. 1:{ intros EC. rewrite plain_outputs, EC in EL by apply Nm. discriminate. } split; [exact LO|]. apply crosscat_add. apply (crosscat_left outs m (l ++ r) [m'] CX LO).
  - exists []. split; [exact Em|]. split; [|split; [exact LO|rewrite app_nil_r; reflexivity]]. left. split; [reflexivity|].
    destruct LO as (_ & _ & LC & _). cbn [flat_map] in LC. intros o Ho. destruct (in_dec Z.eq_dec o outs) as [Y|Y]; [exact Y|]. exfalso.
    assert (Z : In o (without outs (columns_of m))) by (apply without_In; auto). rewrite <- LC in Z. destruct Z.
Qed.

Lemma take_existing : forall outs l m r D E S i w q, let X := l ++ m :: r in crosscat X -> outs <> [] -> NoDup outs -> (forall o, In o outs -> In o (columns_of m)) ->
  map dist_o D = outs -> (forall d, In d D -> kind_at m (dist_o d) = Some (kind_of d)) ->
  i <> List.length l -> nth_error X i = Some w -> nth_error (E ++ S) i = Some q -> moved D (cells_of m outs) w q ->
  exists Y l2 r2, l ++ r = l2 ++ w :: r2 /\ rest outs m Y /\
    take_proposal (CProd X) outs (E ++ S) (List.length l) i = Ok (CProd ((l2 ++ r2 ++ Y) ++ [q])) /\ reassigned outs X ((l2 ++ r2 ++ Y) ++ [q]).
Proof.
  intros outs l m r D E S i w q X C NE ND H ED KD EI EW EQ MV.
  assert (Gm : good m) by (apply (crosscat_views _ m C); apply in_or_app; right; now left).
  assert (IC : item X (List.length l) = Ok m) by (unfold item, X; rewrite nth_error_app2, Nat.sub_diag by lia; reflexivity).
  assert (IQ : item (E ++ S) i = Ok q) by (unfold item; rewrite EQ; reflexivity).
  assert (CR : remove_cgpm (CProd X) (label_of m) = Ok (CProd (l ++ r))) by (apply crosscat_remove; exact C).
  destruct (rest_ok outs l m r C H) as (m' & Y & Em & RY & LY & EY).
  unfold take_proposal. cbn [views_of]. rewrite IC. cbn [obind]. rewrite IQ. cbn [obind].
  rewrite (proj2 (Nat.eqb_neq _ _)) by congruence. rewrite Em. cbn [obind]. rewrite (first_label m Gm). cbn [obind]. rewrite CR. cbn [obind]. rewrite EY. cbn [obind].
  assert (PX : Permutation X (m :: l ++ r)) by (apply Permutation_sym, Permutation_middle).
  assert (CX := crosscat_perm _ _ PX C). assert (CY := crosscat_left outs m (l ++ r) Y CX LY).
  assert (Li : (i < List.length X)%nat) by (apply nth_error_Some; congruence).
  rewrite (proj2 (Nat.leb_gt _ _)) by exact Li.
  destruct (other_view l r m i w EW) as (l2 & r2 & ER); [congruence|]. exists Y, l2, r2. split; [exact ER|]. split; [exact RY|].
  assert (Gw : good w) by (apply (crosscat_views _ w C); eapply nth_error_In; eauto).
  assert (J := joins_moved outs m w D q Gm Gw H ED KD MV). assert (Gq : good q) by apply J.
  unfold item. rewrite EW. cbn [obind]. rewrite (first_label w Gw), (first_label q Gq). cbn [obind].
  assert (LQ : label_of q = label_of w) by apply MV. rewrite LQ, Z.eqb_refl. cbn [oassert obind].
  rewrite ER in *. rewrite <- app_assoc in *. cbn [app] in *. rewrite (crosscat_remove l2 w (r2 ++ Y) CY). cbn [obind].
  assert (PB : Permutation (m :: l2 ++ w :: r2) (m :: [w] ++ (l2 ++ r2))) by (apply perm_skip; cbn [app]; apply Permutation_sym, Permutation_middle).
  assert (C' : crosscat (q :: Y ++ (l2 ++ r2))).
  { apply (crosscat_reassigned outs m [w] (l2 ++ r2) Y q); auto; [|discriminate]. apply (crosscat_perm _ _ PB). exact CX. }
  assert (P' : Permutation ((l2 ++ r2 ++ Y) ++ [q]) (q :: Y ++ l2 ++ r2)).
  { rewrite <- Permutation_cons_append. constructor. rewrite app_assoc. apply Permutation_app_comm. }
  assert (C2 := crosscat_perm _ _ (Permutation_sym P') C'). rewrite (crosscat_add (l2 ++ r2 ++ Y) q C2).
  split; [reflexivity|]. apply (reassign_intro outs m [w] (l2 ++ r2) Y q); auto; etransitivity; [exact PX|exact PB].
Qed.

Lemma take_new : forall outs l m r D E S i c, let X := l ++ m :: r in crosscat X -> outs <> [] -> (forall o, In o outs -> In o (columns_of m)) ->
  map dist_o D = outs -> (forall d, In d D -> kind_at m (dist_o d) = Some (kind_of d)) -> List.length E = List.length X ->
  (forall q, In q S -> exists label, outputs q = label :: outs /\ (~ In label outs -> alone label D (cells_of m outs) q)) ->
  (List.length X <= i)%nat -> take_proposal (CProd X) outs (E ++ S) (List.length l) i = Ok c -> ~ joined outs (CProd X, Ok c).
Proof.
  intros outs l m r D E S i c X C NE H ED KD LE HS Li ET.
  assert (Gm : good m) by (apply (crosscat_views _ m C); apply in_or_app; right; now left).
  assert (IC : item X (List.length l) = Ok m) by (unfold item, X; rewrite nth_error_app2, Nat.sub_diag by lia; reflexivity).
  assert (CR : remove_cgpm (CProd X) (label_of m) = Ok (CProd (l ++ r))) by (apply crosscat_remove; exact C).
  destruct (rest_ok outs l m r C H) as (m' & Y & Em & RY & LY & EY).
  unfold take_proposal in ET. cbn [views_of] in ET. rewrite IC in ET. cbn [obind] in ET.
  assert (LX : (List.length l < List.length X)%nat) by (unfold X; rewrite app_length; cbn; lia).
  destruct (nth_error (E ++ S) i) as [q|] eqn:EQ; [|unfold item in ET; rewrite EQ in ET; discriminate].
  unfold item at 1 in ET. rewrite EQ in ET. cbn [obind] in ET.
  rewrite (proj2 (Nat.eqb_neq _ _)) in ET by lia. rewrite Em in ET. cbn [obind] in ET. rewrite (first_label m Gm) in ET. cbn [obind] in ET. rewrite CR in ET. cbn [obind] in ET.
  rewrite EY in ET. cbn [obind] in ET. rewrite (proj2 (Nat.leb_le _ _)) in ET by exact Li.
  rewrite nth_error_app2 in EQ by lia. apply nth_error_In in EQ. destruct (HS q EQ) as (label & OQ & AL).
  cbn [add_cgpm] in ET. apply new_product_inv in ET. destruct ET as (-> & NDc & _).
  assert (NL : ~ In label outs).
  { rewrite flat_map_app in NDc. cbn [flat_map] in NDc. rewrite app_nil_r, OQ in NDc. apply NoDup_app_parts in NDc. destruct NDc as [_ NDc].
    inversion NDc; assumption. }
  destruct (AL NL) as (Gq & _ & CQ & _).
  assert (PX : Permutation X (m :: l ++ r)) by (apply Permutation_sym, Permutation_middle).
  assert (CX := crosscat_perm _ _ PX C). assert (CY := crosscat_left outs m (l ++ r) Y CX LY).
  assert (C' : crosscat (((l ++ r) ++ Y) ++ [q])).
  { split; [|exact NDc]. intros x Hx. apply in_app_or in Hx. destruct Hx as [Hx|[<-|[]]]; [apply CY; exact Hx|exact Gq]. }
  rewrite flatten_views by (intros x Hx; apply (crosscat_views _ _ C' Hx)).
  intros (X' & o & v & EX & Ho & Hv & (x & Hx & Ox & Vx)). cbn [snd] in EX. injection EX as <-.
  apply in_app_or in Hx. destruct Hx as [Hx|[<-|[]]]; [|apply Hv; rewrite <- ED, <- CQ; exact Vx].
  apply (one_view ((l ++ r) ++ Y) q [] x o C'); [rewrite OQ; now right|rewrite app_nil_r; exact Hx|].
  apply column_output; [apply (crosscat_views _ x C'); apply in_or_app; now left|exact Ox].
Qed.

Lemma take_prefix : forall c outs E S cur i, (i < List.length E)%nat -> take_proposal c outs (E ++ S) cur i = take_proposal c outs E cur i.
Proof. intros c outs E S cur i Hi. unfold take_proposal, item. rewrite nth_error_app1 by exact Hi. reflexivity. Qed.

Lemma oseq_prefix : forall (rs : list R) (l : list (out xr)), oseq (map (fun r => Ok (Fin r)) rs ++ l) = do b <- oseq l; Ok (map Fin rs ++ b).
Proof.
  induction rs as [|r rs IH]; intros l; [cbn; destruct (oseq l); reflexivity|]. cbn [map app oseq obind]. rewrite IH. destruct (oseq l); reflexivity.
Qed.

Lemma rsum_split : forall {A} (f : A -> R) l r m, rsum (map f (l ++ m :: r)) = (f m + rsum (map f (l ++ r)))%R.
Proof.
  intros A f l r m. rewrite !map_app, !rsum_app. cbn [map]. change (rsum (?x :: ?y)) with (x + rsum y)%R. lra.
Qed.

Lemma given_true : forall {A} (m : samp A) P, given (fun _ => True) m P -> always m P.
Proof. induction m as [a|ws k IH|l k IH|n p k IH|lo hi k IH|n k IH]; intros P G; cbn [given always] in *; auto. Qed.

(** ** The law *)

Lemma move_law : forall outs l m r aux, let X := l ++ m :: r in crosscat X -> outs <> [] -> NoDup outs -> (forall o, In o outs -> In o (columns_of m)) ->
  aligned outs X -> (Z.of_nat (List.length l) <= 256)%Z -> (Z.of_nat (List.length outs) < 2 ^ 32 - 1)%Z ->
  exists (into : nat -> list cgpm) (s : nat -> R) (k : R), (0 < k)%R /\ into (List.length l) = X /\
    (forall i w, nth_error X i = Some w -> reassigned outs X (into i) /\ (forall o v, In o outs -> In v (columns_of w) -> together (into i) o v) /\
       score (CProd (into i)) = Ok (Fin (s i))) /\
    choices (transition_cgpm_view_assigments (CProd X) outs aux) /\
    (forall f, (forall p, ~ joined outs p -> f p = 0%R) ->
       mean (transition_cgpm_view_assigments (CProd X) outs aux) f =
       (k * rsum (map (fun i => exp (s i) * f (CProd X, Ok (CProd (into i)))) (seq 0 (List.length X))))%R) /\
    (aux = O -> (exists o, In o (columns_of m) /\ ~ In o outs) -> k * rsum (map (fun i => exp (s i)) (seq 0 (List.length X))) = 1)%R.
Proof.
  intros outs l m r aux X C NE ND H AL HL HO.
  assert (Gm : good m) by (apply (crosscat_views _ m C); apply in_or_app; right; now left).
  assert (Hm : In m X) by (apply in_or_app; right; now left).
  assert (NLm : ~ In (label_of m) outs) by (intros Y; apply (label_outside m (good_wf m Gm)); [apply Gm|]; apply H; exact Y).
  assert (EI : get_cgpm_current_view_index (CProd X) outs = Ok (List.length l)).
  { apply index_ok; auto. intros o Ho. apply column_output; [apply Gm|]. apply H. exact Ho. }
  destruct (bases_ok l m r outs C H) as (D & ED & FD). destruct (datasets_ok l m r outs C H) as (L & EL & FL).
  fold X in ED, EL. destruct (blanks m outs D Gm H ND FD) as (OD & HD & SU).
  assert (KD : forall d, In d D -> kind_at m (dist_o d) = Some (kind_of d)) by (intros d Hd; apply HD; exact Hd).
  assert (Out : forall j v, nth_error X j = Some v -> j <> List.length l -> forall o, In o outs -> ~ In o (outputs v)).
  { intros j v Ev Nj o Ho. destruct (other_view l r m j v Ev Nj) as (l2 & r2 & ER). apply (one_view l m r v o C).
    - apply column_output; [apply Gm|]. apply H. exact Ho.
    - rewrite ER. apply in_or_app. right. now left. }
  destruct (existing_list (fun v q => moved D (cells_of m outs) v q /\ part (elsewhere outs) q = part (elsewhere outs) v) X 0 (List.length l) D L)
    as (E & E1 & E2 & E3 & E4); [|exact HL|].
  { intros v j Ev Nj. cbn [Nat.add] in Nj. assert (Hv : In v X) by (eapply nth_error_In; eauto).
    assert (Gv : good v) by apply (crosscat_views _ v C Hv).
    assert (NC : new_columns D v).
    { split; [|rewrite OD; exact ND]. intros d Hd. destruct (HD d Hd) as (R1 & R2 & R3 & _). split; [exact R1|]. split; [exact R2|]. split; [exact R3|].
      apply (Out j v Ev Nj). rewrite <- OD. now apply in_map. }
    assert (SE : forall r' o x, In (r', o, x) (cells_of m outs) -> seat v r' <> None).
    { intros r' o x Ht. apply cells_of_ok in Ht; auto. destruct Ht as [Ho Ec]. apply (AL r' o x Ho); [|exact Hv]. exists m. auto. }
    destruct (existing_one D (cells_of m outs) v L Gv NC SU FL SE) as (q & Eq & Mq). exists q. split; [exact Eq|]. split; [exact Mq|].
    apply (existing_part D (cells_of m outs) v L q Gv NC SU FL SE Eq). intros d Hd. unfold elsewhere. apply negb_false_iff. apply memb_In.
    rewrite <- OD. now apply in_map. }
  cbn [Nat.add] in E3, E4.
  set (rs := map (part (fun o => memb o outs)) E).
  assert (LR : List.length rs = List.length X) by (unfold rs; rewrite map_length; exact E2).
  assert (GE : forall q, In q E -> good q /\ forall o, In o outs -> In o (columns_of q)).
  { intros q Hq. apply In_nth_error in Hq. destruct Hq as (j & Ej). destruct (nth_error X j) as [w|] eqn:Ew.
    + destruct (Nat.eq_dec j (List.length l)) as [Ejl|Nj].
      * rewrite (E4 j w Ejl Ew) in Ej. injection Ej as <-. subst j. unfold X in Ew. rewrite nth_error_app2, Nat.sub_diag in Ew by lia. injection Ew as <-. auto.
      * destruct (E3 j w Nj Ew) as (q' & Eq & MV & _). rewrite Ej in Eq. injection Eq as <-. split; [apply MV|]. intros o Ho.
        destruct MV as (_ & _ & _ & -> & _). rewrite OD. apply in_or_app. now right.
    + apply nth_error_None in Ew. assert (j < List.length E)%nat by (apply nth_error_Some; congruence). lia. }
  assert (WE : map (fun v => omap xsum (oseq (map (get_cgpm_data_logp v) outs))) E = map (fun r => Ok (Fin r)) rs).
  { unfold rs. rewrite map_map. apply map_ext_in. intros q Hq. destruct (GE q Hq) as [Gq Cq]. apply weight_part; [apply good_wf; exact Gq|exact ND|].
    intros o Ho. apply column_output; [apply Gq|]. apply Cq. exact Ho. }
  destruct (rest_ok outs l m r C H) as (m' & Y & Em & RY & LY & EY).
  set (base := (rsum (map total_score (l ++ r)) + rsum (map total_score Y))%R).
  set (into := fun i => if Nat.eqb i (List.length l) then X else match take_proposal (CProd X) outs E (List.length l) i with Ok (CProd X') => X' | _ => X end).
  set (s := fun i => if Nat.eqb i (List.length l) then rsum (map total_score X) else (base + nth i rs 0)%R).
  assert (LX : (List.length l < List.length X)%nat) by (unfold X; rewrite app_length; cbn; lia).
  assert (Nth : forall i q, nth_error E i = Some q -> nth i rs 0%R = part (fun o => memb o outs) q).
  { intros i q Eq. apply nth_error_nth. unfold rs. rewrite nth_error_map, Eq. reflexivity. }
  assert (Cur : Y <> [] -> s (List.length l) = (base + nth (List.length l) rs 0)%R).
  { intros NY. unfold s. rewrite Nat.eqb_refl. unfold X. rewrite rsum_split. unfold base.
    rewrite (Nth _ m) by (apply E4; [reflexivity|]; unfold X; rewrite nth_error_app2, Nat.sub_diag by lia; reflexivity).
    rewrite (total_view outs m Gm). destruct RY as [[-> _]|(m2 & -> & E' & N' & _)]; [congruence|]. cbn [map]. change (rsum [?x]) with (x + 0)%R.
    rewrite (total_left outs m m2 Gm NLm E'); [lra| |apply N']. apply grown_wf. apply N'. }
  assert (Ex : forall i w, i <> List.length l -> nth_error X i = Some w -> take_proposal (CProd X) outs E (List.length l) i = Ok (CProd (into i)) /\
      reassigned outs X (into i) /\ (forall o v, In o outs -> In v (columns_of w) -> together (into i) o v) /\ score (CProd (into i)) = Ok (Fin (s i))).
  { intros i w Ni Ew. destruct (E3 i w Ni Ew) as (q & Eq & MV & PQ).
    assert (EqE : nth_error (E ++ []) i = Some q) by (rewrite app_nil_r; exact Eq).
    destruct (take_existing outs l m r D E [] i w q C NE ND H OD KD Ni Ew EqE MV) as (Y' & l2 & r2 & ER & RY' & ET & RA).
    rewrite (rest_one outs m Y' Y RY' RY) in *. rewrite app_nil_r in ET. fold X in ET, RA.
    assert (EIn : into i = (l2 ++ r2 ++ Y) ++ [q]) by (unfold into; rewrite (proj2 (Nat.eqb_neq _ _) Ni), ET; reflexivity).
    rewrite EIn. split; [exact ET|]. split; [exact RA|]. split.
    - intros o v Ho Hv. exists q. split; [apply in_or_app; right; now left|]. destruct MV as (_ & _ & _ & -> & _). split; apply in_or_app; [right; rewrite OD; exact Ho|left; exact Hv].
    - rewrite crosscat_score by apply RA. do 2 f_equal. unfold s. rewrite (proj2 (Nat.eqb_neq _ _) Ni), (Nth i q Eq). unfold base. rewrite ER, (rsum_split total_score l2 r2 w).
      assert (Gq : good q) by apply MV. assert (Gw : good w) by (apply (crosscat_views _ w C); eapply nth_error_In; eauto).
      rewrite !map_app, !rsum_app. cbn [map]. change (rsum [total_score q]) with (total_score q + 0)%R. rewrite (total_view outs q Gq), PQ.
      rewrite (total_view outs w Gw), (part_nothing outs w Gw) by (apply (Out i w Ew Ni)). lra. }
  assert (In0 : into (List.length l) = X) by (unfold into; rewrite Nat.eqb_refl; reflexivity).
  assert (Ta : forall S0 i, (i < List.length X)%nat -> take_proposal (CProd X) outs (E ++ S0) (List.length l) i = Ok (CProd (into i))).
  { intros S0 i Hi. rewrite take_prefix by lia. destruct (Nat.eq_dec i (List.length l)) as [->|Ni].
    - rewrite In0. unfold take_proposal, item. cbn [views_of].
      destruct (nth_error X (List.length l)) as [w|] eqn:Ew; [|apply nth_error_None in Ew; lia]. cbn [obind].
      rewrite (E4 _ w eq_refl Ew). cbn [obind]. rewrite Nat.eqb_refl. reflexivity.
    - destruct (nth_error X i) as [w|] eqn:Ew; [|apply nth_error_None in Ew; lia]. apply (Ex i w Ni Ew). }
  set (wt := fun v => omap xsum (oseq (map (get_cgpm_data_logp v) outs))).
  set (g := fun o : out (list cgpm) => match o with Ok S0 => match oseq (map wt (E ++ S0)) with Ok lps => coef lps | Err _ => 0%R end | Err _ => 0%R end).
  set (PS := srepeat aux (proposal_singleton_one D L)).
  assert (NED : D <> []) by (intros ->; apply NE; rewrite <- OD; reflexivity).
  assert (HD' : forall d, In d D -> reachable d /\ dist_data d = [] /\ kind_of d <> KTable) by (intros d Hd; destruct (HD d Hd) as (? & ? & ? & _); auto).
  assert (NDD : NoDup (map dist_o D)) by (rewrite OD; exact ND).
  assert (SG := fun F => singleton_one D (cells_of m outs) L F NED HD' NDD SU FL).
  assert (CP : choices PS) by (apply choices_repeat; apply singleton_choices).
  assert (AP : always PS (fun s => forall S0, s = Ok S0 -> forall q, In q S0 -> exists label, outputs q = label :: outs /\ (~ In label outs -> alone label D (cells_of m outs) q))).
  { apply given_true. unfold PS. assert (SR := repeat_given (fun _ => True) (proposal_singleton_one D L) _ _ aux (SG (fun _ => True))).
    revert SR. apply given_imp. intros s0 [S1 _] S0 Es q Hq. destruct (S1 S0 Es q Hq) as (label & _ & OQ & AQ). rewrite OD in OQ, AQ. eauto. }
  assert (G0 : forall o, (0 <= g o)%R).
  { intros [S0|e]; unfold g; [|lra]. destruct (oseq (map wt (E ++ S0))); [apply coef_nonneg|lra]. }
  assert (NEr : rs <> []) by (intros Er; rewrite Er in LR; cbn in LR; lia).
  assert (GP : (0 < mean PS g)%R).
  { apply mean_pos; [exact CP|exact G0|]. destruct (free_label outs (2 ^ 32 - 1) HO) as (z & Hz & Nz).
    assert (PO : possible (proposal_singleton_one D L) (fun r0 => exists q, r0 = Ok q /\ good q /\ forall o, In o outs -> In o (columns_of q))).
    { apply (singleton_possible D L (fun z => ~ In z outs) _ z Hz Nz). assert (A := SG (fun z => ~ In z outs)). revert A. apply given_imp.
      intros r0 [A1 A2]. destruct A2 as (q & ->); [intros z' Z; rewrite OD; exact Z|]. destruct (A1 q eq_refl) as (label & HF & OQ & AQ). rewrite OD in AQ.
      exists q. split; [reflexivity|]. specialize (AQ HF). split; [apply AQ|]. destruct AQ as (_ & _ & -> & _). rewrite OD. auto. }
    assert (A := repeat_possible _ _ aux PO). unfold PS. revert A. apply possible_imp. intros r0 (S0 & -> & _ & HS). unfold g.
    assert (ES : map wt S0 = map (fun x => Ok (Fin x)) (map (part (fun o => memb o outs)) S0)).
    { rewrite map_map. apply map_ext_in. intros q Hq. destruct (HS q Hq) as [Gq Cq]. apply weight_part; [apply good_wf; exact Gq|exact ND|].
      intros o Ho. apply column_output; [apply Gq|]. apply Cq. exact Ho. }
    assert (EO : oseq (map wt (E ++ S0)) = Ok (map Fin (rs ++ map (part (fun o => memb o outs)) S0))).
    { rewrite map_app. unfold wt at 1. rewrite WE, ES, <- map_app. rewrite <- (app_nil_r (map _ (rs ++ _))), oseq_prefix. cbn [oseq obind]. rewrite app_nil_r. reflexivity. }
    rewrite EO. apply coef_pos. intros Z. apply app_eq_nil in Z. apply NEr. apply Z. }
  assert (Main : forall f, (forall p, ~ joined outs p -> f p = 0%R) -> mean (transition_cgpm_view_assigments (CProd X) outs aux) f =
       (mean PS g * rsum (map (fun i => exp (nth i rs 0) * f (CProd X, Ok (CProd (into i)))) (seq 0 (List.length X))))%R).
  { intros f Hf. unfold transition_cgpm_view_assigments, get_cgpm_view_proposals, get_cgpm_view_proposals_existing.
    rewrite EI, ED, EL. cbn [obind views_of]. rewrite E1. cbn [sbind fst snd].
    unfold get_cgpm_view_proposals_singleton. rewrite ED, EL. cbn [obind]. fold PS. rewrite !mean_bind. fold wt.
    rewrite Rmult_comm, <- mean_scale. apply (mean_ext PS _ _ _ CP AP). intros s0 Hs. cbn [mean fst snd].
    destruct s0 as [S0|e]; cbn [obind]; [|unfold g; rewrite Rmult_0_r; apply Hf; intros (X' & o & v & EX & _); discriminate].
    specialize (Hs S0 eq_refl). unfold g. rewrite map_app. unfold wt at 1 3. rewrite WE, oseq_prefix. fold wt.
    destruct (oseq (map wt S0)) as [lps|e]; cbn [obind]; [|rewrite Rmult_0_r; apply Hf; intros (X' & o & v & EX & _); discriminate].
    rewrite EI. cbn [obind]. rewrite mean_bind. cbn [mean]. rewrite flip_prefix.
    - rewrite Rmult_comm. f_equal. rewrite LR. apply rsum_ext. intros i Hi. apply in_seq in Hi. cbn [obind]. rewrite Ta by lia. reflexivity.
    - intros [i|e] Hi; cbn [obind].
      + specialize (Hi i eq_refl). rewrite LR in Hi. apply Hf. destruct (take_proposal (CProd X) outs (E ++ S0) (List.length l) i) as [c|e] eqn:ET.
        * apply (take_new outs l m r D E S0 i c C NE H OD KD E2 Hs Hi ET).
        * intros (X' & o & v & EX & _). discriminate.
      + apply Hf. intros (X' & o & v & EX & _). discriminate. }
  assert (Lone : Y = [] -> ~ joined outs (CProd X, Ok (CProd X))).
  { intros -> (X' & o & v & EX & Ho & Hv & (x & Hx & Ox & Vx)). injection EX as <-.
    destruct RY as [[_ AllIn]|(m2 & E' & _)]; [|discriminate].
    apply in_app_or in Hx. destruct Hx as [Hx|[<-|Hx]]; [|apply Hv, AllIn; exact Vx|].
    - apply (one_view l m r x o C); [apply column_output; [apply Gm|apply H; exact Ho]|apply in_or_app; now left|].
      apply column_output; [apply (crosscat_views _ x C); apply in_or_app; now left|exact Ox].
    - apply (one_view l m r x o C); [apply column_output; [apply Gm|apply H; exact Ho]|apply in_or_app; now right|].
      apply column_output; [apply (crosscat_views _ x C); apply in_or_app; right; now right|exact Ox]. }
  exists into, s, (exp (- base) * mean PS g)%R.
  split; [apply Rmult_lt_0_compat; [apply exp_pos|exact GP]|]. split; [exact In0|]. split; [|split; [|split]].
  - intros i w Ew. destruct (Nat.eq_dec i (List.length l)) as [->|Ni]; [|apply (Ex i w Ni Ew)].
    assert (w = m) as -> by (unfold X in Ew; rewrite nth_error_app2, Nat.sub_diag in Ew by lia; injection Ew; auto).
    rewrite In0. split; [apply reassign_same with m; auto|]. split; [intros o v Ho Hv; exists m; auto|].
    rewrite crosscat_score by exact C. unfold s. rewrite Nat.eqb_refl. reflexivity.
  - unfold transition_cgpm_view_assigments, get_cgpm_view_proposals, get_cgpm_view_proposals_existing.
    rewrite EI, ED, EL. cbn [obind views_of]. rewrite E1. cbn [sbind fst snd].
    unfold get_cgpm_view_proposals_singleton. rewrite ED, EL. cbn [obind]. fold PS.
    eapply choices_then with (P := fun _ => True); [|apply always_True; auto|].
    + eapply choices_then with (P := fun _ => True); [exact CP|apply always_True; auto|intros; exact Logic.I].
    + intros [c o] _. cbn [fst snd]. destruct o as [props|e]; [|exact Logic.I]. destruct (obind _ _) as [[lps cur]|e]; [|exact Logic.I].
      eapply choices_then with (P := fun _ => True); [apply choices_finite; apply choices_log_pflip|apply always_True; auto|intros; exact Logic.I].
  - intros f Hf. rewrite (Main f Hf). rewrite (Rmult_comm (exp (- base))), Rmult_assoc. f_equal. rewrite <- rsum_scal. apply rsum_ext. intros i Hi. apply in_seq in Hi.
    destruct (Nat.eq_dec i (List.length l)) as [->|Ni].
    + destruct Y as [|y Y'] eqn:EY'.
      * rewrite In0, (Hf _ (Lone eq_refl)). lra.
      * rewrite Cur by discriminate. rewrite <- Rmult_assoc, <- exp_plus. do 2 f_equal. lra.
    + unfold s. rewrite (proj2 (Nat.eqb_neq _ _) Ni). rewrite <- Rmult_assoc, <- exp_plus. do 2 f_equal. lra.
  - intros -> (o & Ho & No). unfold PS. cbn [srepeat mean g]. rewrite app_nil_r. unfold wt. rewrite WE. rewrite <- (app_nil_r (map _ rs)), oseq_prefix. cbn [oseq obind].
    rewrite app_nil_r. destruct (coef_pos rs NEr) as [_ CO]. rewrite <- CO. rewrite (Rmult_comm (exp (- base))), Rmult_assoc. f_equal. rewrite <- rsum_scal.
    assert (YN : Y <> []).
    { intros EY0. destruct RY as [[_ AllIn]|(m2 & E' & _)]; [apply No, AllIn; exact Ho|congruence]. }
    assert (ME : map exp rs = map (fun i => exp (nth i rs 0%R)) (seq 0 (List.length rs))).
    { clear. induction rs as [|a rs IH]; [reflexivity|]. cbn [List.length seq map nth]. f_equal. rewrite <- seq_shift, map_map. exact IH. }
    rewrite ME, LR. apply rsum_ext. intros i Hi. rewrite <- exp_plus. f_equal.
    destruct (Nat.eq_dec i (List.length l)) as [->|Ni]; [rewrite Cur by exact YN; lra|]. unfold s. rewrite (proj2 (Nat.eqb_neq _ _) Ni). lra.
Qed.
