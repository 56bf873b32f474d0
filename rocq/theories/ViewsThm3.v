From Coq Require Import List ZArith QArith Qcanon Reals Bool String Permutation Lia Lra.
From Verif Require Import Base Xr Samp Lgamma Prims Cgpm Lib SpecPrims PrimsInv PrimsDens PrimsThm2
  SpecComp CompInv CompDens CompThm SpecBook Book SpecTable SpecSim SimShape SimTotal SimLaw Trans SpecHist Table Gibbs Hist Meta MetaThm
  Walks SpecWalks WalksThm PropPrims PropWalks Views SpecViews ViewsThm ViewsThm2.
Import ListNotations.
Local Open Scope Z_scope.

(** ** The result as a table *)

(** The view [q] takes the columns [outs] of [m] besides those of the views [A] (one or none). *)
Definition joins (outs : list Z) (m : cgpm) (A : list cgpm) (q : cgpm) : Prop :=
  good q /\ (List.length A <= 1)%nat /\ columns_of q = flat_map columns_of A ++ outs /\
  (forall v r x, ~ In v outs -> (cell q r v = Some x <-> holds A r v x)) /\
  (forall v r x, In v outs -> (cell q r v = Some x <-> cell m r v = Some x)) /\
  (forall v k, ~ In v outs -> (kind_at q v = Some k <-> typed A v k)) /\
  (forall v k, In v outs -> (kind_at q v = Some k <-> kind_at m v = Some k)) /\
  (forall a, In a A -> label_of q = label_of a /\ divider q = divider a /\ forall r, seat q r = seat a r).

(** The views [Y] (one or none) are what is left of [m] without the columns [outs]. *)
Definition leaves_over (outs : list Z) (m : cgpm) (Y : list cgpm) : Prop :=
  (forall y, In y Y -> good y) /\ (List.length Y <= 1)%nat /\ flat_map columns_of Y = without outs (columns_of m) /\
  (forall v r x, ~ In v outs -> (holds Y r v x <-> cell m r v = Some x)) /\
  (forall v k, ~ In v outs -> (typed Y v k <-> kind_at m v = Some k)) /\
  (forall y, In y Y -> label_of y = label_of m /\ divider y = divider m /\ forall r, seat y r = seat m r).

Lemma holds_cons : forall m X r v x, holds (m :: X) r v x <-> cell m r v = Some x \/ holds X r v x.
Proof.
  intros. split.
  - intros (a & [<-|H] & E); [now left|right; exists a; auto].
  - intros [E|(a & H & E)]; [exists m|exists a]; split; auto; [now left|now right].
Qed.
Lemma holds_app : forall X Y r v x, holds (X ++ Y) r v x <-> holds X r v x \/ holds Y r v x.
Proof.
  intros. split.
  - intros (a & H & E). apply in_app_or in H. destruct H; [left|right]; exists a; auto.
  - intros [(a & H & E)|(a & H & E)]; exists a; (split; [apply in_or_app; auto|exact E]).
Qed.
Lemma holds_perm : forall X Y r v x, Permutation X Y -> (holds X r v x <-> holds Y r v x).
Proof. intros X Y r v x P. split; intros (a & H & E); exists a; (split; [|exact E]); [apply (Permutation_in _ P)|apply (Permutation_in _ (Permutation_sym P))]; exact H. Qed.

Lemma typed_cons : forall m X v k, typed (m :: X) v k <-> kind_at m v = Some k \/ typed X v k.
Proof.
  intros. split.
  - intros (a & [<-|H] & E); [now left|right; exists a; auto].
  - intros [E|(a & H & E)]; [exists m|exists a]; split; auto; [now left|now right].
Qed.
Lemma typed_app : forall X Y v k, typed (X ++ Y) v k <-> typed X v k \/ typed Y v k.
Proof.
  intros. split.
  - intros (a & H & E). apply in_app_or in H. destruct H; [left|right]; exists a; auto.
  - intros [(a & H & E)|(a & H & E)]; exists a; (split; [apply in_or_app; auto|exact E]).
Qed.
Lemma typed_perm : forall X Y v k, Permutation X Y -> (typed X v k <-> typed Y v k).
Proof. intros X Y v k P. split; intros (a & H & E); exists a; (split; [|exact E]); [apply (Permutation_in _ P)|apply (Permutation_in _ (Permutation_sym P))]; exact H. Qed.

Lemma together_cons : forall m X v w, together (m :: X) v w <-> (In v (columns_of m) /\ In w (columns_of m)) \/ together X v w.
Proof.
  intros. split.
  - intros (a & [<-|H] & E); [now left|right; exists a; auto].
  - intros [E|(a & H & E)]; [exists m|exists a]; split; auto; [now left|now right].
Qed.
Lemma together_app : forall X Y v w, together (X ++ Y) v w <-> together X v w \/ together Y v w.
Proof.
  intros. split.
  - intros (a & H & E). apply in_app_or in H. destruct H; [left|right]; exists a; auto.
  - intros [(a & H & E)|(a & H & E)]; exists a; (split; [apply in_or_app; auto|exact E]).
Qed.
Lemma together_perm : forall X Y v w, Permutation X Y -> (together X v w <-> together Y v w).
Proof. intros X Y v w P. split; intros (a & H & E); exists a; (split; [|exact E]); [apply (Permutation_in _ P)|apply (Permutation_in _ (Permutation_sym P))]; exact H. Qed.

Lemma together_one : forall Y v w, (List.length Y <= 1)%nat -> (together Y v w <-> In v (flat_map columns_of Y) /\ In w (flat_map columns_of Y)).
Proof.
  intros [|y [|y' Y]] v w L; cbn [List.length] in L; [| |lia].
  - split; [intros (a & [] & _)|intros [[] _]].
  - cbn [flat_map]. rewrite app_nil_r. split; [intros (a & [<-|[]] & E); exact E|intros E; exists y; split; [now left|exact E]].
Qed.

Lemma without_perm : forall outs l, NoDup outs -> (forall o, In o outs -> In o l) -> NoDup l -> Permutation (outs ++ without outs l) l.
Proof.
  intros outs l ND H NDl. apply NoDup_Permutation; [|exact NDl|].
  - apply ViewsThm2.NoDup_app_intro; [exact ND|apply NoDup_without; exact NDl|]. intros x Hx Y. apply without_In in Y. apply Y. exact Hx.
  - intros x. rewrite in_app_iff. split.
    + intros [Hx|Hx]; [apply H; exact Hx|apply without_In in Hx; apply Hx].
    + intros Hx. destruct (in_dec Z.eq_dec x outs); [now left|right; apply without_In; auto].
Qed.

Lemma columns_NoDup : forall m, good m -> NoDup (columns_of m).
Proof.
  intros m G. assert (ND := wf_outputs_NoDup m (good_wf m G)). rewrite sheet_outputs in ND by apply G. inversion ND; assumption.
Qed.

Lemma reassign_intro : forall outs m A B Y q X X', crosscat X -> Permutation X (m :: A ++ B) -> Permutation X' (q :: Y ++ B) -> crosscat X' ->
  NoDup outs -> (forall o, In o outs -> In o (columns_of m)) -> joins outs m A q -> leaves_over outs m Y -> reassigned outs X X'.
Proof.
  intros outs m A B Y q X X' C P P' C' ND H (Gq & LA & Qc & Qx & Qx' & Qk & Qk' & Qs) (GY & LY & Yc & Yx & Yk & Ys).
  assert (CP := crosscat_perm _ _ P C). assert (Gm : good m) by (apply (crosscat_views _ _ CP); now left).
  assert (NA : forall v, In v outs -> forall a, In a (A ++ B) -> ~ In v (columns_of a)).
  { intros v Hv a Ha Hva. assert (Ga : good a) by (apply (crosscat_views _ _ CP); now right).
    apply (one_view [] m (A ++ B) a v CP); [apply column_output; [apply Gm|apply H; exact Hv]|exact Ha|apply column_output; [apply Ga|exact Hva]]. }
  assert (NY : forall v, In v outs -> forall y, In y Y -> ~ In v (columns_of y)).
  { intros v Hv y Hy Hvy. assert (Z : In v (flat_map columns_of Y)) by (apply in_flat_map; eauto). rewrite Yc in Z. apply without_In in Z. apply Z. exact Hv. }
  split; [exact C'|]. split; [|split; [|split; [|split; [|split]]]].
  - rewrite (Permutation_flat_map columns_of P), (Permutation_flat_map columns_of P'). cbn [flat_map]. rewrite !flat_map_app, Qc, Yc.
    rewrite <- (without_perm outs (columns_of m) ND H (columns_NoDup m Gm)) at 2.
    rewrite <- !app_assoc. rewrite (Permutation_app_swap_app (flat_map columns_of A) outs). apply Permutation_app_head.
    apply Permutation_app_swap_app.
  - intros r v x. rewrite (holds_perm _ _ r v x P), (holds_perm _ _ r v x P'). rewrite !holds_cons, !holds_app.
    destruct (in_dec Z.eq_dec v outs) as [Hv|Hv].
    + rewrite (Qx' v r x Hv).
      assert (F1 : ~ holds Y r v x) by (intros (y & Hy & E); apply (NY v Hv y Hy); eapply holds_column; eauto).
      assert (F2 : ~ holds A r v x).
      { intros (y & Hy & E). assert (Hy' : In y (A ++ B)) by (apply in_or_app; now left). apply (NA v Hv y Hy').
        apply (holds_column y r v x); [|exact E]. apply (crosscat_views _ _ CP). now right. }
      tauto.
    + rewrite (Qx v r x Hv), (Yx v r x Hv). tauto.
  - intros v k. rewrite (typed_perm _ _ v k P), (typed_perm _ _ v k P'). rewrite !typed_cons, !typed_app.
    destruct (in_dec Z.eq_dec v outs) as [Hv|Hv].
    + rewrite (Qk' v k Hv).
      assert (F1 : ~ typed Y v k) by (intros (y & Hy & E); apply (NY v Hv y Hy); eapply kind_at_column; eauto).
      assert (F2 : ~ typed A v k).
      { intros (y & Hy & E). assert (Hy' : In y (A ++ B)) by (apply in_or_app; now left). apply (NA v Hv y Hy').
        apply (kind_at_column y v k); [|exact E]. apply (crosscat_views _ _ CP). now right. }
      tauto.
    + rewrite (Qk v k Hv), (Yk v k Hv). tauto.
  - intros v w Hv Hw. exists q. split; [apply (Permutation_in _ (Permutation_sym P')); now left|]. rewrite Qc. split; apply in_or_app; now right.
  - intros v w Hv Hw. rewrite (together_perm _ _ v w P), (together_perm _ _ v w P'). rewrite !together_cons, !together_app, Qc.
    rewrite (together_one Y v w LY), (together_one A v w LA), Yc, !in_app_iff, !without_In. tauto.
  - intros a v Ha Hva Hv. apply (Permutation_in _ P) in Ha. destruct Ha as [<-|Ha].
    + assert (Z : In v (flat_map columns_of Y)) by (rewrite Yc; apply without_In; auto). apply in_flat_map in Z. destruct Z as (y & Hy & Hvy).
      exists y. split; [apply (Permutation_in _ (Permutation_sym P')); right; apply in_or_app; now left|]. split; [exact Hvy|]. apply Ys. exact Hy.
    + apply in_app_or in Ha. destruct Ha as [Ha|Ha].
      * exists q. split; [apply (Permutation_in _ (Permutation_sym P')); now left|]. split; [rewrite Qc; apply in_or_app; left; apply in_flat_map; eauto|].
        apply Qs. exact Ha.
      * exists a. split; [apply (Permutation_in _ (Permutation_sym P')); right; apply in_or_app; now right|]. auto.
Qed.

(** The same view sampled again. *)
Lemma reassign_same : forall outs m X, crosscat X -> In m X -> (forall o, In o outs -> In o (columns_of m)) -> reassigned outs X X.
Proof.
  intros outs m X C Hm H. split; [exact C|]. split; [reflexivity|]. split; [reflexivity|]. split; [reflexivity|]. split.
  - intros v w Hv Hw. exists m. auto.
  - split; [reflexivity|]. intros a v Ha Hv _. exists a. auto.
Qed.

(** From the descriptions of the proposals. *)
Lemma joins_moved : forall outs m w D q, good m -> good w -> (forall o, In o outs -> In o (columns_of m)) ->
  map dist_o D = outs -> (forall d, In d D -> kind_at m (dist_o d) = Some (kind_of d)) -> moved D (cells_of m outs) w q -> joins outs m [w] q.
Proof.
  intros outs m w D q Gm Gw H E K (Gq & Q1 & Q2 & Q3 & Q4 & Q5 & Q6 & Q7 & Q8). split; [exact Gq|]. split; [cbn; lia|].
  split; [cbn [flat_map]; rewrite app_nil_r, Q3, E; reflexivity|]. rewrite E in *.
  assert (HD : forall v, In v outs -> exists d, In d D /\ dist_o d = v).
  { intros v Hv. rewrite <- E in Hv. apply in_map_iff in Hv. destruct Hv as (d & <- & Hd). eauto. }
  split; [|split; [|split; [|split]]].
  - intros v r x Hv. rewrite Q5 by exact Hv. split; [intros; exists w; split; [now left|assumption]|intros (a & [<-|[]] & Ea); exact Ea].
  - intros v r x Hv. destruct (HD v Hv) as (d & Hd & <-). rewrite (Q6 r d x Hd). rewrite cells_of_ok by assumption. tauto.
  - intros v k Hv. rewrite Q7 by exact Hv. split; [intros; exists w; split; [now left|assumption]|intros (a & [<-|[]] & Ea); exact Ea].
  - intros v k Hv. destruct (HD v Hv) as (d & Hd & <-). rewrite (Q8 d Hd), (K d Hd). reflexivity.
  - intros a [<-|[]]. auto.
Qed.

Lemma joins_alone : forall outs m label D q, good m -> (forall o, In o outs -> In o (columns_of m)) ->
  map dist_o D = outs -> (forall d, In d D -> kind_at m (dist_o d) = Some (kind_of d)) -> alone label D (cells_of m outs) q -> joins outs m [] q.
Proof.
  intros outs m label D q Gm H E K (Gq & Q1 & Q2 & Q3 & Q4). split; [exact Gq|]. split; [cbn; lia|].
  split; [cbn [flat_map app]; rewrite Q2, E; reflexivity|].
  assert (HD : forall v, In v outs -> exists d, In d D /\ dist_o d = v).
  { intros v Hv. rewrite <- E in Hv. apply in_map_iff in Hv. destruct Hv as (d & <- & Hd). eauto. }
  split; [|split; [|split; [|split]]].
  - intros v r x Hv. split; [|intros (a & [] & _)]. intros Ec. exfalso. apply Hv. rewrite <- E, <- Q2. eapply holds_column; eauto.
  - intros v r x Hv. destruct (HD v Hv) as (d & Hd & <-). rewrite (Q3 r d x Hd). rewrite cells_of_ok by assumption. tauto.
  - intros v k Hv. split; [|intros (a & [] & _)]. intros Ec. exfalso. apply Hv. rewrite <- E, <- Q2. eapply kind_at_column; eauto.
  - intros v k Hv. destruct (HD v Hv) as (d & Hd & <-). rewrite (Q4 d Hd), (K d Hd). reflexivity.
  - intros a [].
Qed.

Lemma leaves_narrowed : forall outs m m', good m -> narrowed outs m m' -> 
  if Nat.ltb 1 (List.length (outputs m')) then leaves_over outs m [m'] else leaves_over outs m [].
Proof.
  intros outs m m' Gm (G & P & N1 & N2 & N3 & N4 & N5 & N6). rewrite plain_outputs by exact P. cbn [List.length].
  destruct (columns_of m') as [|c cs] eqn:EC; cbn [List.length Nat.ltb Nat.leb].
  - assert (NC : forall v, ~ In v outs -> ~ In v (columns_of m)).
    { intros v Hv Y. assert (Z : In v (without outs (columns_of m))) by (apply without_In; auto). rewrite <- N3 in Z. destruct Z. }
    split; [intros y []|]. split; [cbn; lia|]. split; [exact N3|]. split; [|split; [|intros y []]].
    + intros v r x Hv. split; [intros (a & [] & _)|]. intros E. exfalso. apply (NC v Hv). eapply holds_column; eauto.
    + intros v k Hv. split; [intros (a & [] & _)|]. intros E. exfalso. apply (NC v Hv). eapply kind_at_column; eauto.
  - assert (Gd : good m') by (apply plain_good; auto; rewrite EC; discriminate).
    split; [intros y [<-|[]]; exact Gd|]. split; [cbn; lia|]. split; [cbn [flat_map]; rewrite app_nil_r, EC; exact N3|]. split; [|split].
    + intros v r x Hv. rewrite <- (N5 r v Hv). split; [intros (a & [<-|[]] & E); exact E|intros E; exists m'; split; [now left|exact E]].
    + intros v k Hv. rewrite <- (N6 v Hv). split; [intros (a & [<-|[]] & E); exact E|intros E; exists m'; split; [now left|exact E]].
    + intros y [<-|[]]. auto.
Qed.

Lemma crosscat_intro : forall X, (forall m, In m X -> good m) -> NoDup (map label_of X ++ flat_map columns_of X) -> crosscat X.
Proof.
  intros X H ND. split; [exact H|]. apply (Permutation_NoDup (Permutation_sym (crosscat_names X (fun m Hm => proj1 (proj2 (H m Hm)))))). exact ND.
Qed.

Lemma crosscat_labels : forall X, crosscat X -> NoDup (map label_of X ++ flat_map columns_of X).
Proof.
  intros X [H ND]. apply (Permutation_NoDup (crosscat_names X (fun m Hm => proj1 (proj2 (H m Hm))))). exact ND.
Qed.

(** The new list of views is again a CrossCat model. *)
Lemma crosscat_reassigned : forall outs m A B Y q, crosscat (m :: A ++ B) -> NoDup outs -> (forall o, In o outs -> In o (columns_of m)) ->
  joins outs m A q -> leaves_over outs m Y -> (A = [] -> ~ In (label_of q) (flat_map outputs (m :: B))) -> crosscat (q :: Y ++ B).
Proof.
  intros outs m A B Y q C ND H (Gq & LA & Qc & Qx & Qx' & Qk & Qk' & Qs) (GY & LY & Yc & Yx & Yk & Ys) LB.
  assert (Gm : good m) by (apply (crosscat_views _ _ C); now left).
  assert (NDL := crosscat_labels _ C). cbn [map flat_map] in NDL.
  apply crosscat_intro.
  { intros x [<-|Hx]; [exact Gq|]. apply in_app_or in Hx. destruct Hx as [Hx|Hx]; [apply GY; exact Hx|]. apply (crosscat_views _ _ C). right. apply in_or_app. now right. }
  assert (PC : Permutation (flat_map columns_of (q :: Y ++ B)) (columns_of m ++ flat_map columns_of (A ++ B))).
  { cbn [flat_map]. rewrite !flat_map_app, Qc, Yc. rewrite <- (without_perm outs (columns_of m) ND H (columns_NoDup m Gm)) at 2.
    rewrite <- !app_assoc. rewrite (Permutation_app_swap_app (flat_map columns_of A) outs). apply Permutation_app_head. apply Permutation_app_swap_app. }
  rewrite map_app in NDL.
  assert (LY' : map label_of Y = [label_of m] \/ map label_of Y = []).
  { destruct Y as [|y [|y' Y]]; cbn [List.length] in LY; [now right| |lia]. left. cbn [map]. f_equal. apply (Ys y). now left. }
  destruct A as [|a [|a' A]]; cbn [List.length] in LA; [| |lia].
  - specialize (LB eq_refl). cbn [app map flat_map] in *.
    apply (Permutation_NoDup (Permutation_app_head (label_of q :: map label_of (Y ++ B)) (Permutation_sym PC))). rewrite map_app.
    cbn [app]. constructor.
    + intros Z. apply LB. rewrite <- app_assoc in Z. apply in_app_or in Z. rewrite sheet_outputs by apply Gm. cbn [app].
      destruct Z as [Z|Z]; [destruct LY' as [E|E]; rewrite E in Z; [destruct Z as [Z|[]]; now left|destruct Z]|].
      apply in_app_or in Z. right. apply in_or_app. destruct Z as [Z|Z].
      * right. apply in_map_iff in Z. destruct Z as (b & <- & Hb). apply in_flat_map. exists b. split; [exact Hb|].
        rewrite sheet_outputs; [now left|]. apply (crosscat_views _ _ C). now right.
      * apply in_app_or in Z. destruct Z as [Z|Z]; [now left|right]. apply in_flat_map in Z. destruct Z as (b & Hb & Hv). apply in_flat_map. exists b. split; [exact Hb|].
        rewrite sheet_outputs; [now right|]. apply (crosscat_views _ _ C). now right.
    + destruct LY' as [-> | ->]; cbn [app]; [exact NDL|inversion NDL; assumption].
  - destruct (Qs a (or_introl eq_refl)) as (La & _ & _). cbn [app map flat_map] in *.
    apply (Permutation_NoDup (Permutation_app_head (label_of q :: map label_of (Y ++ B)) (Permutation_sym PC))). rewrite map_app.
    cbn [app]. rewrite La.
    destruct LY' as [-> | ->]; cbn [app]; [|inversion NDL; assumption].
    apply (Permutation_NoDup (perm_swap _ _ _)). exact NDL.
Qed.
