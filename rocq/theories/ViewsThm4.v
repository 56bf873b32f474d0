From Coq Require Import List ZArith QArith Qcanon Reals Bool String Permutation Lia Lra.
From Verif Require Import Base Xr Samp Lgamma Prims Cgpm Lib SpecPrims PrimsInv PrimsDens PrimsThm2
  SpecComp CompInv CompDens CompThm SpecBook Book SpecTable SpecSim SimShape SimTotal SimLaw Trans SpecHist Table Gibbs Hist Meta MetaThm
  Walks SpecWalks WalksThm PropPrims PropWalks Views SpecViews ViewsThm ViewsThm2 ViewsThm3.
Import ListNotations.
Local Open Scope Z_scope.

(** ** Taking a proposal *)

Lemma crosscat_left : forall outs m B Y, crosscat (m :: B) -> leaves_over outs m Y -> crosscat (B ++ Y).
Proof.
  intros outs m B Y C (GY & LY & Yc & _ & _ & Ys). assert (CB : crosscat B) by (apply (crosscat_sub [] m B C)).
  destruct Y as [|y [|y' Y]]; cbn [List.length] in LY; [rewrite app_nil_r; exact CB| |lia].
  assert (Gy := GY y (or_introl eq_refl)). destruct (Ys y (or_introl eq_refl)) as (Ly & _).
  apply crosscat_snoc; [exact CB|exact Gy|]. apply ViewsThm2.NoDup_app_intro; [apply CB|apply wf_outputs_NoDup, good_wf; exact Gy|].
  intros v Hv Hy. destruct C as [C ND]. cbn [flat_map] in ND. apply (NoDup_app_disj _ _ ND v); [|exact Hv].
  rewrite sheet_outputs in * by (apply Gy || (apply C; now left)). cbn [flat_map] in Yc. rewrite app_nil_r in Yc. rewrite Yc, Ly in Hy.
  destruct Hy as [Hy|Hy]; [now left|right]. apply without_In in Hy. apply Hy.
Qed.

Lemma other_view : forall (l r : list cgpm) m i w, nth_error (l ++ m :: r) i = Some w -> i <> List.length l -> exists l2 r2, l ++ r = l2 ++ w :: r2.
Proof.
  intros l r m i w E N. apply in_split. apply in_or_app. destruct (Nat.lt_ge_cases i (List.length l)) as [L|L].
  - left. rewrite nth_error_app1 in E by exact L. eapply nth_error_In; eauto.
  - right. rewrite nth_error_app2 in E by exact L. destruct (i - List.length l)%nat as [|j] eqn:J; [lia|]. cbn [nth_error] in E. eapply nth_error_In; eauto.
Qed.

Lemma first_label : forall v, good v -> first_output v = Ok (label_of v).
Proof. intros v G. unfold first_output. rewrite sheet_outputs by apply G. reflexivity. Qed.

(** Every label of [X'] is one of [X] or satisfies [F]. *)
Definition labelled (F : Z -> Prop) (X X' : list cgpm) : Prop := forall z, In z (map label_of X') -> In z (map label_of X) \/ F z.

Lemma labelled_intro : forall F (X R : list cgpm) Y q m, (forall x, In x R -> In x X) -> In m X -> (forall y, In y Y -> label_of y = label_of m) ->
  In (label_of q) (map label_of X) \/ F (label_of q) -> labelled F X ((R ++ Y) ++ [q]).
Proof.
  intros F X R Y q m HR Hm HY Hq z Hz. apply in_map_iff in Hz. destruct Hz as (x & <- & Hx). apply in_app_or in Hx. destruct Hx as [Hx|[<-|[]]]; [|exact Hq].
  left. apply in_app_or in Hx. destruct Hx as [Hx|Hx]; [apply in_map; auto|]. rewrite (HY x Hx). apply in_map. exact Hm.
Qed.

Lemma take_ok : forall F outs l m r D E S i, let X := l ++ m :: r in crosscat X -> outs <> [] -> NoDup outs -> (forall o, In o outs -> In o (columns_of m)) ->
  map dist_o D = outs -> (forall d, In d D -> kind_at m (dist_o d) = Some (kind_of d)) ->
  List.length E = List.length X ->
  (forall j w, j <> List.length l -> nth_error X j = Some w -> exists q, nth_error E j = Some q /\ moved D (cells_of m outs) w q) ->
  (forall q, In q S -> exists label, F label /\ outputs q = label :: outs /\ (~ In label outs -> alone label D (cells_of m outs) q)) ->
  (i < List.length (E ++ S))%nat ->
  (forall c, take_proposal (CProd X) outs (E ++ S) (List.length l) i = Ok c -> exists X', c = CProd X' /\ reassigned outs X X' /\ labelled F X X') /\
  ((forall z, F z -> ~ In z (flat_map outputs X)) -> exists c, take_proposal (CProd X) outs (E ++ S) (List.length l) i = Ok c).
Proof.
  intros F outs l m r D E S i X C NE ND H ED KD LE HE HS Hi.
  assert (Gm : good m) by (apply (crosscat_views _ m C); apply in_or_app; right; now left).
  assert (IC : item X (List.length l) = Ok m) by (unfold item, X; rewrite nth_error_app2, Nat.sub_diag by lia; reflexivity).
  destruct (nth_error (E ++ S) i) as [q|] eqn:EQ; [|apply nth_error_None in EQ; lia].
  assert (IQ : item (E ++ S) i = Ok q) by (unfold item; rewrite EQ; reflexivity).
  assert (CR : remove_cgpm (CProd X) (label_of m) = Ok (CProd (l ++ r))) by (apply crosscat_remove; exact C).
  unfold take_proposal. cbn [views_of]. rewrite IC. cbn [obind]. rewrite IQ. cbn [obind].
  destruct (Nat.eqb (List.length l) i) eqn:EI.
  { split; [|eauto]. intros c Ec. injection Ec as <-. exists X. split; [reflexivity|]. split; [apply reassign_same with m; auto; apply in_or_app; right; now left|now left]. }
  apply Nat.eqb_neq in EI.
  destruct (good_plain m Gm) as [Gr Pm].
  destruct (remove_all_ok outs m Gr Pm) as (m' & Em & Nm).
  { intros Y. apply (label_outside m (good_wf m Gm)); [apply Gm|]. apply H. exact Y. }
  rewrite Em. cbn [obind]. rewrite (first_label m Gm). cbn [obind]. rewrite CR. cbn [obind].
  assert (LO := leaves_narrowed outs m m' Gm Nm).
  assert (PX : Permutation X (m :: l ++ r)) by (apply Permutation_sym, Permutation_middle).
  assert (CX := crosscat_perm _ _ PX C).
  assert (Y2 : exists Y, leaves_over outs m Y /\ (if Nat.ltb 1 (List.length (outputs m')) then add_cgpm (CProd (l ++ r)) m' else Ok (CProd (l ++ r))) = Ok (CProd ((l ++ r) ++ Y))).
  { destruct (Nat.ltb 1 (List.length (outputs m'))).
    - exists [m']. split; [exact LO|]. apply crosscat_add. apply (crosscat_left outs m (l ++ r) [m'] CX LO).
    - exists []. split; [exact LO|]. rewrite app_nil_r. reflexivity. }
  destruct Y2 as (Y & LY & EY). rewrite EY. cbn [obind]. clear EY LO.
  assert (CY := crosscat_left outs m (l ++ r) Y CX LY).
  destruct (Nat.leb (List.length X) i) eqn:EL.
  - apply Nat.leb_le in EL. rewrite nth_error_app2 in EQ by lia. apply nth_error_In in EQ. destruct (HS q EQ) as (label & HF & OQ & AL).
    assert (JN : ~ In label outs -> joins outs m [] q) by (intros N; apply (joins_alone outs m label D q Gm H ED KD (AL N))).
    split.
    + intros c Ec. cbn [add_cgpm] in Ec. apply new_product_inv in Ec. destruct Ec as (-> & NDc & _).
      assert (NL : ~ In label outs).
      { rewrite flat_map_app in NDc. cbn [flat_map] in NDc. rewrite app_nil_r, OQ in NDc. apply NoDup_app_parts in NDc. destruct NDc as [_ NDc].
        inversion NDc; assumption. }
      assert (J := JN NL). assert (Gq : good q) by apply J.
      assert (C' : crosscat (((l ++ r) ++ Y) ++ [q])).
      { split; [|exact NDc]. intros x Hx. apply in_app_or in Hx. destruct Hx as [Hx|[<-|[]]]; [apply CY; exact Hx|exact Gq]. }
      exists (((l ++ r) ++ Y) ++ [q]). split; [f_equal; apply flatten_views; intros x Hx; apply (crosscat_views _ _ C' Hx)|].
      split; [apply (reassign_intro outs m [] (l ++ r) Y q); auto; rewrite <- Permutation_cons_append; constructor; apply Permutation_app_comm|].
      apply (labelled_intro F X (l ++ r) Y q m).
      * intros x Hx. apply in_app_or in Hx. apply in_or_app. destruct Hx; [now left|right; now right].
      * apply in_or_app. right. now left.
      * intros y Hy. apply LY. exact Hy.
      * right. destruct (AL NL) as (_ & -> & _). exact HF.
    + intros HZ. assert (NL : ~ In label (flat_map outputs X)) by (apply HZ; exact HF).
      assert (J : joins outs m [] q).
      { apply JN. intros Z. apply NL. apply in_flat_map. exists m. split; [apply in_or_app; right; now left|]. apply column_output; [apply Gm|]. apply H. exact Z. }
      assert (C' : crosscat (q :: Y ++ (l ++ r))).
      { apply (crosscat_reassigned outs m [] (l ++ r) Y q CX ND H J LY). intros _ Z. apply NL.
        assert (Gq : good q) by apply J. rewrite sheet_outputs in OQ by apply Gq. injection OQ as <- _.
        apply (Permutation_in _ (Permutation_flat_map outputs (Permutation_sym PX))). exact Z. }
      eexists. apply crosscat_add. apply (crosscat_perm (q :: Y ++ (l ++ r))); [|exact C'].
      rewrite <- Permutation_cons_append. constructor. apply Permutation_app_comm.
  - apply Nat.leb_gt in EL. rewrite nth_error_app1 in EQ by lia. destruct (nth_error X i) as [w|] eqn:EW; [|apply nth_error_None in EW; lia].
    destruct (HE i w) as (q' & EQ' & MV); [congruence|exact EW|]. rewrite EQ in EQ'. injection EQ' as <-.
    destruct (other_view l r m i w EW) as (l2 & r2 & ER); [congruence|].
    assert (Gw : good w) by (apply (crosscat_views _ w C); eapply nth_error_In; eauto).
    assert (J := joins_moved outs m w D q Gm Gw H ED KD MV). assert (Gq : good q) by apply J.
    unfold item. rewrite EW. cbn [obind]. rewrite (first_label w Gw), (first_label q Gq). cbn [obind].
    assert (LQ : label_of q = label_of w) by apply MV. rewrite LQ, Z.eqb_refl. cbn [oassert obind].
    rewrite ER in *. rewrite <- app_assoc in *. cbn [app] in *. rewrite (crosscat_remove l2 w (r2 ++ Y) CY). cbn [obind].
    assert (PB : Permutation (m :: l2 ++ w :: r2) (m :: [w] ++ (l2 ++ r2))) by (apply perm_skip; cbn [app]; apply Permutation_sym, Permutation_middle).
    assert (C' : crosscat (q :: Y ++ (l2 ++ r2))).
    { apply (crosscat_reassigned outs m [w] (l2 ++ r2) Y q); auto; [|discriminate]. apply (crosscat_perm _ _ PB). exact CX. }
    assert (P' : Permutation ((l2 ++ r2 ++ Y) ++ [q]) (q :: Y ++ l2 ++ r2)).
    { rewrite <- Permutation_cons_append. constructor. rewrite app_assoc. apply Permutation_app_comm. }
    assert (C2 := crosscat_perm _ _ (Permutation_sym P') C'). rewrite (crosscat_add (l2 ++ r2 ++ Y) q C2).
    split; [|eauto]. intros c Ec. injection Ec as <-. exists ((l2 ++ r2 ++ Y) ++ [q]). split; [reflexivity|].
    split; [apply (reassign_intro outs m [w] (l2 ++ r2) Y q); auto; etransitivity; [exact PX|exact PB]|].
    rewrite app_assoc. apply (labelled_intro F X (l2 ++ r2) Y q m).
    + intros x Hx. apply (Permutation_in _ (Permutation_sym PX)). right. apply in_app_or in Hx. apply in_or_app. destruct Hx; [now left|right; now right].
    + apply in_or_app. right. now left.
    + intros y Hy. apply LY. exact Hy.
    + left. rewrite LQ. apply in_map. eapply nth_error_In. exact EW.
Qed.

(** ** The proposals *)

Lemma existing_ok : forall vs i cur D T L, 
  (forall v j, nth_error vs j = Some v -> (i + j)%nat <> cur -> exists q, proposal_existing_one v D L = Ret (v, Ok q) /\ moved D T v q) -> 
  (Z.of_nat cur <= 256)%Z ->
  exists E, proposals_existing i cur vs D L = Ret (vs, Ok E) /\ List.length E = List.length vs /\
    (forall j w, (i + j)%nat <> cur -> nth_error vs j = Some w -> exists q, nth_error E j = Some q /\ moved D T w q) /\
    (forall j w, (i + j)%nat = cur -> nth_error vs j = Some w -> nth_error E j = Some w).
Proof.
  induction vs as [|v vs IH]; intros i cur D T L H HC.
  - exists []. split; [reflexivity|]. split; [reflexivity|]. split; intros [|j] w _ E; discriminate.
  - cbn [proposals_existing].
    destruct (IH (S i) cur D T L) as (E & E1 & E2 & E3 & E4); [|exact HC|].
    { intros v' j Hv N. apply (H v' (S j)); [exact Hv|lia]. }
    destruct (Nat.eq_dec i cur) as [->|NI].
    + replace (int_is (Z.of_nat cur) (Z.of_nat cur)) with true.
      * cbn [sbind snd fst]. rewrite E1. cbn [sbind fst snd omap]. exists (v :: E). split; [reflexivity|]. split; [cbn; lia|].
        split; intros [|j] w N Ew; [lia| |exact Ew|lia]. cbn [nth_error] in *. apply E3; [lia|exact Ew].
      * symmetry. unfold int_is. rewrite Z.eqb_refl. cbn. rewrite (proj2 (Z.leb_le _ _)) by lia. rewrite (proj2 (Z.leb_le _ _)) by lia. reflexivity.
    + replace (int_is (Z.of_nat i) (Z.of_nat cur)) with false.
      * destruct (H v 0%nat eq_refl) as (q & Eq & Mq); [lia|]. rewrite Eq. cbn [sbind snd fst]. rewrite E1. cbn [sbind fst snd omap].
        exists (q :: E). split; [reflexivity|]. split; [cbn; lia|].
        split; intros [|j] w N Ew; cbn [nth_error] in *; [injection Ew as <-; eauto| |lia|]; [apply E3|apply E4]; try lia; exact Ew.
      * symmetry. unfold int_is. rewrite (proj2 (Z.eqb_neq _ _)) by lia. reflexivity.
Qed.

Lemma repeat_given : forall {A} F (mm : samp (out A)) (P : A -> Prop) (U : Prop) n,
  given F mm (fun r => (forall a, r = Ok a -> P a) /\ (U -> exists a, r = Ok a)) ->
  given F (srepeat n mm) (fun r => (forall l, r = Ok l -> forall a, In a l -> P a) /\ (U -> exists l, r = Ok l /\ List.length l = n)).
Proof.
  intros A F mm P U n H. induction n as [|n IH].
  - cbn [srepeat given]. split; [intros l E; injection E as <-; intros a []|]. intros _. exists []. auto.
  - cbn [srepeat]. unfold sobind. apply given_bind. revert H. apply given_imp. intros [a|e] [H1 H2].
    + apply given_bind. revert IH. apply given_imp. intros [l|e] [I1 I2]; cbn [given].
      * split; [intros l' E; injection E as <-; intros b [<-|Hb]; [apply H1; reflexivity|apply (I1 l eq_refl); exact Hb]|].
        intros u. destruct (I2 u) as (l' & E & <-). injection E as <-. exists (a :: l). auto.
      * split; [discriminate|]. intros u. destruct (I2 u) as (l' & E & _). discriminate.
    + cbn [given]. split; [discriminate|]. intros u. destruct (H2 u) as (b & E). discriminate.
Qed.

Lemma xsum_Fin : forall l, (forall x, In x l -> exists r, x = Fin r) -> exists r, xsum l = Fin r.
Proof.
  induction l as [|x l IH]; intros H; [exists 0%R; reflexivity|]. change (xsum (x :: l)) with (xadd x (xsum l)).
  destruct (H x (or_introl eq_refl)) as (a & ->). destruct IH as (b & ->); [intros; apply H; now right|]. exists (a + b)%R. reflexivity.
Qed.

Lemma oseq_fin : forall {A} (f : A -> out xr) l, (forall a, In a l -> exists r, f a = Ok (Fin r)) ->
  exists rs, oseq (map f l) = Ok (map Fin rs) /\ List.length rs = List.length l.
Proof.
  induction l as [|a l IH]; intros H; [exists []; split; reflexivity|]. destruct (H a (or_introl eq_refl)) as (x & E).
  destruct IH as (rs & E' & L); [intros; apply H; now right|]. exists (x :: rs). cbn [map oseq]. rewrite E. cbn [obind]. rewrite E'. split; [reflexivity|cbn; lia].
Qed.

Lemma wf_prims : forall c, wf c -> forall d, In d (prims c) -> dinv d.
Proof.
  intros c W. induction W as [d Dd|cs Wc IH ND|div cs r2i r2c Dd F SU NE Wc IH OO|div b cs r2i r2c Dd HS Wb IHb NI ND Wc IH OO]; intros x Hx; cbn [prims] in Hx.
  - destruct Hx as [<-|[]]. exact Dd.
  - apply in_flat_map in Hx. destruct Hx as (c & Hc & Hx). eapply IH; eauto.
  - destruct Hx as [<-|Hx]; [exact Dd|]. apply in_flat_map in Hx. destruct Hx as (c & Hc & Hx). eapply IH; eauto.
  - destruct Hx as [<-|Hx]; [exact Dd|]. apply in_app_or in Hx. destruct Hx as [Hx|Hx]; [|auto]. apply in_flat_map in Hx.
    destruct Hx as ([k c] & Hc & Hx). eapply IH; eauto.
Qed.

Lemma oseq_fin_dec : forall l : list xr, (exists rs, l = map Fin rs) \/ ~ exists rs, l = map Fin rs.
Proof.
  induction l as [|x l IH]; [left; exists []; reflexivity|]. destruct IH as [(rs & ->)|N].
  - destruct x as [a| | |]; [left; exists (a :: rs); reflexivity| | |]; right; intros ([|b rs'] & E); discriminate.
  - right. intros ([|b rs] & E); [discriminate|]. injection E as _ E. apply N. eauto.
Qed.

Lemma column_score : forall v o, wf v -> In o (outputs v) -> exists x, get_cgpm_data_logp v o = Ok (Fin x).
Proof.
  intros v o W Ho. unfold get_cgpm_data_logp. rewrite (find_ok v W o Ho). cbn [obind].
  destruct (oseq_fin dist_score (modelling v o)) as (rs & E & _).
  - intros d Hd. exists (prim_score d). apply prim_score_ok. unfold modelling in Hd. apply filter_In in Hd. apply (wf_prims v W). apply Hd.
  - rewrite E. cbn [omap]. destruct (xsum_Fin (map Fin rs)) as (x & Ex); [|rewrite Ex; eauto]. intros y Hy. apply in_map_iff in Hy. destruct Hy as (z & <- & _). eauto.
Qed.

Lemma proposal_score : forall v outs, wf v -> (forall o, In o outs -> In o (outputs v)) ->
  exists x, omap xsum (oseq (map (get_cgpm_data_logp v) outs)) = Ok (Fin x).
Proof.
  intros v outs W H. destruct (oseq_fin (get_cgpm_data_logp v) outs) as (rs & E & _).
  - intros o Ho. apply column_score; auto.
  - rewrite E. cbn [omap]. destruct (xsum_Fin (map Fin rs)) as (x & Ex); [|rewrite Ex; eauto]. intros y Hy. apply in_map_iff in Hy. destruct Hy as (z & <- & _). eauto.
Qed.

Lemma choose_fin : forall rs, rs <> [] -> exists k, log_pflip (map Fin rs) = Flip k (fun i => Ret (Ok i)) /\ List.length k = List.length rs.
Proof.
  intros rs NE. exists (map exp rs). split; [|apply map_length].
  assert (X := flip_positive rs exp NE). rewrite map_ext_in with (g := fun a => xlog (exp a)).
  - apply X. intros; apply exp_pos.
  - intros a _. unfold xlog. destruct (Rlt_dec 0 (exp a)) as [_|N]; [rewrite ln_exp; reflexivity|]. exfalso. apply N. apply exp_pos.
Qed.

(** ** The move *)

Lemma transition_main : forall F outs l m r aux, let X := l ++ m :: r in crosscat X -> outs <> [] -> NoDup outs ->
  (forall o, In o outs -> In o (columns_of m)) -> aligned outs X -> (Z.of_nat (List.length l) <= 256)%Z ->
  given F (transition_cgpm_view_assigments (CProd X) outs aux) (fun p => fst p = CProd X /\
    (forall c, snd p = Ok c -> exists X', c = CProd X' /\ reassigned outs X X' /\ labelled F X X') /\
    ((forall z, F z -> ~ In z (flat_map outputs X)) -> exists c, snd p = Ok c)).
Proof.
  intros F outs l m r aux X C NE ND H AL HL.
  assert (Gm : good m) by (apply (crosscat_views _ m C); apply in_or_app; right; now left).
  assert (Hm : In m X) by (apply in_or_app; right; now left).
  assert (EI : get_cgpm_current_view_index (CProd X) outs = Ok (List.length l)).
  { apply index_ok; auto. intros o Ho. apply column_output; [apply Gm|]. apply H. exact Ho. }
  destruct (bases_ok l m r outs C H) as (D & ED & FD). destruct (datasets_ok l m r outs C H) as (L & EL & FL).
  fold X in ED, EL. destruct (blanks m outs D Gm H ND FD) as (OD & HD & SU).
  assert (KD : forall d, In d D -> kind_at m (dist_o d) = Some (kind_of d)) by (intros d Hd; apply HD; exact Hd).
  destruct (existing_ok X 0 (List.length l) D (cells_of m outs) L) as (E & E1 & E2 & E3 & E4); [|exact HL|].
  { intros v j Ev Nj. cbn [Nat.add] in Nj. assert (Hv : In v X) by (eapply nth_error_In; eauto).
    apply (existing_one D (cells_of m outs) v L); [apply (crosscat_views _ v C Hv)| |exact SU|exact FL|].
    - split; [|rewrite OD; exact ND]. intros d Hd. destruct (HD d Hd) as (R1 & R2 & R3 & _). split; [exact R1|]. split; [exact R2|]. split; [exact R3|].
      destruct (other_view l r m j v Ev Nj) as (l2 & r2 & ER). apply (one_view l m r v (dist_o d) C).
      + apply column_output; [apply Gm|]. apply H. rewrite <- OD. now apply in_map.
      + rewrite ER. apply in_or_app. right. now left.
    - intros r' o x Ht. apply cells_of_ok in Ht; auto. destruct Ht as [Ho Ec]. apply (AL r' o x Ho); [|exact Hv]. exists m. auto. }
  unfold transition_cgpm_view_assigments, get_cgpm_view_proposals, get_cgpm_view_proposals_existing.
  rewrite EI, ED, EL. cbn [obind views_of]. rewrite E1. cbn [sbind fst snd].
  unfold get_cgpm_view_proposals_singleton. rewrite ED, EL. cbn [obind].
  apply given_bind. apply given_bind.
  assert (SG := singleton_one D (cells_of m outs) L F).
  assert (NED : D <> []) by (intros ->; apply NE; rewrite <- OD; reflexivity).
  assert (HD' : forall d, In d D -> reachable d /\ dist_data d = [] /\ kind_of d <> KTable) by (intros d Hd; destruct (HD d Hd) as (? & ? & ? & _); auto).
  assert (NDD : NoDup (map dist_o D)) by (rewrite OD; exact ND).
  specialize (SG NED HD' NDD SU FL).
  assert (SR := repeat_given F (proposal_singleton_one D L) _ _ aux SG). revert SR. apply given_imp.
  assert (LX : (0 < List.length X)%nat) by (unfold X; rewrite app_length; cbn; lia).
  intros s [S1 S2]. cbn [given fst snd]. destruct s as [S0|e].
  2:{ cbn [obind given fst snd]. split; [reflexivity|]. split; [discriminate|]. intros HZ. exfalso. destruct S2 as (l0 & E0 & _); [|discriminate].
      intros z Hz Y. apply (HZ z Hz). apply in_flat_map. exists m. split; [exact Hm|]. apply column_output; [apply Gm|]. apply H. rewrite <- OD. exact Y. }
  specialize (S1 S0 eq_refl). rewrite OD in S1. cbn [obind fst snd]. rewrite EI.
  assert (TK : forall i, (i < List.length (E ++ S0))%nat -> _) by (intros i Hi; exact (take_ok F outs l m r D E S0 i C NE ND H OD KD E2 E3 S1 Hi)).
  assert (SC : (forall z, F z -> ~ In z (flat_map outputs X)) ->
    exists rs, oseq (map (fun v => omap xsum (oseq (map (get_cgpm_data_logp v) outs))) (E ++ S0)) = Ok (map Fin rs) /\ List.length rs = List.length (E ++ S0)).
  { intros HZ. apply (oseq_fin (fun v => omap xsum (oseq (map (get_cgpm_data_logp v) outs)))). intros q Hq. apply in_app_or in Hq.
    assert (Z : good q /\ forall o, In o outs -> In o (columns_of q)).
    { destruct Hq as [Hq|Hq].
      - apply In_nth_error in Hq. destruct Hq as (j & Ej). destruct (nth_error X j) as [w|] eqn:Ew.
        + destruct (Nat.eq_dec j (List.length l)) as [Ejl|Nj].
          * rewrite (E4 j w Ejl Ew) in Ej. injection Ej as <-. subst j. unfold X in Ew. rewrite nth_error_app2, Nat.sub_diag in Ew by lia. injection Ew as <-. auto.
          * destruct (E3 j w Nj Ew) as (q' & Eq & MV). rewrite Ej in Eq. injection Eq as <-. split; [apply MV|]. intros o Ho.
            destruct MV as (_ & _ & _ & -> & _). rewrite OD. apply in_or_app. now right.
        + apply nth_error_None in Ew. assert (j < List.length E)%nat by (apply nth_error_Some; congruence). lia.
      - destruct (S1 q Hq) as (label & HF & _ & AQ). assert (NL : ~ In label outs).
        { intros Y. apply (HZ label HF). apply in_flat_map. exists m. split; [exact Hm|]. apply column_output; [apply Gm|]. apply H. exact Y. }
        specialize (AQ NL). split; [apply AQ|]. destruct AQ as (_ & _ & -> & _). rewrite OD. auto. }
    destruct Z as [Gq Cq]. apply proposal_score; [apply good_wf; exact Gq|]. intros o Ho. apply column_output; [apply Gq|]. apply Cq. exact Ho. }
  destruct (oseq (map (fun v => omap xsum (oseq (map (get_cgpm_data_logp v) outs))) (E ++ S0))) as [lps|e] eqn:EO.
  2:{ cbn [obind given fst snd]. split; [reflexivity|]. split; [discriminate|]. intros HZ. destruct (SC HZ) as (rs & Er & _). discriminate. }
  cbn [obind]. apply given_bind. apply given_always. 
  assert (LL : List.length lps = List.length (E ++ S0)) by (apply oseq_length in EO; rewrite map_length in EO; exact EO).
  assert (FI := flip_index lps).
  assert (FO : always (log_pflip lps) (fun i => (forall z, F z -> ~ In z (flat_map outputs X)) -> exists j, i = Ok j)).
  { destruct (oseq_fin_dec lps) as [(rs & ->)|N].
    - destruct (choose_fin rs) as (k & -> & _).
      + intros ->. cbn in LL. rewrite app_length in LL. lia.
      + cbn [always]. eauto.
    - apply always_True. intros a HZ. exfalso. destruct (SC HZ) as (rs & Er & _). injection Er as ->. apply N. eauto. }
  generalize (always_and _ _ _ FI FO). apply always_imp. intros [i|e] [A1 A2]; cbn [given fst snd obind].
  - cbn in A1. destruct (TK i) as [T1 T2]; [lia|]. split; [reflexivity|]. split; [exact T1|exact T2].
  - split; [reflexivity|]. split; [discriminate|]. intros HZ. destruct (A2 HZ) as (j & Ej). discriminate.
Qed.

(** ** The deterministic moves *)

Lemma removal_ok : forall outs l m r, let X := l ++ m :: r in crosscat X -> (forall o, In o outs -> In o (columns_of m)) ->
  exists m' Y, remove_all outs m = Ok m' /\ leaves_over outs m Y /\ crosscat ((l ++ r) ++ Y) /\ first_output m = Ok (label_of m) /\
    remove_cgpm (CProd X) (label_of m) = Ok (CProd (l ++ r)) /\
    (if Nat.ltb 1 (List.length (outputs m')) then add_cgpm (CProd (l ++ r)) m' else Ok (CProd (l ++ r))) = Ok (CProd ((l ++ r) ++ Y)).
Proof.
  intros outs l m r X C H. assert (Gm : good m) by (apply (crosscat_views _ m C); apply in_or_app; right; now left).
  destruct (good_plain m Gm) as [Gr Pm].
  destruct (remove_all_ok outs m Gr Pm) as (m' & Em & Nm).
  { intros Y. apply (label_outside m (good_wf m Gm)); [apply Gm|]. apply H. exact Y. }
  assert (LO := leaves_narrowed outs m m' Gm Nm).
  assert (CX : crosscat (m :: l ++ r)) by (apply (crosscat_perm X); [apply Permutation_sym, Permutation_middle|exact C]).
  assert (CR : remove_cgpm (CProd X) (label_of m) = Ok (CProd (l ++ r))) by (apply crosscat_remove; exact C).
  assert (FL := first_label m Gm).
  exists m'. destruct (Nat.ltb 1 (List.length (outputs m'))).
  - exists [m']. split; [exact Em|]. split; [exact LO|]. assert (CY := crosscat_left outs m (l ++ r) [m'] CX LO).
    split; [exact CY|]. split; [exact FL|]. split; [exact CR|]. apply crosscat_add. exact CY.
  - exists []. split; [exact Em|]. split; [exact LO|]. assert (CY := crosscat_left outs m (l ++ r) [] CX LO).
    split; [exact CY|]. split; [exact FL|]. split; [exact CR|]. rewrite app_nil_r. reflexivity.
Qed.

Lemma set_nth_same : forall (l r : list cgpm) w, set_nth (List.length l) w (l ++ w :: r) = l ++ w :: r.
Proof. induction l as [|a l IH]; intros r w; [reflexivity|]. cbn [List.length app set_nth]. f_equal. apply IH. Qed.

Lemma item_at : forall (l r : list cgpm) w, item (l ++ w :: r) (List.length l) = Ok w.
Proof. intros. unfold item. rewrite nth_error_app2, Nat.sub_diag by lia. reflexivity. Qed.

Lemma set_existing_main : forall X o0 o1 m w, crosscat X -> In m X -> In o0 (columns_of m) -> In w X -> In o1 (columns_of w) ->
  (forall r x, cell m r o0 = Some x -> seat w r <> None) ->
  exists X', set_cgpm_view_assignment (CProd X) o0 (Some o1) = Ret (CProd X, Ok (CProd X')) /\ reassigned [o0] X X' /\ together X' o0 o1 /\
    labelled (fun _ => False) X X'.
Proof.
  intros X o0 o1 m w C Hm H0 Hw H1 AL.
  assert (Gm := crosscat_views _ m C Hm). assert (Gw := crosscat_views _ w C Hw).
  destruct (in_split _ _ Hm) as (l & r & EX). destruct (in_split _ _ Hw) as (l' & r' & EX').
  cbn [set_cgpm_view_assignment]. unfold set_assignment_existing.
  assert (I0 : get_cgpm_current_view_index (CProd X) [o0] = Ok (List.length l)).
  { rewrite EX in *. apply index_ok; [exact C|discriminate|]. intros o [<-|[]]. apply column_output; [apply Gm|exact H0]. }
  assert (I1 : get_cgpm_current_view_index (CProd X) [o1] = Ok (List.length l')).
  { rewrite EX' in *. apply index_ok; [exact C|discriminate|]. intros o [<-|[]]. apply column_output; [apply Gw|exact H1]. }
  rewrite I0, I1. cbn [obind]. destruct (Nat.eqb (List.length l) (List.length l')) eqn:EQ.
  { apply Nat.eqb_eq in EQ. assert (EW : m = w).
    { assert (N : nth_error X (List.length l) = Some m) by (rewrite EX, nth_error_app2, Nat.sub_diag by lia; reflexivity).
      assert (N' : nth_error X (List.length l') = Some w) by (rewrite EX', nth_error_app2, Nat.sub_diag by lia; reflexivity). congruence. }
    subst w. exists X. split; [reflexivity|]. split; [apply reassign_same with m; auto; intros o [<-|[]]; exact H0|]. split; [exists m; auto|now left]. }
  apply Nat.eqb_neq in EQ. cbn [views_of].
  destruct (other_view l r m (List.length l') w) as (l2 & r2 & ER).
  { rewrite <- EX, EX', nth_error_app2, Nat.sub_diag by lia. reflexivity. } { congruence. }
  assert (IM : item X (List.length l) = Ok m) by (rewrite EX; apply item_at).
  assert (IW : item X (List.length l') = Ok w) by (rewrite EX'; apply item_at).
  assert (HO : forall o, In o [o0] -> In o (columns_of m)) by (intros o [<-|[]]; exact H0).
  assert (CE : crosscat (l ++ m :: r)) by (rewrite <- EX; exact C).
  destruct (removal_ok [o0] l m r CE HO) as (m' & Y & RM & LY & CY & FM & CR & EY). rewrite <- EX in CR.
  assert (RM' : remove_cgpm m o0 = Ok m'). { unfold remove_all in RM. cbn [fold_left obind] in RM. exact RM. }
  destruct (base_ok l m r o0 CE H0) as (d & EB & BD). rewrite <- EX in EB.
  assert (ED := dataset_ok l m r o0 CE H0). rewrite <- EX in ED.
  rewrite IM. cbn [obind]. rewrite RM'. cbn [obind]. rewrite IW. cbn [obind]. rewrite EB. cbn [obind]. rewrite ED. cbn [obind].
  destruct (blanks m [o0] [d] Gm HO) as (OD & HD & SU); [repeat constructor; intros []|constructor; [exact BD|constructor]|].
  assert (CC : List.concat [entries (triples o0 (modelling m o0))] = entries (cells_of m [o0])).
  { unfold cells_of. cbn [List.concat flat_map]. rewrite !app_nil_r. reflexivity. }
  destruct (existing_one [d] (cells_of m [o0]) w [entries (triples o0 (modelling m o0))] Gw) as (q & EP & MV); [|exact SU|exact CC| |].
  { split; [|rewrite OD; repeat constructor; intros []]. intros x Hx. destruct (HD x Hx) as (R1 & R2 & R3 & _). repeat (split; [assumption|]).
    apply (one_view l m r w (dist_o x) CE).
    - apply column_output; [apply Gm|]. apply HO. rewrite <- OD. now apply in_map.
    - rewrite ER. apply in_or_app. right. now left. }
  { intros r0 o x Ht. apply cells_of_ok in Ht; auto. destruct Ht as [[<-|[]] Ec]. apply (AL r0 x Ec). }
  rewrite EP. cbn [sbind fst snd obind].
  assert (ES : set_nth (List.length l') w X = X) by (rewrite EX'; apply set_nth_same). rewrite ES.
  rewrite FM. cbn [obind]. rewrite CR. cbn [obind]. rewrite EY. cbn [obind]. rewrite (first_label w Gw). cbn [obind].
  assert (KD : forall x, In x [d] -> kind_at m (dist_o x) = Some (kind_of x)) by (intros x Hx; apply HD; exact Hx).
  assert (J := joins_moved [o0] m w [d] q Gm Gw HO OD KD MV). assert (Gq : good q) by apply J.
  rewrite ER in CY |- *. rewrite <- app_assoc in CY |- *. cbn [app] in CY |- *. rewrite (crosscat_remove l2 w (r2 ++ Y) CY). cbn [obind].
  assert (PX : Permutation X (m :: [w] ++ (l2 ++ r2))).
  { rewrite EX. etransitivity; [apply Permutation_sym, Permutation_middle|]. rewrite ER. apply perm_skip. cbn [app]. apply Permutation_sym, Permutation_middle. }
  assert (ND : NoDup [o0]) by (repeat constructor; intros []).
  assert (C' : crosscat (q :: Y ++ (l2 ++ r2))).
  { apply (crosscat_reassigned [o0] m [w] (l2 ++ r2) Y q); auto; [|discriminate]. apply (crosscat_perm _ _ PX). exact C. }
  assert (P' : Permutation ((l2 ++ r2 ++ Y) ++ [q]) (q :: Y ++ l2 ++ r2)).
  { rewrite <- Permutation_cons_append. constructor. rewrite app_assoc. apply Permutation_app_comm. }
  assert (C2 := crosscat_perm _ _ (Permutation_sym P') C'). rewrite (crosscat_add (l2 ++ r2 ++ Y) q C2).
  eexists. split; [reflexivity|]. split; [apply (reassign_intro [o0] m [w] (l2 ++ r2) Y q); auto|]. assert (MV0 := MV). split.
  - exists q. split; [apply in_or_app; right; now left|]. destruct MV as (_ & _ & _ & EQC & _). rewrite EQC, OD.
    split; apply in_or_app; [right; now left|left; exact H1].
  - rewrite app_assoc. apply (labelled_intro _ X (l2 ++ r2) Y q m).
    + intros x Hx. apply (Permutation_in _ (Permutation_sym PX)). right. right. exact Hx.
    + exact Hm.
    + intros y Hy. apply LY. exact Hy.
    + left. destruct MV0 as (_ & -> & _). apply in_map. exact Hw.
Qed.

Lemma set_singleton_main : forall F X o0 m, crosscat X -> In m X -> In o0 (columns_of m) ->
  given F (set_cgpm_view_assignment (CProd X) o0 None) (fun p => fst p = CProd X /\
    (forall c, snd p = Ok c -> exists X', c = CProd X' /\ reassigned [o0] X X' /\ (forall v, together X' o0 v -> v = o0) /\ labelled F X X') /\
    ((forall z, F z -> ~ In z (flat_map outputs X)) -> exists c, snd p = Ok c)).
Proof.
  intros F X o0 m C Hm H0. assert (Gm := crosscat_views _ m C Hm). destruct (in_split _ _ Hm) as (l & r & EX).
  cbn [set_cgpm_view_assignment]. unfold set_assignment_singleton.
  assert (I0 : get_cgpm_current_view_index (CProd X) [o0] = Ok (List.length l)).
  { rewrite EX in *. apply index_ok; [exact C|discriminate|]. intros o [<-|[]]. apply column_output; [apply Gm|exact H0]. }
  rewrite I0. cbn [obind views_of].
  assert (IM : item X (List.length l) = Ok m) by (rewrite EX; apply item_at).
  assert (HO : forall o, In o [o0] -> In o (columns_of m)) by (intros o [<-|[]]; exact H0).
  assert (ND : NoDup [o0]) by (repeat constructor; intros []).
  assert (CE : crosscat (l ++ m :: r)) by (rewrite <- EX; exact C).
  destruct (removal_ok [o0] l m r CE HO) as (m' & Y & RM & LY & CY & FM & CR & EY). rewrite <- EX in CR.
  assert (RM' : remove_cgpm m o0 = Ok m'). { unfold remove_all in RM. cbn [fold_left obind] in RM. exact RM. }
  destruct (base_ok l m r o0 CE H0) as (d & EB & BD). rewrite <- EX in EB.
  assert (ED := dataset_ok l m r o0 CE H0). rewrite <- EX in ED.
  rewrite IM. cbn [obind]. rewrite RM'. cbn [obind]. rewrite EB. cbn [obind]. rewrite ED. cbn [obind].
  destruct (blanks m [o0] [d] Gm HO) as (OD & HD & SU); [exact ND|constructor; [exact BD|constructor]|].
  assert (CC : List.concat [entries (triples o0 (modelling m o0))] = entries (cells_of m [o0])).
  { unfold cells_of. cbn [List.concat flat_map]. rewrite !app_nil_r. reflexivity. }
  assert (KD : forall x, In x [d] -> kind_at m (dist_o x) = Some (kind_of x)) by (intros x Hx; apply HD; exact Hx).
  apply given_bind.
  assert (SG := singleton_one [d] (cells_of m [o0]) [entries (triples o0 (modelling m o0))] F).
  assert (HD' : forall x, In x [d] -> reachable x /\ dist_data x = [] /\ kind_of x <> KTable) by (intros x Hx; destruct (HD x Hx) as (? & ? & ? & _); auto).
  assert (NDD : NoDup (map dist_o [d])) by (rewrite OD; exact ND).
  assert (NED : [d] <> []) by discriminate. specialize (SG NED HD' NDD SU CC).
  revert SG. apply given_imp. intros res [S1 S2]. rewrite OD in S1, S2. cbn [given fst snd]. rewrite FM. cbn [obind]. rewrite CR. cbn [obind]. rewrite EY. cbn [obind].
  assert (PX : Permutation X (m :: l ++ r)) by (rewrite EX; apply Permutation_sym, Permutation_middle).
  assert (CX := crosscat_perm _ _ PX C).
  assert (P' : forall q : cgpm, Permutation (((l ++ r) ++ Y) ++ [q]) (q :: Y ++ (l ++ r))).
  { intros q. rewrite <- Permutation_cons_append. constructor. apply Permutation_app_comm. }
  split; [reflexivity|]. destruct res as [q|e]; cbn [obind].
  2:{ split; [discriminate|]. intros HZ. exfalso. destruct S2 as (q & E0); [|discriminate].
      intros z Hz [Y0|[]]. apply (HZ z Hz). apply in_flat_map. exists m. split; [exact Hm|]. rewrite <- Y0. apply column_output; [apply Gm|exact H0]. }
  destruct (S1 q eq_refl) as (label & HF & OQ & AQ).
  split.
  - intros c Ec. cbn [add_cgpm] in Ec. apply new_product_inv in Ec. destruct Ec as (-> & NDc & _).
    assert (NL : ~ In label [o0]).
    { rewrite flat_map_app in NDc. cbn [flat_map] in NDc. rewrite app_nil_r, OQ in NDc. apply NoDup_app_parts in NDc. destruct NDc as [_ NDc].
      inversion NDc; assumption. }
    specialize (AQ NL). assert (J := joins_alone [o0] m label [d] q Gm HO OD KD AQ). assert (Gq : good q) by apply J.
    assert (C' : crosscat (((l ++ r) ++ Y) ++ [q])).
    { split; [|exact NDc]. intros x Hx. apply in_app_or in Hx. destruct Hx as [Hx|[<-|[]]]; [apply CY; exact Hx|exact Gq]. }
    exists (((l ++ r) ++ Y) ++ [q]). split; [f_equal; apply flatten_views; intros x Hx; apply (crosscat_views _ _ C' Hx)|].
    split; [apply (reassign_intro [o0] m [] (l ++ r) Y q); auto|]. split.
    2:{ apply (labelled_intro F X (l ++ r) Y q m).
        - intros x Hx. apply (Permutation_in _ (Permutation_sym PX)). now right.
        - exact Hm.
        - intros y Hy. apply LY. exact Hy.
        - right. destruct AQ as (_ & -> & _). exact HF. }
    intros v (x & Hx & Hx0 & Hxv).
    assert (Cq : columns_of q = [o0]) by (destruct AQ as (_ & _ & -> & _); exact OD).
    assert (EQ : x = q).
    { apply (Permutation_in _ (P' q)) in Hx. destruct Hx as [Hx|Hx]; [auto|]. exfalso. assert (CP := crosscat_perm _ _ (P' q) C').
      apply (one_view [] q (Y ++ (l ++ r)) x o0 CP); [|exact Hx|].
      - apply column_output; [apply Gq|]. rewrite Cq. now left.
      - apply column_output; [|exact Hx0]. apply (crosscat_views _ _ CP). now right. }
    subst x. rewrite Cq in Hxv. destruct Hxv as [Hxv|[]]. auto.
  - intros HZ. assert (NL : ~ In label (flat_map outputs X)) by (apply HZ; exact HF).
    assert (NL' : ~ In label [o0]).
    { intros [Z|[]]. apply NL. apply in_flat_map. exists m. split; [exact Hm|]. rewrite <- Z. apply column_output; [apply Gm|exact H0]. }
    assert (J := joins_alone [o0] m label [d] q Gm HO OD KD (AQ NL')).
    assert (C' : crosscat (q :: Y ++ (l ++ r))).
    { apply (crosscat_reassigned [o0] m [] (l ++ r) Y q CX ND HO J LY). intros _ Z. apply NL.
      assert (Gq : good q) by apply J. rewrite sheet_outputs in OQ by apply Gq. injection OQ as <- _.
      apply (Permutation_in _ (Permutation_flat_map outputs (Permutation_sym PX))). exact Z. }
    eexists. apply crosscat_add. apply (crosscat_perm _ _ (Permutation_sym (P' q)) C').
Qed.
