(** Proofs about rendered traces (C62). *)
From Coq Require Import List ZArith QArith Qcanon Reals Bool String Ascii Permutation Sorted Lia Lra.
From Verif Require Import Base Xr Samp Lgamma Prims Cgpm Lib SpecPrims PrimsInv SpecComp CompInv CompDens CompThm
  SpecTable SpecHist Table Hist Walks SpecWalks WalksThm Trans Views ViewsThm ViewsThm2 Sample SampleThm SampleThm2 SampleThm3 SampleThm4 Dsl
  DslThm DslThm2 DslThm3 DslThm4.
From Verif Require Import SpecViews SpecSample SpecDsl.
Import ListNotations.
Local Open Scope Z_scope.

(** ** A statement about one view leaves the others alone *)

Lemma ret_bind : forall {A B} (m : samp A) (k : A -> samp B) b, sbind m k = Ret b -> exists a, m = Ret a /\ k a = Ret b.
Proof. intros A B m k b E. destruct m as [a| | | | |]; cbn in E; try discriminate. eauto. Qed.

Lemma interd_all : forall (outs : list Z) (obs : row), (forall k, In k (keys obs) -> In k outs) -> interd outs obs = obs.
Proof.
  intros outs obs. induction obs as [|[k x] obs IH]; intros F; [reflexivity|]. cbn [interd filter fst].
  assert (X : memb k outs = true) by (apply memb_In, F; now left). rewrite X. f_equal. apply IH. intros. apply F. now right.
Qed.

Lemma interd_none : forall (outs : list Z) (obs : row), (forall k, In k (keys obs) -> ~ In k outs) -> interd outs obs = [].
Proof.
  intros outs obs. induction obs as [|[k x] obs IH]; intros F; [reflexivity|]. cbn [interd filter fst].
  assert (X : memb k outs = false) by (destruct (memb k outs) eqn:E; [|reflexivity]; apply memb_In in E; exfalso; exact (F k (or_introl eq_refl) E)).
  rewrite X. apply IH. intros. apply F. now right.
Qed.

Lemma nodup_app : forall {A} (l l' : list A), NoDup (l ++ l') -> NoDup l /\ NoDup l' /\ forall x, In x l -> ~ In x l'.
Proof.
  intros A l l' ND. destruct (NoDup_app_parts _ _ ND) as [A1 A2]. split; [exact A1|]. split; [exact A2|].
  induction l as [|y l IH]; [intros x []|]. cbn in ND. inversion ND as [|? ? NI ND']; subst. intros x [<-|H] H'.
  - apply NI, in_or_app. now right.
  - inversion A1; subst. exact (IH ND' ltac:(assumption) x H H').
Qed.

Lemma prod_skip : forall B rid obs, (forall c k, In c B -> In k (keys obs) -> ~ In k (outputs c)) ->
  prod_observe (map (fun c => (c, observe c)) B) rid obs [] = Ret (B, Ok tt).
Proof.
  intros B rid obs. induction B as [|c B IH]; intros F; [reflexivity|]. cbn [map prod_observe].
  rewrite interd_none by (intros k; apply F; now left). rewrite IH by (intros c' k Hc; apply F; now right). reflexivity.
Qed.

Lemma prod_frame : forall A m B rid obs m', inputs m = [] -> NoDup (flat_map outputs (A ++ m :: B)) -> obs <> [] ->
  (forall k, In k (keys obs) -> In k (outputs m)) -> observe m rid obs [] = Ret (m', Ok tt) ->
  observe (CProd (A ++ m :: B)) rid obs [] = Ret (CProd (A ++ m' :: B), Ok tt).
Proof.
  intros A m B rid obs m' IN ND NE SUB E.
  assert (X : prod_observe (map (fun c => (c, observe c)) (A ++ m :: B)) rid obs [] = Ret (A ++ m' :: B, Ok tt)).
  { induction A as [|c A IH].
    - cbn [app map prod_observe]. rewrite interd_all by exact SUB. destruct obs as [|e obs]; [congruence|].
      rewrite IN. change (interd [] (@nil (Z * val))) with (@nil (Z * val)).
      replace (merged (interd [] (e :: obs)) (@nil (Z * val))) with (@nil (Z * val)).
      2: { rewrite interd_none by (intros ? _ []). reflexivity. }
      rewrite E. cbn [sbind snd fst]. rewrite prod_skip; [reflexivity|].
      intros c k Hc Hk Ho. cbn [app flat_map] in ND. destruct (nodup_app _ _ ND) as (_ & _ & DJ). apply (DJ k); [apply SUB; exact Hk|].
      apply in_flat_map. eauto.
    - cbn [app map prod_observe]. cbn [app flat_map] in ND. destruct (nodup_app _ _ ND) as (_ & ND' & DJ).
      rewrite interd_none.
      + rewrite IH by exact ND'. reflexivity.
      + intros k Hk Ho. apply (DJ k Ho). rewrite flat_map_app. apply in_or_app. right. cbn [flat_map]. apply in_or_app. left. apply SUB. exact Hk. }
  cbn [observe]. rewrite X. reflexivity.
Qed.

Lemma rows_frame : forall d A m B v, wf m -> inputs m = [] -> NoDup (flat_map outputs (A ++ m :: B)) ->
  (forall r obs, In (r, obs) d -> obs <> [] /\ forall k, In k (keys obs) -> In k (outputs m)) -> observe_rows m d = Ret (v, Ok tt) ->
  observe_rows (CProd (A ++ m :: B)) d = Ret (CProd (A ++ v :: B), Ok tt) /\ outputs v = outputs m.
Proof.
  intros d A m B v. revert m. induction d as [|[r obs] d IH]; intros m W IN ND F E.
  - cbn in E |- *. injection E as ->. auto.
  - cbn [observe_rows] in E |- *. apply ret_bind in E. destruct E as ([m1 o] & E1 & E2).
    destruct o as [[]|e]; cbn [fst snd] in E2; [|discriminate].
    destruct (F r obs (or_introl eq_refl)) as [NE SUB].
    assert (AL := observe_wf m W r obs []). rewrite E1 in AL. cbn [always fst] in AL. destruct AL as [W1 K1].
    rewrite (prod_frame A m B r obs m1 IN ND NE SUB E1). cbn [sbind snd fst].
    destruct (IH m1 W1) as (X1 & X2).
    + now apply wf_inputs.
    + rewrite flat_map_app in *. cbn [flat_map] in *. rewrite K1. exact ND.
    + intros r' obs' H'. rewrite K1. apply F with r'. now right.
    + exact E2.
    + split; [exact X1|congruence].
Qed.

(** ** A whole trace *)

Lemma settings_hypers : forall ds ds', map settings ds = map settings ds' -> Forall2 (fun d d' => dist_get_hypers d = dist_get_hypers d') ds ds'.
Proof.
  intros ds. induction ds as [|d ds IH]; intros [|d' ds'] E; try discriminate; constructor; cbn [map] in E.
  - assert (E1 : settings d = settings d') by congruence. rewrite <- (hypers_settings d), E1, hypers_settings. reflexivity.
  - apply IH. congruence.
Qed.

Lemma seat_recorded : forall m l r, consistent m -> recorded_rows m l -> seat m r = option_map vz (lookup r l).
Proof.
  intros m l r K (dv & ED & DD). rewrite (seat_divider m dv r K ED), DD. unfold as_data. clear.
  induction l as [|[r0 t0] l IH]; [reflexivity|]. cbn [map lookup fst snd]. destruct (eq_dec r r0); [reflexivity|exact IH].
Qed.

Lemma observe_rows_app : forall l1 l2 c v, observe_rows c l1 = Ret (v, Ok tt) -> observe_rows c (l1 ++ l2) = observe_rows v l2.
Proof.
  induction l1 as [|[r obs] l1 IH]; intros l2 c v E; [cbn in E; injection E as ->; reflexivity|]. cbn [app observe_rows] in E |- *.
  apply ret_bind in E. destruct E as ([c1 [u|e]] & E1 & E2); cbn [fst snd] in E2; [|discriminate].
  rewrite E1. cbn [sbind fst snd]. now apply IH.
Qed.

(** One view: its statements rebuild its table in the emptied view. *)
Lemma view_replayed : forall m m0, good m -> emptied m m0 -> in_cluster_order m -> no_empty_rows m ->
  exists d v, get_view_observes m = Ok d /\ observe_rows m0 d = Ret (v, Ok tt) /\ good v /\ outputs v = outputs m0 /\ replayed m v /\
    forall r obs, In (r, obs) d -> obs <> [] /\ forall k, In k (keys obs) -> In k (outputs m0).
Proof.
  intros m m0 G (NV & EL & EC & EK & (s & s' & D1 & D2 & HR) & FB) (l & RR & NE & ST) NR.
  destruct (replay_set m l m0 G RR NE NR ST NV EL EC EK) as (f & d & v & RN & ED & EO & Gv & SC & SE & CE & SL & KS).
  assert (OUT : forall w, good w -> outputs w = label_of w :: columns_of w).
  { intros w (_ & Sh & _). destruct (sheet_inv w Sh) as (s1 & bs1 & cs1 & r2i1 & r2c1 & -> & _). reflexivity. }
  assert (G0 : good m0) by (destruct (new_view_good _ NV) as (RE & Sh & K & _); split; [apply creachable_grown, RE|split; assumption]).
  destruct SC as (C1 & C2 & C3). exists d, v. split; [exact ED|]. split; [exact EO|]. split; [exact Gv|].
  split; [rewrite (OUT v Gv), (OUT m0 G0), C1, C2; reflexivity|]. split.
  2: { intros r obs H. destruct (KS r obs H) as [N1 N2]. split; [exact N1|]. intros k Hk. rewrite (OUT m0 G0), EL, EC. now apply N2. }
  split; [congruence|]. split; [congruence|]. split; [intros o; rewrite C3; apply EK|]. split; [exact CE|].
  assert (SM := fun r => seat_recorded m l r (proj2 (proj2 G)) RR). split; [|split; [|split]].
  - intros r. rewrite SE, SM. destruct (lookup r l); cbn; split; (congruence || reflexivity).
  - intros r r'. rewrite !SE, !SM. destruct (lookup r l) as [t|] eqn:L1; [|cbn; congruence]. destruct (lookup r' l) as [t'|] eqn:L2; [|cbn; congruence].
    intros _ _. cbn [option_map]. assert (VI : forall a b, Some (vz a) = Some (vz b) -> a = b).
    { intros a b E. assert (E' : VQ (qz a) = VQ (qz b)) by (unfold vz in E; congruence). assert (E2 : qz a = qz b) by congruence. rewrite <- (trunc_qz a), <- (trunc_qz b), E2. reflexivity. }
    split; intros E; apply VI in E; [|now subst]. do 2 f_equal.
    apply lookup_In, (in_map snd) in L1. apply lookup_In, (in_map snd) in L2. now apply (proj1 RN).
  - destruct NV as (s1 & bs1 & E1 & _). destruct (SL s1 bs1 E1) as (s2 & cs & r2i & r2c & EV & SS & CC). subst v m0.
    exists s, (DCrp s2). split; [exact D1|]. split; [reflexivity|]. cbn in D2. injection D2 as <-.
    unfold hypers_rounded in *. rewrite <- (hypers_settings (DCrp s2)), SS, hypers_settings. exact HR.
  - intros k. destruct NV as (s1 & bs1 & E1 & _). destruct (SL s1 bs1 E1) as (s2 & cs & r2i & r2c & EV & SS & CC). subst v m0.
    change (base_columns (new_flexmix (DCrp s1) (CProd (map CDist bs1)))) with (leaves (CProd (map CDist bs1))) in FB. rewrite leaves_prod in FB.
    cbn [cluster_columns mkview]. destruct (lookup k cs) as [c|] eqn:LK; [|rewrite leaves_prod; exact FB].
    apply lookup_In in LK. destruct (CC k c LK) as (ds & -> & ES). rewrite leaves_prod. apply settings_hypers in ES.
    clear - FB ES. revert ds ES. induction FB as [|a b la lb HR FB IH]; intros ds ES; inversion ES as [|x y dx dy E1 E2]; subst; constructor.
    + unfold hypers_rounded in *. rewrite E1. exact HR.
    + apply IH. exact E2.
Qed.

Lemma execute_rows : forall X X0, (forall m, In m X -> good m /\ in_cluster_order m /\ no_empty_rows m) -> Forall2 emptied X X0 ->
  exists ds X', oseq (map get_view_observes X) = Ok ds /\ Forall2 replayed X X' /\ (forall v, In v X' -> good v) /\ flat_map outputs X' = flat_map outputs X0 /\
    forall A, NoDup (flat_map outputs (A ++ X0)) -> observe_rows (CProd (A ++ X0)) (List.concat ds) = Ret (CProd (A ++ X'), Ok tt).
Proof.
  intros X X0 G F. induction F as [|m m0 X X0 EM F IH].
  - exists [], []. split; [reflexivity|]. split; [constructor|]. split; [intros v []|]. split; [reflexivity|]. reflexivity.
  - destruct IH as (ds & X' & E & FR & GX & OX & OB); [intros; apply G; now right|].
    destruct (G m (or_introl eq_refl)) as (Gm & CO & NR).
    destruct (view_replayed m m0 Gm EM CO NR) as (d & v & ED & EO & Gv & OV & RV & KS).
    exists (d :: ds), (v :: X'). split; [cbn [map oseq]; rewrite ED; cbn [obind]; rewrite E; reflexivity|].
    split; [constructor; assumption|]. split; [intros w [<-|H]; auto|]. split; [cbn [flat_map]; congruence|].
    intros A ND. cbn [List.concat].
    assert (G0 : wf m0) by (destruct EM as (NV & _); destruct (new_view_good _ NV) as (RE & _); now apply creachable_wf).
    destruct (rows_frame d A m0 X0 v G0 (wf_inputs _ G0) ND KS EO) as (Y1 & Y2).
    rewrite (observe_rows_app _ _ _ _ Y1).
    specialize (OB (A ++ [v])). rewrite <- !app_assoc in OB. cbn [app] in OB. apply OB.
    rewrite flat_map_app in *. cbn [flat_map] in *. rewrite OV. exact ND.
Qed.

Lemma trace_ok : forall X, crosscat X -> X <> [] ->
  (forall m s, In m X -> divider m = Some s -> visible_hypers s) ->
  (forall m d, In m X -> In d (base_columns m) -> in_language d /\ visible_hypers d) ->
  (forall m, In m X -> in_cluster_order m /\ no_empty_rows m) ->
  exists program X', render_trace_in_embedded_dsl (CProd X) = Ok program /\ execute_trace program = Ret (Ok (CProd X')) /\
    crosscat X' /\ Forall2 replayed X X'.
Proof.
  intros X CX NE VD VC OR. destruct (reinterpret_ok X CX NE VD VC) as (ast & X0 & E1 & E2 & CX0 & F).
  destruct (execute_rows X X0) as (ds & X' & ED & FR & GX & OX & OB); [|exact F|].
  { intros m Hm. split; [apply CX; exact Hm|]. now apply OR. }
  unfold interpret_ast in E2. destruct (compile_ast_to_core_dsl ast) as [core|] eqn:E3; cbn [obind] in E2; [|discriminate].
  destruct (compile_core_dsl_to_embedded_dsl core) as [calls|] eqn:E4; cbn [obind] in E2; [|discriminate].
  exists (calls, List.concat ds), X'. split; [|split; [|split; [split|exact FR]]].
  - unfold render_trace_in_embedded_dsl, convert_crosscat_to_embedded_dsl_model. rewrite E1. cbn [obind]. rewrite E3. cbn [obind]. rewrite E4. cbn [obind].
    unfold get_crosscat_observes. rewrite ED. reflexivity.
  - unfold execute_trace. cbn [fst snd]. rewrite E2. assert (Y := OB [] (proj2 CX0)). cbn [app] in Y. rewrite Y. reflexivity.
  - exact GX.
  - rewrite OX. apply CX0.
Qed.
