(** Proofs for PropNetScore.v. *)
From Coq Require Import List ZArith QArith Qcanon Reals Bool String Permutation Lia Lra.
From Verif Require Import Base Xr Samp Prims Cgpm Lib SpecPrims PrimsInv SpecComp CompInv CompDens CompThm SimShape SpecWalks WalksThm Book SpecBook
  Chain SpecChain ChainThm Regress SpecRegress RegressThm RegressThm2 RegressMeta SpecReload ReloadThm PropBook PropRegress SpecNetScore.
Import ListNotations.
Local Open Scope Z_scope.

(** ** When some child cannot answer, the chain cannot *)

Lemma levels_fail : forall ns rid S I topo w l n e, disjoint_rows I S -> determined ns S I -> NoDup (keys S) ->
  (forall i, In i topo -> nth_error ns i <> None) -> In l topo -> nth_error ns l = Some n -> local n rid S I = Err e ->
  exists e', levels ns rid [] I topo S w = Ret (Err e').
Proof.
  intros ns rid S I0 topo w l n e DJ DT NS TT Hl En L. revert w. induction topo as [|i topo IH]; intros w; [destruct Hl|].
  cbn [levels]. destruct (nth_error ns i) as [m|] eqn:Em; [|exfalso; apply (TT i); [now left|exact Em]].
  destruct (local m rid S I0) as [x|e'] eqn:LM.
  - rewrite (invoke_given ns rid m S I0 x) by eauto using nth_error_In. cbn [sobind sbind fst snd]. rewrite merged_nil_r by exact NS.
    destruct Hl as [->|Hl]; [congruence|]. apply IH; [|exact Hl]. intros j Hj. apply TT. now right.
  - assert (X : exists e2, invoke rid m [] S I0 = Ret (Err e2)).
    { unfold invoke. rewrite (inputs_given m S I0 DJ), interl_nil. unfold local in LM. rewrite cells_of_interd in LM.
      destruct (interd (n_outs m) S) as [|p r]; [discriminate|].
      destruct (oassert _) as [u|e2]; [|eexists; reflexivity]. rewrite LM. eexists. reflexivity. }
    destruct X as [e2 ->]. exists e2. reflexivity.
Qed.

Lemma locals_answer : forall ns acc ch rid T I x, new_chain ns acc = Ok ch -> disjoint_rows I T -> exogenous ns I ->
  determined ns T I -> chain_logpdf ch rid T [] I = Ret (Ok x) ->
  exists ws, Forall2 (fun n w => local n rid T I = Ok w) ns ws /\ x = xsum ws.
Proof.
  intros ns acc ch rid T I0 x CH DJ EX DT H. destruct (new_chain_inv _ _ _ CH) as (EN & PA & ND & PM & BF).
  destruct (disjoint_parts _ _ DJ) as (NI & NS & _).
  assert (D : (exists ws, Forall2 (fun n w => local n rid T I0 = Ok w) ns ws) \/ exists n e, In n ns /\ local n rid T I0 = Err e).
  { clear - ns. induction ns as [|n ns IH]; [left; exists []; constructor|]. destruct (local n rid T I0) as [w|e] eqn:L; [|right; exists n, e; split; [now left|exact L]].
    destruct IH as [[ws F]|(m & e & Hm & L')]; [left; exists (w :: ws); constructor; assumption|right; exists m, e; split; [now right|exact L']]. }
  destruct D as [[ws F]|(n & e & Hn & L)].
  - exists ws. split; [exact F|]. assert (FV : exists vs, Forall2 (fun n w => local n rid [] I0 = Ok w) ns vs).
    { clear. induction ns as [|n ns [vs F]]; [exists []; constructor|]. exists (Fin 0 :: vs). constructor; [reflexivity|exact F]. }
    destruct FV as [vs FV]. assert (DC : determined ns [] I0) by (intros m Hm C; exfalso; apply C; reflexivity).
    rewrite (logpdf_given ns acc ch rid T [] I0 ws vs) in H; rewrite ?app_nil_r; auto; [injection H as <-; reflexivity|].
    unfold disjoint_rows. rewrite app_nil_r. exact NS.
  - exfalso. apply In_nth_error in Hn. destruct Hn as [i En].
    assert (IT : In i (ch_topo ch)) by (apply (Permutation_in i PM), in_seq; split; [lia|]; apply nth_error_Some; congruence).
    assert (TT : forall j, In j (ch_topo ch) -> nth_error ns j <> None).
    { intros j Hj. apply (Permutation_in j (Permutation_sym PM)), in_seq in Hj. apply nth_error_Some. lia. }
    destruct (levels_fail ns rid T I0 (ch_topo ch) (Fin 0) i n e DJ DT NS TT IT En L) as [e' LV].
    unfold chain_logpdf in H. rewrite merged_nil_r in H by exact NS.
    assert (W : weighted_sample ch rid [] T I0 = Ret (Err e')).
    { unfold weighted_sample. rewrite EN, (required_none ns _ T I0 EX DT). cbn [app]. rewrite LV. reflexivity. }
    destruct (ch_accuracy ch) as [|k] eqn:EA; [lia|]. cbn [srepeat] in H. rewrite W in H. discriminate.
Qed.

(** ** Regressions see their inputs only by name *)

Lemma process_named : forall code t I J, (forall i, lookup i I = lookup i J) -> process_inputs code t I = process_inputs code t J.
Proof. intros code t I0 J H. unfold process_inputs. do 2 f_equal. apply map_ext. intros i. unfold dget. rewrite H. reflexivity. Qed.

Lemma table_observe_named : forall code t rid obs I J, (forall i, lookup i I = lookup i J) -> table_observe code t rid obs I = table_observe code t rid obs J.
Proof.
  intros code t rid obs I0 J H. unfold table_observe. rewrite (process_named code t I0 J H).
  replace (map (fun i => lookup i J) (t_ins t)) with (map (fun i => lookup i I0) (t_ins t)) by (apply map_ext; exact H). reflexivity.
Qed.

Lemma linreg_observe_named : forall g rid obs I J, (forall i, lookup i I = lookup i J) -> linreg_observe g rid obs I = linreg_observe g rid obs J.
Proof. intros g rid obs I0 J H. unfold linreg_observe. rewrite (table_observe_named _ _ _ _ I0 J H). reflexivity. Qed.

Lemma lookup_swap : forall (a b : row), disjoint_rows a b -> forall i, lookup i (a ++ b) = lookup i (b ++ a).
Proof.
  intros a b D i. destruct (disjoint_parts _ _ D) as (_ & _ & X). rewrite !lookup_app.
  destruct (lookup i a) as [x|] eqn:A, (lookup i b) as [y|] eqn:B; try reflexivity.
  exfalso. apply (X i); [apply lookup_In in A; apply (in_map fst) in A; exact A|apply lookup_In in B; apply (in_map fst) in B; exact B].
Qed.

Lemma parents_then_given : forall ins (obs inp : row), disjoint_rows inp obs ->
  forall i, lookup i (merged (interd ins obs) (interd ins inp)) = lookup i (cells_of ins (inp ++ obs)).
Proof.
  intros ins obs inp D i. destruct (disjoint_parts _ _ D) as (NI & NO & X).
  assert (D' : disjoint_rows (interd ins inp) (interd ins obs)).
  { unfold disjoint_rows, keys. rewrite map_app. apply NoDup_both; try (apply NoDup_keys_interd; assumption).
    intros k H1 H2. apply keys_interd_sub in H1. apply keys_interd_sub in H2. apply (X k); assumption. }
  rewrite merged_disj; try (apply NoDup_keys_interd; assumption).
  - rewrite cells_of_interd, interd_app. symmetry. apply lookup_swap. exact D'.
  - intros k H1 H2. apply keys_interd_sub in H1. apply keys_interd_sub in H2. apply (X k); assumption.
Qed.

(** ** One child *)

Lemma part_node_outs : forall m, n_outs (part_node m) = part_outs m.
Proof. intros [c|g|f]; reflexivity. Qed.

Lemma part_step : forall m rid obs inp oc l, scorable m -> welcome rid obs m -> disjoint_rows inp obs -> oc = interd (part_outs m) obs -> oc <> [] ->
  local (part_node m) (Some rid) obs inp = Ok (Fin l) ->
  always (part_observe m rid oc (merged (interd (part_ins m) obs) (interd (part_ins m) inp)))
    (fun p => snd p = Ok tt -> scorable (fst p) /\ forall s, part_score m = Ok (Fin s) -> part_score (fst p) = Ok (Fin (s + l))).
Proof.
  intros [c|g|f] rid obs inp oc l SC WE DJ EO NE LO; [| |destruct SC].
  - destruct SC as (G & F & C). destruct WE as [U WE]. cbn [part_outs part_ins] in *. rewrite (wf_inputs c (grown_wf c G)).
    assert (N0 : forall r : row, interd [] r = []) by (intros r; unfold interd; induction r as [|[k x] r IH]; [reflexivity|cbn; exact IH]).
    rewrite !N0. change (merged [] []) with (@nil (Z * val)). cbn [part_observe]. apply always_bind.
    assert (A := always_self (observe c rid oc [])). assert (B := observe_tidy c (conj F C) rid oc []). assert (AB := always_and _ _ _ A B). revert AB. apply always_imp.
    intros [c' r] [P T']. cbn [always fst snd] in *. intros ->. split.
    + split; [exact (gr_observe c rid oc [] c' _ G P)|]. destruct T'. split; assumption.
    + intros s HS. cbn [part_score] in *. unfold local in LO. cbn [part_node node_of n_outs n_ins n_logpdf] in LO. rewrite !cells_of_interd, (wf_inputs c (grown_wf c G)), N0 in LO. rewrite cells_of_interd in WE. cbv zeta in WE.
      rewrite <- EO in *. destruct (WE NE) as [NM LB]. destruct (disjoint_parts _ _ DJ) as (_ & NO & _).
      destruct (C29_observe_adds_logpdf c rid oc l c') as (s' & S1 & S2); auto.
      * rewrite EO. apply NoDup_keys_interd. exact NO.
      * intros k Hk. rewrite EO in Hk. apply In_keys_interd in Hk. apply Hk.
      * destruct oc; [congruence|exact LO].
      * rewrite S1 in HS. injection HS as ->. exact S2.
  - cbn [part_outs part_ins part_observe always fst snd part_score] in *. destruct SC as (g0 & FR & US).
    assert (IN := parents_then_given (t_ins (lr_table g)) obs inp DJ).
    rewrite (linreg_observe_named g rid oc _ _ IN). intros OK. destruct (linreg_observe g rid oc (cells_of (t_ins (lr_table g)) (inp ++ obs))) as [g' r] eqn:E. cbn [fst snd] in *. subst r.
    split.
    + exists g0. split; [exact FR|]. replace g' with (fst (linreg_observe g rid oc (cells_of (t_ins (lr_table g)) (inp ++ obs)))) by (rewrite E; reflexivity). apply used_observe. exact US.
    + intros s HS. unfold local in LO. cbn [part_node n_outs n_ins n_logpdf part_outs part_ins] in LO. rewrite cells_of_interd, <- EO in LO.
      assert (LP : linreg_logpdf g (Some rid) oc [] (cells_of (t_ins (lr_table g)) (inp ++ obs)) = Ok (Fin l)) by (destruct oc; [congruence|exact LO]).
      rewrite (C57_score_step g0 g rid oc _ g' s (Fin l) FR US E HS LP). reflexivity.
Qed.

(** ** The whole chain *)

Lemma xadd_fin : forall a b r, xadd a b = Fin r -> exists u v, a = Fin u /\ b = Fin v /\ r = (u + v)%R.
Proof. intros [u| | |] [v| | |] r H; cbn in H; try discriminate. injection H as <-. eauto. Qed.

Lemma ok_fin : forall a b : xr, Ok a = Ok b -> a = b.
Proof. intros a b H. exact (f_equal (fun o => match o with Ok v => v | Err _ => XNan end) H). Qed.

Lemma xsum_head : forall x l, xsum (x :: l) = xadd x (xsum l).
Proof. reflexivity. Qed.

Lemma network_step : forall ms rid obs inp ws l, (forall m, In m ms -> scorable m) -> (forall m, In m ms -> welcome rid obs m) -> disjoint_rows inp obs ->
  Forall2 (fun m w => local (part_node m) (Some rid) obs inp = Ok w) ms ws -> xsum ws = Fin l ->
  always (network_observe ms rid obs inp) (fun p => snd p = Ok tt -> (forall m, In m (fst p) -> scorable m) /\
    forall s, omap xsum (oseq (map part_score ms)) = Ok (Fin s) -> omap xsum (oseq (map part_score (fst p))) = Ok (Fin (s + l))).
Proof.
  intros ms rid obs inp ws l SC WE DJ F. revert l. induction F as [|m w ms ws LO F IH]; intros l SL.
  - cbn [network_observe always fst snd map oseq omap]. intros _. split; [intros m []|]. intros s H. cbn in SL. injection SL as <-. rewrite Rplus_0_r. exact H.
  - rewrite xsum_head in SL. destruct (xadd_fin _ _ _ SL) as (lm & lr & -> & EW & ->).
    assert (SCm : scorable m) by (apply SC; now left). assert (WEm : welcome rid obs m) by (apply WE; now left).
    specialize (IH (fun m' H => SC m' (or_intror H)) (fun m' H => WE m' (or_intror H)) lr EW).
    assert (SPLIT : forall a l0 s, omap xsum (oseq (a :: l0)) = Ok (Fin s) -> exists sm sr, a = Ok (Fin sm) /\ omap xsum (oseq l0) = Ok (Fin sr) /\ s = (sm + sr)%R).
    { intros a l0 s H. cbn [oseq] in H. destruct a as [x|e]; [|discriminate]. cbn [obind] in H. destruct (oseq l0) as [xs|e]; [|discriminate]. cbn [obind omap] in *.
      apply ok_fin in H. rewrite xsum_head in H. destruct (xadd_fin _ _ _ H) as (u & v & -> & -> & ->). eauto. }
    assert (JOIN : forall sm sr l0, omap xsum (oseq l0) = Ok (Fin sr) -> omap xsum (oseq (Ok (Fin sm) :: l0)) = Ok (Fin (sm + sr))).
    { intros sm sr l0 H. cbn [oseq obind]. destruct (oseq l0) as [xs|e]; [|discriminate]. cbn [obind omap] in *. apply ok_fin in H. rewrite xsum_head, H. reflexivity. }
    cbn [network_observe]. destruct (interd (part_outs m) obs) as [|q oc] eqn:EO.
    + apply always_bind. revert IH. apply always_imp. intros [ms' r] H. cbn [always fst snd] in *. intros OK. destruct (H OK) as [A B]. split.
      * intros x [<-|Hx]; [exact SCm|auto].
      * intros s HS. cbn [map] in *. destruct (SPLIT _ _ _ HS) as (sm & sr & E1 & E2 & ->). rewrite E1.
        assert (lm = 0%R) as ->. { unfold local in LO. rewrite part_node_outs, cells_of_interd, EO in LO. injection LO as <-. reflexivity. }
        rewrite (JOIN sm (sr + lr)%R) by (apply B; exact E2). do 2 f_equal. lra.
    + apply always_bind. assert (P := part_step m rid obs inp (q :: oc) lm SCm WEm DJ (eq_sym EO) ltac:(discriminate) LO). revert P. apply always_imp.
      intros [m' r] P. cbn [fst snd] in *. destruct r as [[]|e]; [|cbn [always snd]; intros X; discriminate]. destruct (P eq_refl) as [SC' PS].
      apply always_bind. revert IH. apply always_imp. intros [ms' r'] H. cbn [always fst snd] in *. intros OK. destruct (H OK) as [A B]. split.
      * intros x [<-|Hx]; [exact SC'|auto].
      * intros s HS. cbn [map] in *. destruct (SPLIT _ _ _ HS) as (sm & sr & E1 & E2 & ->). rewrite (PS sm E1).
        rewrite (JOIN (sm + lm)%R (sr + lr)%R) by (apply B; exact E2). do 2 f_equal. lra.
Qed.

Lemma local_map : forall ms rid obs inp ws, Forall2 (fun n w => local n rid obs inp = Ok w) (map part_node ms) ws ->
  Forall2 (fun m w => local (part_node m) rid obs inp = Ok w) ms ws.
Proof. induction ms as [|m ms IH]; intros rid obs inp ws F; inversion F; subst; constructor; auto. Qed.

Lemma network_gains : forall nw rid obs inp l ms', (forall m, In m (nw_parts nw) -> scorable m) -> fits (nw_parts nw) rid obs inp ->
  network_logpdf nw (Some rid) obs [] inp = Ret (Ok (Fin l)) ->
  possible (network_observe (nw_parts nw) rid obs inp) (fun r => r = (ms', Ok tt)) ->
  (forall m, In m ms' -> scorable m) /\
  forall s acc, network_score nw = Ok (Fin s) -> network_score (mkNetwork ms' acc) = Ok (Fin (s + l)).
Proof.
  intros nw rid obs inp l ms' SC (WE & DJ & EX & DT) LP P. unfold network_logpdf in LP.
  destruct (new_chain (map part_node (nw_parts nw)) (Some (nw_accuracy nw))) as [ch|e] eqn:CH; [|discriminate].
  destruct (locals_answer _ _ _ _ _ _ _ CH DJ EX DT LP) as (ws & F & E). apply local_map in F.
  destruct (always_possible _ _ _ (network_step (nw_parts nw) rid obs inp ws l SC WE DJ F (eq_sym E)) P) as (p & H & ->). cbn [fst snd] in H.
  destruct (H eq_refl) as [A B]. split; [exact A|]. intros s acc HS. apply B. exact HS.
Qed.

Lemma network_rows : forall nw t nw', (forall m, In m (nw_parts nw) -> scorable m) -> gathered nw t nw' ->
  (forall m, In m (nw_parts nw') -> scorable m) /\
  forall s, network_score nw = Ok (Fin s) -> network_score nw' = Ok (Fin (s + t)).
Proof.
  intros nw t nw' SC H. induction H as [nw|nw t nw' rid obs inp l ms' H IH FI LP P].
  - split; [exact SC|]. intros s E. rewrite Rplus_0_r. exact E.
  - destruct (IH SC) as [A B]. destruct (network_gains nw' rid obs inp l ms' A FI LP P) as [C D]. cbn [nw_parts]. split; [exact C|].
    intros s E. rewrite (D (s + t)%R (nw_accuracy nw') (B s E)). do 2 f_equal. lra.
Qed.

Lemma blank_score : forall ms s, (forall m, In m ms -> scorable m /\ blank m) -> omap xsum (oseq (map part_score ms)) = Ok (Fin s) -> s = 0%R.
Proof.
  induction ms as [|m ms IH]; intros s H E; [cbn in E; injection E as <-; reflexivity|]. cbn [map oseq] in E.
  destruct (part_score m) as [x|e] eqn:EM; [|discriminate]. cbn [obind] in E. destruct (oseq (map part_score ms)) as [xs|e] eqn:ES; [|discriminate]. cbn [obind omap] in *.
  apply ok_fin in E. rewrite xsum_head in E. destruct (xadd_fin _ _ _ E) as (u & v & -> & EV & ->).
  assert (v = 0%R) as -> by (apply IH; [intros; apply H; now right|rewrite EV; reflexivity]).
  assert (u = 0%R) as ->; [|lra]. destruct (H m (or_introl eq_refl)) as [SC BL]. destruct m as [c|g|f]; cbn [part_score blank scorable] in *; [| |discriminate].
  - destruct SC as (G & FX & C). rewrite (score_total c (grown_wf c G) FX) in EM. injection EM as <-. apply total_vacant; auto. apply grown_wf. exact G.
  - apply (C57_score_empty g u BL EM).
Qed.
