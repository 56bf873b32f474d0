(** Property C75: what a view or a CrossCat model answers depends only on its table, clusters
    and hyperparameters, not on how it came to them. Statements use the model of the API
    (Prims.v, Cgpm.v, Trans.v) and the specification (SpecTable.v, SpecHist.v, SpecSame.v). *)
From Coq Require Import List ZArith QArith Qcanon Reals Bool String Permutation Lia Lra FunctionalExtensionality.
From Verif Require Import Base Xr Samp Lgamma Prims Cgpm Lib SpecPrims PrimsInv PrimsDens PrimsThm2
  SpecComp CompInv CompDens CompThm PropPrims DemoComp PropComp SpecBook Book
  SpecTable Trans SpecHist Table Gibbs Hist SpecWalks WalksThm PropTable SpecViews SameThm SameHist SameRel SpecSame.
Import ListNotations.
Local Open Scope Z_scope.

(** Two views with the same rows in the same clusters, the same cells and the same
    hyperparameters give the same logpdf and score and simulate by the same draws. *)
Theorem C75_view : forall m m', grown m -> grown m' -> sheet m -> sheet m' -> consistent m -> consistent m' ->
  same_rows m m' -> same_settings m m' -> answer_alike m m'.
Proof. intros m m' G G'. intros. apply views_alike; auto using grown_wf. Qed.
Print Assumptions C75_view.

Lemma sheet_inputs : forall m, sheet m -> inputs m = [].
Proof.
  intros m S. destruct (sheet_inv m S) as (s & bs & cs & r2i & r2c & -> & _). unfold mkview. cbn [inputs tl].
  clear. induction bs as [|b bs IH]; [reflexivity|exact IH].
Qed.

(** The same for the views of a CrossCat model, and so for the model. *)
Theorem C75_state : forall X X', crosscat X -> crosscat X' ->
  Forall2 (fun m m' => same_rows m m' /\ same_settings m m') X X' -> answer_alike (CProd X) (CProd X').
Proof.
  intros X X' [G _] [G' _] F.
  assert (A : Forall2 (fun m m' => inputs m' = inputs m /\ outputs m' = outputs m /\ answer_alike m m') X X').
  { induction F as [|m m' l l' [SR SS] F IH]; constructor.
    - destruct (G m (or_introl eq_refl)) as (G1 & G2 & G3). destruct (G' m' (or_introl eq_refl)) as (G1' & G2' & G3').
      split; [rewrite !sheet_inputs by assumption; reflexivity|]. apply views_alike; auto using grown_wf.
    - apply IH; intros; [apply G|apply G']; now right. }
  clear - A. split; [|split].
  - intros rid T C ins. cbn [logpdf]. assert (E : map (fun c' => (outputs c', inputs c', logpdf c')) X' = map (fun c' => (outputs c', inputs c', logpdf c')) X).
    { induction A as [|m m' l l' (E1 & E2 & E3 & _) A IH]; [reflexivity|]. cbn [map]. rewrite E1, E2, IH.
      replace (logpdf m') with (logpdf m); [reflexivity|]. do 4 (apply functional_extensionality; intro). symmetry. apply E3. }
    rewrite E. reflexivity.
  - intros rid ts C ins N. cbn [simulate]. assert (E : map (fun c' => (outputs c', inputs c', simulate c')) X' = map (fun c' => (outputs c', inputs c', simulate c')) X).
    { induction A as [|m m' l l' (E1 & E2 & _ & E3 & _) A IH]; [reflexivity|]. cbn [map]. rewrite E1, E2, IH.
      replace (simulate m') with (simulate m); [reflexivity|]. do 5 (apply functional_extensionality; intro). symmetry. apply E3. }
    rewrite E. reflexivity.
  - cbn [score]. do 2 f_equal. induction A as [|m m' l l' (_ & _ & _ & _ & E) A IH]; [reflexivity|]. cbn [map]. rewrite E, IH. reflexivity.
Qed.
Print Assumptions C75_state.

(** Two histories of a new view that change no hyperparameters and leave the same rows in the
    same clusters leave views that answer alike, whatever was observed, forgotten or moved on
    the way and in whatever order. *)
Theorem C75_history : forall m0 es es' m m', new_view m0 -> history m0 es m -> history m0 es' m' ->
  untuned es -> untuned es' -> same_rows m m' -> answer_alike m m'.
Proof.
  intros m0 es es' m m' N H H' U U' SR. destruct (new_view_good m0 N) as (RE & S & K & R).
  destruct (history_refines creachable creachable_stable creachable_wf m0 es m RE S K _ R H) as (R1 & S1 & K1 & _).
  destruct (history_refines creachable creachable_stable creachable_wf m0 es' m' RE S K _ R H') as (R2 & S2 & K2 & _).
  destruct (fixed_new m0 N) as (st & L & F).
  apply views_alike; auto using creachable_wf. apply (fixed_same st L); [exact (fixed_history st L m0 es m F U H)|exact (fixed_history st L m0 es' m' F U' H')].
Qed.
Print Assumptions C75_history.

(** Rows come in another order, one more comes and goes. *)
Definition other_events : list event :=
  [EObserve 1 [(9, vz 0); (1, vz 0)]; EObserve 7 [(9, vz 1); (1, vz 1)]; EObserve 0 [(9, vz 0); (1, vz 2); (2, vz 1)];
   EObserve 2 [(9, vz 1); (1, vz 2); (2, vz 0)]; EUnobserve 7 [(9, vz 1); (1, vz 1)]].
Definition other1 : cgpm := state_of (observe demo_new 1 [(9, vz 0); (1, vz 0)] []).
Definition other2 : cgpm := state_of (observe other1 7 [(9, vz 1); (1, vz 1)] []).
Definition other3 : cgpm := state_of (observe other2 0 [(9, vz 0); (1, vz 2); (2, vz 1)] []).
Definition other4 : cgpm := state_of (observe other3 2 [(9, vz 1); (1, vz 2); (2, vz 0)] []).
Definition other_view : cgpm := fst (unobserve other4 7).

Lemma other_history : history demo_new other_events other_view.
Proof.
  unfold other_events.
  eapply (h_step demo_new [_; _; _; _] other4); [eapply (h_step demo_new [_; _; _] other3); [eapply (h_step demo_new [_; _] other2);
    [eapply (h_step demo_new [_] other1); [eapply (h_step demo_new [] demo_new); [constructor|]|]|]|]|].
  1-4: apply observe_happens; [repeat constructor; cbn; intuition lia|intros y [= <-]; eexists; reflexivity|vm_compute; reflexivity].
  exists []. vm_compute. reflexivity.
Qed.

Lemma unseated : forall m r, sheet m -> consistent m -> seat m r = None -> forall o, cell m r o = None.
Proof.
  intros m r S K E o. destruct (sheet_inv m S) as (s & bs & cs & r2i & r2c & -> & _). apply sheet_shaped in S.
  change (lookup r r2c = None) in E. rewrite (cell_parts s bs cs r2i r2c r o S), E. reflexivity.
Qed.

Lemma other_rows : same_rows demo_view other_view.
Proof.
  assert (SE : forall r, seat other_view r = seat demo_view r).
  { intros r. change (seat other_view r) with (lookup r [(1, vz 0); (0, vz 0); (2, vz 1)]). change (seat demo_view r) with (lookup r [(0, vz 0); (1, vz 0); (2, vz 1)]).
    cbn [lookup]. destruct (eq_dec r 0), (eq_dec r 1), (eq_dec r 2); subst; try discriminate; reflexivity. }
  split; [exact SE|]. intros r o Ho. change (columns_of demo_view) with [1; 2] in Ho.
  destruct (new_view_good _ demo_new_view) as (RE & S & K & R0).
  destruct (history_refines creachable creachable_stable creachable_wf _ _ _ RE S K _ R0 demo_history) as (_ & S1 & K1 & _).
  destruct (history_refines creachable creachable_stable creachable_wf _ _ _ RE S K _ R0 other_history) as (_ & S2 & K2 & _).
  destruct (seat demo_view r) as [k|] eqn:E.
  - change (seat demo_view r) with (lookup r [(0, vz 0); (1, vz 0); (2, vz 1)]) in E. cbn [lookup] in E.
    destruct (eq_dec r 0) as [->|]; [|destruct (eq_dec r 1) as [->|]; [|destruct (eq_dec r 2) as [->|]; [|discriminate E]]];
      destruct Ho as [<-|[<-|[]]]; vm_compute; reflexivity.
  - rewrite (unseated _ _ S1 K1 E), (unseated _ _ S2 K2); [reflexivity|]. rewrite SE. exact E.
Qed.

Example C75_history_case : new_view demo_new /\ history demo_new demo_events demo_view /\ history demo_new other_events other_view /\
  untuned demo_events /\ untuned other_events /\ same_rows demo_view other_view /\ demo_view <> other_view /\ answer_alike demo_view other_view.
Proof.
  assert (U : untuned demo_events) by (intros J; cbn in J; intuition discriminate).
  assert (U' : untuned other_events) by (intros J; cbn in J; intuition discriminate).
  split; [exact demo_new_view|]. split; [exact demo_history|]. split; [exact other_history|]. split; [exact U|]. split; [exact U'|].
  split; [exact other_rows|]. split; [intros E; vm_compute in E; discriminate E|].
  exact (C75_history _ _ _ _ _ demo_new_view demo_history other_history U U' other_rows).
Qed.

Lemma other_settings : same_settings demo_view other_view.
Proof.
  destruct (fixed_new _ demo_new_view) as (st & L & F).
  apply (fixed_same st L); [apply (fixed_history st L demo_new demo_events _ F)|apply (fixed_history st L demo_new other_events _ F)];
    try exact demo_history; try exact other_history; intros J; cbn in J; intuition discriminate.
Qed.

Example C75_view_case : grown demo_view /\ grown other_view /\ sheet demo_view /\ sheet other_view /\ consistent demo_view /\ consistent other_view /\
  same_rows demo_view other_view /\ same_settings demo_view other_view.
Proof.
  destruct (C26_consistent _ _ _ demo_new_view demo_history) as (A & B & C). destruct (C26_consistent _ _ _ demo_new_view other_history) as (A' & B' & C').
  do 2 (split; [apply creachable_grown; assumption|]). do 4 (split; [assumption|]). split; [exact other_rows|exact other_settings].
Qed.

Example C75_state_case : crosscat [demo_view] /\ crosscat [other_view] /\
  Forall2 (fun m m' => same_rows m m' /\ same_settings m m') [demo_view] [other_view].
Proof.
  destruct C75_view_case as (G & G' & S & S' & K & K' & SR & SS).
  split; [|split; [|constructor; [split; assumption|constructor]]].
  - split; [intros m [<-|[]]; auto|]. vm_compute. repeat (constructor; [cbn; intuition discriminate|]). constructor.
  - split; [intros m [<-|[]]; auto|]. vm_compute. repeat (constructor; [cbn; intuition discriminate|]). constructor.
Qed.

(** The names of the clusters do not matter either: if the rows of [m'] are in the clusters of
    [m] under other names and the columns have the hyperparameters of the base everywhere,
    then a row that is not recorded gets the same logpdf in the columns of data, and the
    scores are equal. *)
Theorem C75_relabelled : forall f m m', grown m -> grown m' -> sheet m -> sheet m' -> consistent m -> consistent m' ->
  renamed_rows f m m' -> uniform m m -> uniform m m' ->
  (forall rid T C, match rid with Some r => seat m r = None | None => True end ->
     disjoint_rows T C -> T <> [] -> (forall k, In k (keys (T ++ C)) -> In k (columns_of m)) -> (0 < dens m C)%R ->
     logpdf m' rid T C [] = logpdf m rid T C []) /\
  score m' = score m.
Proof.
  intros f m m' G G' S S' K K' RR U U'. assert (W := grown_wf _ G). assert (W' := grown_wf _ G'). split; [|eapply renamed_score; eauto].
  intros rid T C UN DJ NE KO PO.
  destruct (sheet_inv m S) as (s & bs & cs & r2i & r2c & E & _). destruct (sheet_inv m' S') as (s' & bs' & cs' & r2i' & r2c' & E' & _).
  assert (P : label_of m' = label_of m /\ columns_of m' = columns_of m /\ ~ In (label_of m) (columns_of m) /\ (forall k, In k (columns_of m) -> In k (outputs m)) /\
              (forall k, In k (columns_of m') -> In k (outputs m'))).
  { subst m m'. assert (S0 := S). assert (S0' := S'). apply sheet_shaped in S0, S0'.
    destruct (renamed_parts f s bs cs r2i r2c s' bs' cs' r2i' r2c' W W' S0 S0' (proj1 (consistent_parts s bs cs r2i r2c S0) K) (proj1 (consistent_parts s' bs' cs' r2i' r2c' S0') K') RR U U')
      as (EO & _ & _ & _ & _ & OO & _).
    destruct (view_parts _ _ _ _ _ W) as (_ & _ & _ & NI & _). unfold mkview. cbn [label_of columns_of dist_o].
    change (outputs (CFlexArr ?a ?b ?c ?d)) with (outputs b). rewrite !outputs_prod. split; [exact EO|]. split; [exact OO|]. split; [exact NI|].
    split; intros k J; (change (outputs (CMix ?a ?b ?c ?d)) with (dist_o b :: outputs c); right; change (outputs (CFlexArr ?a ?b ?c ?d)) with (outputs b); rewrite outputs_prod; exact J). }
  destruct P as (EL & EC & NI & OU & OU').
  assert (L : forall Q : row, (forall k, In k (keys Q) -> In k (columns_of m)) -> lookup (label_of m) Q = None).
  { intros Q H. apply lookup_None. intros J. apply NI, H, J. }
  assert (DE : forall Q : row, (forall k, In k (keys Q) -> In k (columns_of m)) -> dens m' Q = dens m Q).
  { intros Q H. eapply renamed_dens; eauto. }
  assert (KC : forall k, In k (keys C) -> In k (columns_of m)).
  { intros k J. apply KO. unfold keys in *. rewrite map_app. apply in_or_app. now right. }
  rewrite (C16_mixture_density m rid T C G (sheet_view m S)), (C16_mixture_density m' rid T C G' (sheet_view m' S')), !DE; auto.
  - apply sheet_unknown; auto. destruct rid as [r|]; [|exact Logic.I]. destruct RR as (SR & _). rewrite SR, UN. reflexivity.
  - apply sheet_labelled; [exact S'|]. rewrite EL. auto.
  - intros k J. apply OU'. rewrite EC. auto.
  - rewrite DE; auto.
  - apply sheet_unknown; auto.
  - apply sheet_labelled; auto.
Qed.
Print Assumptions C75_relabelled.

(** The two clusters of [demo_view] with their names exchanged. *)
Definition swapped_events : list event :=
  [EObserve 2 [(9, vz 0); (1, vz 2); (2, vz 0)]; EObserve 0 [(9, vz 1); (1, vz 2); (2, vz 1)]; EObserve 1 [(9, vz 1); (1, vz 0)]].
Definition swapped1 : cgpm := state_of (observe demo_new 2 [(9, vz 0); (1, vz 2); (2, vz 0)] []).
Definition swapped2 : cgpm := state_of (observe swapped1 0 [(9, vz 1); (1, vz 2); (2, vz 1)] []).
Definition swapped_view : cgpm := state_of (observe swapped2 1 [(9, vz 1); (1, vz 0)] []).

Lemma swapped_history : history demo_new swapped_events swapped_view.
Proof.
  unfold swapped_events.
  eapply (h_step demo_new [_; _] swapped2); [eapply (h_step demo_new [_] swapped1); [eapply (h_step demo_new [] demo_new); [constructor|]|]|].
  1-3: apply observe_happens; [repeat constructor; cbn; intuition lia|intros y [= <-]; eexists; reflexivity|vm_compute; reflexivity].
Qed.

Lemma swapped_rows : renamed_rows (fun z => 1 - z) demo_view swapped_view.
Proof.
  destruct (C26_consistent _ _ _ demo_new_view demo_history) as (_ & S1 & K1). destruct (C26_consistent _ _ _ demo_new_view swapped_history) as (_ & S2 & K2).
  assert (SE : forall r, seat swapped_view r = match seat demo_view r with Some (VQ q) => Some (vz (1 - trunc q)) | x => x end).
  { intros r. change (seat swapped_view r) with (lookup r [(2, vz 0); (0, vz 1); (1, vz 1)]). change (seat demo_view r) with (lookup r [(0, vz 0); (1, vz 0); (2, vz 1)]).
    cbn [lookup]. destruct (eq_dec r 0), (eq_dec r 1), (eq_dec r 2); subst; try discriminate; reflexivity. }
  split; [exact SE|]. split; [intros; lia|]. intros r o Ho. change (columns_of demo_view) with [1; 2] in Ho.
  destruct (seat demo_view r) as [k|] eqn:E.
  - change (seat demo_view r) with (lookup r [(0, vz 0); (1, vz 0); (2, vz 1)]) in E. cbn [lookup] in E.
    destruct (eq_dec r 0) as [->|]; [|destruct (eq_dec r 1) as [->|]; [|destruct (eq_dec r 2) as [->|]; [|discriminate E]]];
      destruct Ho as [<-|[<-|[]]]; vm_compute; reflexivity.
  - rewrite (unseated _ _ S1 K1 E), (unseated _ _ S2 K2); [reflexivity|]. rewrite SE. rewrite E. reflexivity.
Qed.

Lemma demo_uniform : forall es m, history demo_new es m -> untuned es -> uniform demo_view m.
Proof.
  intros es m H U. destruct (fixed_new _ demo_new_view) as (st & L & F).
  assert (F1 : fixed st L demo_view) by (apply (fixed_history st L demo_new demo_events _ F); [intros J; cbn in J; intuition discriminate|exact demo_history]).
  assert (F2 := fixed_history st L demo_new es m F U H). assert (F2' := F2). destruct F2' as (s' & ix' & bs' & cs' & r2i' & r2c' & -> & _).
  assert (F1' := F1). destruct F1' as (s & ix & bs & cs & r2i & r2c & E & _ & SB & _). rewrite E in *. destruct (fixed_component _ _ _ _ _ _ F1) as [A _].
  destruct (fixed_component _ _ _ _ _ _ F2) as [A' B']. split; [congruence|]. intros k. rewrite B', leaves_prod, SB. reflexivity.
Qed.

Example C75_relabelled_case : grown demo_view /\ grown swapped_view /\ sheet demo_view /\ sheet swapped_view /\ consistent demo_view /\ consistent swapped_view /\
  renamed_rows (fun z => 1 - z) demo_view swapped_view /\ uniform demo_view demo_view /\ uniform demo_view swapped_view /\
  logpdf swapped_view None [(1, vz 2)] [(2, vz 1)] [] = logpdf demo_view None [(1, vz 2)] [(2, vz 1)] [] /\
  score swapped_view = score demo_view.
Proof.
  destruct (C26_consistent _ _ _ demo_new_view demo_history) as (A & B & C). destruct (C26_consistent _ _ _ demo_new_view swapped_history) as (A' & B' & C').
  assert (U : uniform demo_view demo_view) by (apply (demo_uniform demo_events); [exact demo_history|intros J; cbn in J; intuition discriminate]).
  assert (U' : uniform demo_view swapped_view) by (apply (demo_uniform swapped_events); [exact swapped_history|intros J; cbn in J; intuition discriminate]).
  assert (G := creachable_grown _ A). assert (G' := creachable_grown _ A').
  destruct (C75_relabelled _ _ _ G G' B B' C C' swapped_rows U U') as [X Y].
  do 6 (split; [assumption|]). split; [exact swapped_rows|]. split; [exact U|]. split; [exact U'|]. split; [|exact Y].
  apply X; [exact Logic.I| |discriminate| |].
  - repeat (constructor; [cbn; intuition discriminate|]). constructor.
  - intros k J. change (columns_of demo_view) with [1; 2]. cbn in J. cbn. intuition.
  - apply C16_possible_values; [exact G|]. apply plausibleb_ok. vm_compute. reflexivity.
Qed.
