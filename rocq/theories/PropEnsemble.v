(** C48, C49, C56: ensembles of CrossCat models. *)
From Coq Require Import List ZArith QArith Qcanon Reals Bool String Permutation Lia Lra.
From Verif Require Import Base Xr Samp Lgamma Prims Cgpm Lib SpecPrims PrimsInv SpecComp CompInv CompThm SimLaw SimShape DemoComp
  SpecTable SpecHist Table Trans Hist PropTable Meta PropMeta Walks SpecWalks WalksThm Views ViewsThm ViewsThm2 ViewsThm5 PropViews Progress Crosscat CrosscatThm PropCrosscat Sample SpecSample SampleThm3 Cpp PropCpp
  Ensemble EnsembleThm EnsembleThm2 EnsembleThm3 EnsembleThm4 EnsembleThm5 EnsembleThm6.
From Verif Require Import SpecViews SpecCrosscat SpecEnsemble.
Import ListNotations.
Local Open Scope Z_scope.

(** ** C48: every chain by itself *)

(** An ensemble of two chains with the same table, columns 1, 2 and 3 and rows 0 and 1. *)
Definition demo_distributions : list distribution :=
  [("categorical"%string, [("k"%string, 3)]); ("bernoulli"%string, []); ("bernoulli"%string, [])].
Definition demo_ensemble : ensemble := mkEns 2 [1; 2; 3] demo_distributions [CProd demo_crosscat; CProd demo_crosscat].

Lemma demo_whole : whole demo_ensemble.
Proof. reflexivity. Qed.

(** observe can succeed and leave [e'] exactly if every chain can by itself, in worker
    processes or not; nothing but the chains changes. *)
Theorem C48_observe : forall e rid obs ins mp e', whole e ->
  (possible (ens_observe e (AInt rid) (ADict obs) (ADict ins) mp) (fun r => r = (e', Ok tt)) <->
   same_but_chains e e' /\ Forall2 (fun c c' => possible (observe c rid obs ins) (fun r => r = (c', Ok tt))) (cgpms e) (cgpms e')).
Proof.
  intros e rid obs ins mp e' W. unfold ens_observe. rewrite ens_modify_ok by exact W.
  split; intros [S F]; (split; [exact S|]); eapply F2_imp; try exact F; cbn beta.
  - intros c c' (s & H). apply can_modify in H as [_ ([] & H)]. exact H.
  - intros c c' H. exists c'. apply can_modify. split; [reflexivity|]. exists tt. exact H.
Qed.
Print Assumptions C48_observe.

(** The chains are independent: the expectation of a product of functions of the chains is
    the product of the expectations, each over the draws of its own chain. *)
Theorem C48_observe_law : forall e rid obs ins mp gs, whole e -> List.length gs = chains e ->
  expect (ens_observe e (AInt rid) (ADict obs) (ADict ins) mp) (left_by (fun e' => product_of gs (cgpms e'))) =
  rprod (map (fun p => expect (observe (snd p) rid obs ins) (left_by (fst p))) (combine gs (cgpms e))).
Proof.
  intros e rid obs ins mp gs W L. exact (modify_law e mp call_observe [AInt rid; ADict obs; ADict ins] gs W L).
Qed.
Print Assumptions C48_observe_law.

(** unobserve removes the row from every chain. *)
Theorem C48_unobserve : forall e rid mp e', whole e ->
  (possible (ens_unobserve e (AInt rid) mp) (fun r => r = (e', Ok tt)) <->
   same_but_chains e e' /\ Forall2 (fun c c' => exists row, unobserve c rid = (c', Ok row)) (cgpms e) (cgpms e')).
Proof.
  intros e rid mp e' W. unfold ens_unobserve. rewrite ens_modify_ok by exact W.
  split; intros [S F]; (split; [exact S|]); eapply F2_imp; try exact F; cbn beta.
  - intros c c' (s & H). apply can_modify in H as [_ (row & H)]. exists row. exact H.
  - intros c c' (row & H). exists c'. apply can_modify. split; [reflexivity|]. exists row. exact H.
Qed.
Print Assumptions C48_unobserve.

Example C48_unobserve_case : exists e', possible (ens_unobserve demo_ensemble (AInt 0) true) (fun r => r = (e', Ok tt)) /\
  map (fun c => same_assignment_row_pairwise c 1) (cgpms e') = [Ok [[1]]; Ok [[1]]].
Proof.
  set (c' := fst (unobserve (CProd demo_crosscat) 0)).
  assert (E : exists row, unobserve (CProd demo_crosscat) 0 = (c', Ok row)).
  { unfold c'. assert (X : match snd (unobserve (CProd demo_crosscat) 0) with Ok _ => true | Err _ => false end = true) by (vm_compute; reflexivity).
    destruct (unobserve (CProd demo_crosscat) 0) as [d [row|x]]; [exists row; reflexivity|discriminate]. }
  exists (with_cgpms demo_ensemble [c'; c']). split.
  - apply C48_unobserve; [exact demo_whole|]. split; [split; [|split]; reflexivity|]. constructor; [exact E|]. constructor; [exact E|constructor].
  - cbn [cgpms with_cgpms map].
    assert (X : same_assignment_row_pairwise c' 1 = Ok [[1]]) by (vm_compute; reflexivity).
    rewrite X. reflexivity.
Qed.

(** If a call with worker processes raises then no chain has changed, and some chain raises. *)
Theorem C48_failure_workers : forall e rid obs ins, whole e ->
  always (ens_observe e (AInt rid) (ADict obs) (ADict ins) true) (fun r => forall x, snd r = Err x ->
    fst r = e /\ exists c c', In c (cgpms e) /\ possible (observe c rid obs ins) (fun q => q = (c', Err x))).
Proof.
  intros e rid obs ins W. eapply always_imp; [|exact (ens_modify_copies e (modify call_observe [AInt rid; ADict obs; ADict ins]) W)].
  intros r H x E. destruct (H x E) as (Er & c & s & Hc & CF). split; [exact Er|]. exists c, s. split; [exact Hc|].
  unfold can_fail, modify in CF. rewrite <- possible_bind in CF. apply possible_some in CF as ([d [u|y]] & H1 & H2); cbn in H2; [discriminate|].
  injection H2 as <- <-. exact H1.
Qed.
Print Assumptions C48_failure_workers.

(** Without, the chains before the one that raises have been changed, that one is left as
    it is by then, and the ones after it have not been touched. *)
Theorem C48_failure_in_order : forall e rid obs ins e' x, whole e ->
  (possible (ens_observe e (AInt rid) (ADict obs) (ADict ins) false) (fun r => r = (e', Err x)) <->
   same_but_chains e e' /\ exists before c after before' c',
     cgpms e = before ++ c :: after /\ cgpms e' = before' ++ c' :: after /\
     Forall2 (fun d d' => possible (observe d rid obs ins) (fun r => r = (d', Ok tt))) before before' /\
     possible (observe c rid obs ins) (fun r => r = (c', Err x))).
Proof.
  intros e rid obs ins e' x W. unfold ens_observe. rewrite ens_modify_stops by exact W.
  assert (A : forall d d', (exists a, can (modify call_observe [AInt rid; ADict obs; ADict ins]) d d' a) <-> possible (observe d rid obs ins) (fun r => r = (d', Ok tt))).
  { intros d d'. split.
    - intros (a & H). apply can_modify in H as [-> ([] & H)]. exact H.
    - intros H. exists d'. apply can_modify. split; [reflexivity|]. exists tt. exact H. }
  assert (B : forall d d', can_fail (modify call_observe [AInt rid; ADict obs; ADict ins]) d d' x <-> possible (observe d rid obs ins) (fun r => r = (d', Err x))).
  { intros d d'. unfold can_fail, modify. rewrite <- possible_bind. split.
    - intros H. apply possible_some in H as ([c [u|y]] & H1 & H2); cbn in H2; [discriminate|]. injection H2 as <- <-. exact H1.
    - intros H. apply possible_some. exists (d', Err x). split; [exact H|reflexivity]. }
  split; intros (S & before & c & after & before' & c' & E1 & E2 & F & CF); (split; [exact S|]); exists before, c, after, before', c';
    (split; [exact E1|]); (split; [exact E2|]); (split; [eapply F2_imp; [|exact F]; intros d d' H; apply A; exact H|apply B; exact CF]).
Qed.
Print Assumptions C48_failure_in_order.

(** A bit that is 2 is refused by the first chain; with worker processes nothing changes,
    without them the row divider of the first chain has the row. *)
Definition half_observed : cgpm := state_of (observe (CProd demo_crosscat) 5 [(9, vz 0); (2, vz 2)] []).
Example C48_failure_case :
  possible (ens_observe demo_ensemble (AInt 5) (ADict [(9, vz 0); (2, vz 2)]) (ADict []) true) (fun r => r = (demo_ensemble, Err AssertionError)) /\
  possible (ens_observe demo_ensemble (AInt 5) (ADict [(9, vz 0); (2, vz 2)]) (ADict []) false)
    (fun r => r = (with_cgpms demo_ensemble [half_observed; CProd demo_crosscat], Err AssertionError)) /\
  same_assignment_row_pairwise half_observed 2 <> same_assignment_row_pairwise (CProd demo_crosscat) 2.
Proof. split; [vm_compute; reflexivity|]. split; [vm_compute; reflexivity|]. vm_compute. discriminate. Qed.

(** logpdf and logpdf_score answer with the list of what the chains answer, in order, or
    raise what the first chain that raises raises; nothing changes. *)
Theorem C48_logpdf : forall e rowid T C ins mp, whole e ->
  ens_logpdf e (match rowid with Some r => AInt r | None => ANone end) (ADict T) (ADict C) (ADict ins) mp =
  Ret (e, oseq (map (fun c => logpdf c rowid T C ins) (cgpms e))).
Proof.
  intros e rowid T C ins mp W. unfold ens_logpdf.
  rewrite (evaluate_same e mp _ (fun _ c => Ret (c, logpdf c rowid T C ins))); [apply evaluate_each; exact W| |exact W].
  intros n c. destruct rowid; reflexivity.
Qed.
Print Assumptions C48_logpdf.

Theorem C48_score : forall e mp, whole e -> ens_score e mp = Ret (e, oseq (map score (cgpms e))).
Proof. intros e mp W. exact (evaluate_each e mp score W). Qed.
Print Assumptions C48_score.

Example C48_logpdf_case : exists l, ens_logpdf demo_ensemble ANone (ADict [(2, vz 1)]) (ADict []) (ADict []) true = Ret (demo_ensemble, Ok l) /\ List.length l = 2%nat.
Proof.
  rewrite (C48_logpdf demo_ensemble None [(2, vz 1)] [] [] true demo_whole). cbn [cgpms demo_ensemble map].
  assert (X : match logpdf (CProd demo_crosscat) None [(2, vz 1)] [] [] with Ok _ => true | Err _ => false end = true) by (vm_compute; reflexivity).
  destruct (logpdf (CProd demo_crosscat) None [(2, vz 1)] [] []) as [x|y]; [|discriminate]. exists [x; x]. split; reflexivity.
Qed.

(** simulate never changes the ensemble; it can answer with a list exactly if every chain can
    answer with its item; if it raises then some chain raises. *)
Theorem C48_simulate : forall e rowid targets C ins N mp, whole e ->
  let call := ens_simulate e (match rowid with Some r => AInt r | None => ANone end) (AList targets) (ADict C) (ADict ins)
                (match N with Some n => AInt (Z.of_nat n) | None => ANone end) mp in
  always call (fun r => fst r = e) /\
  (forall l, possible call (fun r => snd r = Ok l) <-> Forall2 (fun c s => possible (simulate c rowid targets C ins N) (fun r => r = Ok s)) (cgpms e) l) /\
  always call (fun r => forall x, snd r = Err x -> exists c, In c (cgpms e) /\ possible (simulate c rowid targets C ins N) (fun r => r = Err x)).
Proof.
  intros e rowid targets C ins N mp W call.
  assert (EC : call = ens_evaluate e mp (fun _ c => smap (fun s => (c, s)) (simulate c rowid targets C ins N))).
  { unfold call, ens_simulate. apply evaluate_same; [|exact W]. intros n c. cbn [call_simulate].
    destruct rowid, N; cbn [as_rowid as_dict as_count]; rewrite ?Nat2Z.id; reflexivity. }
  rewrite EC. clear call EC. split; [|split].
  - apply evaluate_keeps; [exact W|]. intros n c. unfold smap. apply always_bind. apply always_True. intros a. reflexivity.
  - intros l. rewrite (evaluate_ok e mp (fun _ c => smap (fun s => (c, s)) (simulate c rowid targets C ins N)) l W).
    assert (A : forall c a, (exists c', can (fun c => smap (fun s => (c, s)) (simulate c rowid targets C ins N)) c c' a) <-> possible (simulate c rowid targets C ins N) (fun r => r = Ok a)).
    { intros c a. unfold can, smap. split.
      - intros (c' & H). rewrite <- possible_bind in H. eapply possible_imp; [|exact H]. cbn. intros r E. congruence.
      - intros H. exists c. rewrite <- possible_bind. eapply possible_imp; [|exact H]. cbn. intros r ->. reflexivity. }
    split.
    + intros [L H]. revert L H. generalize (cgpms e). clear - A. intros cs. revert l. induction cs as [|c cs IH]; intros [|a l] L H; try discriminate; constructor.
      * apply A. apply (H 0%nat c a); reflexivity.
      * apply IH; [cbn in L; congruence|]. intros n c' a' E1 E2. apply (H (S n) c' a'); assumption.
    + intros F. split; [symmetry; apply (F2_len _ _ _ F)|]. clear - F A. induction F as [|c a cs l H F IH]; intros [|n] c' a' E1 E2; cbn in E1, E2; try discriminate.
      * injection E1 as <-. injection E2 as <-. apply A. exact H.
      * apply (IH n); assumption.
  - eapply always_imp; [|exact (evaluate_err e mp (fun _ c => smap (fun s => (c, s)) (simulate c rowid targets C ins N)) W)].
    intros r H x E. destruct (H x E) as (n & c & c' & En & CF). exists c. split; [apply nth_error_In in En; exact En|].
    unfold can_fail, smap in CF. rewrite <- possible_bind in CF. eapply possible_imp; [|exact CF]. cbn. intros q Eq. congruence.
Qed.
Print Assumptions C48_simulate.

(** The samples of different chains are independent, each with the law of its own chain. *)
Theorem C48_simulate_law : forall e rowid targets C ins N mp gs, whole e -> List.length gs = chains e ->
  expect (ens_simulate e (match rowid with Some r => AInt r | None => ANone end) (AList targets) (ADict C) (ADict ins)
            (match N with Some n => AInt (Z.of_nat n) | None => ANone end) mp) (fun r => success (product_of gs) (snd r)) =
  rprod (map (fun p => expect (simulate (snd p) rowid targets C ins N) (success (fst p))) (combine gs (cgpms e))).
Proof.
  intros e rowid targets C ins N mp gs W L. unfold ens_simulate.
  rewrite (evaluate_same e mp _ (fun _ c => smap (fun s => (c, s)) (simulate c rowid targets C ins N))); [| |exact W].
  - etransitivity; [exact (evaluate_law e mp (fun c => smap (fun s => (c, s)) (simulate c rowid targets C ins N)) gs W L)|].
    f_equal. apply map_ext. intros [g c]. cbn [fst snd]. unfold ans, smap. rewrite expect_bind. reflexivity.
  - intros n c. cbn [call_simulate]. destruct rowid, N; cbn [as_rowid as_dict as_count]; rewrite ?Nat2Z.id; reflexivity.
Qed.
Print Assumptions C48_simulate_law.

Example C48_simulate_case : exists l, possible (ens_simulate demo_ensemble (AInt 0) (AList [9; 19]) (ADict []) (ADict []) (AInt 2) false) (fun r => snd r = Ok l) /\ List.length l = 2%nat.
Proof.
  set (s := SMany [[(9, vz 0); (19, vz 0)]; [(9, vz 0); (19, vz 0)]]). exists [s; s]. split; [|reflexivity].
  apply (proj1 (proj2 (C48_simulate demo_ensemble (Some 0) [9; 19] [] [] (Some 2%nat) false demo_whole))).
  assert (P : possible (simulate (CProd demo_crosscat) (Some 0) [9; 19] [] [] (Some 2%nat)) (fun r => r = Ok s)) by (vm_compute; reflexivity).
  constructor; [exact P|]. constructor; [exact P|constructor].
Qed.

(** ** C48: bulk calls *)

(** observe_bulk is observe for every row, one after the other: the same outcomes, and the
    same law; whether worker processes are used does not matter. *)
Theorem C48_observe_bulk : forall e (calls : list (Z * (row * row))) mp mp', whole e ->
  let bulk := ens_observe_bulk e (Some (map AInt (map fst calls))) (Some (map ADict (map (fun p => fst (snd p)) calls)))
                (Some (map ADict (map (fun p => snd (snd p)) calls))) mp in
  let each := ens_calls (map (fun p d => ens_observe d (AInt (fst p)) (ADict (fst (snd p))) (ADict (snd (snd p))) mp') calls) e in
  (forall e', possible bulk (fun r => r = (e', Ok tt)) <-> possible each (fun r => r = (e', Ok tt))) /\
  (forall G, expect bulk (left_by G) = expect each (left_by G)).
Proof.
  intros e calls mp mp' W bulk each.
  assert (E := args_of_calls [Some (fun p : Z * (row * row) => AInt (fst p)); Some (fun p => ADict (fst (snd p))); Some (fun p => ADict (snd (snd p)))] calls
                 (ex_intro _ _ (or_introl eq_refl))).
  cbn [map option_map] in E. split.
  - intros e'. unfold bulk, each, ens_observe_bulk. rewrite !map_map. rewrite (bulk_successive call_observe _ _ e mp mp' e' W E). rewrite map_map. reflexivity.
  - intros G. generalize (bulk_law call_observe _ _ e mp mp' G W E). unfold bulk, ens_observe_bulk. rewrite !map_map. intros X. exact X.
Qed.
Print Assumptions C48_observe_bulk.

(** The same without inputs. *)
Theorem C48_observe_bulk_no_inputs : forall e (calls : list (Z * row)) mp mp', whole e ->
  let bulk := ens_observe_bulk e (Some (map AInt (map fst calls))) (Some (map ADict (map snd calls))) None mp in
  let each := ens_calls (map (fun p d => ens_observe d (AInt (fst p)) (ADict (snd p)) ANone mp') calls) e in
  (forall e', possible bulk (fun r => r = (e', Ok tt)) <-> possible each (fun r => r = (e', Ok tt))) /\
  (forall G, expect bulk (left_by G) = expect each (left_by G)).
Proof.
  intros e calls mp mp' W bulk each.
  assert (E := args_of_calls [Some (fun p : Z * row => AInt (fst p)); Some (fun p => ADict (snd p)); None] calls
                 (ex_intro _ _ (or_introl eq_refl))).
  cbn [map option_map] in E. split.
  - intros e'. unfold bulk, each, ens_observe_bulk. rewrite !map_map. rewrite (bulk_successive call_observe _ _ e mp mp' e' W E). rewrite map_map. reflexivity.
  - intros G. generalize (bulk_law call_observe _ _ e mp mp' G W E). unfold bulk, ens_observe_bulk. rewrite !map_map. intros X. exact X.
Qed.
Print Assumptions C48_observe_bulk_no_inputs.

Theorem C48_unobserve_bulk : forall e rowids mp mp' e', whole e ->
  (possible (ens_unobserve_bulk e (Some (map AInt rowids)) mp) (fun r => r = (e', Ok tt)) <->
   possible (ens_calls (map (fun rid d => ens_unobserve d (AInt rid) mp') rowids) e) (fun r => r = (e', Ok tt))).
Proof.
  intros e rowids mp mp' e' W. unfold ens_unobserve_bulk. rewrite (bulk_successive call_unobserve _ _ e mp mp' e' W (unobserve_args rowids)). rewrite map_map. reflexivity.
Qed.
Print Assumptions C48_unobserve_bulk.

(** Rows 0 and 1 removed in one call: nothing is left. *)
Example C48_unobserve_bulk_case : exists e', possible (ens_unobserve_bulk demo_ensemble (Some [AInt 0; AInt 1]) true) (fun r => r = (e', Ok tt)) /\
  map (fun c => same_assignment_row_pairwise c 1) (cgpms e') = [Ok []; Ok []].
Proof.
  exists (match ens_unobserve_bulk demo_ensemble (Some [AInt 0; AInt 1]) true with Ret r => fst r | _ => demo_ensemble end). split; vm_compute; reflexivity.
Qed.

(** A bulk logpdf is the list, for every chain, of the list of its answers. *)
Theorem C48_logpdf_bulk : forall e (queries : list (option Z * (row * (row * row)))) mp, whole e ->
  ens_logpdf_bulk e (Some (map (fun q => match fst q with Some r => AInt r | None => ANone end) queries)) (Some (map (fun q => ADict (fst (snd q))) queries))
    (Some (map (fun q => ADict (fst (snd (snd q)))) queries)) (Some (map (fun q => ADict (snd (snd (snd q)))) queries)) mp =
  Ret (e, oseq (map (fun c => oseq (map (fun q => logpdf c (fst q) (fst (snd q)) (fst (snd (snd q))) (snd (snd (snd q)))) queries)) (cgpms e))).
Proof.
  intros e queries mp W. unfold ens_logpdf_bulk.
  assert (E := args_of_calls [Some (fun q : option Z * (row * (row * row)) => match fst q with Some r => AInt r | None => ANone end);
     Some (fun q => ADict (fst (snd q))); Some (fun q => ADict (fst (snd (snd q)))); Some (fun q => ADict (snd (snd (snd q))))] queries
                 (ex_intro _ _ (or_introl eq_refl))).
  cbn [map option_map] in E.
  rewrite (evaluate_same e mp _ (fun _ c => Ret (c, oseq (map (fun q => logpdf c (fst q) (fst (snd q)) (fst (snd (snd q))) (snd (snd (snd q)))) queries)))); [apply evaluate_each; exact W| |exact W].
  intros n c. unfold evaluate_bulk. rewrite E. unfold call_logpdf. rewrite call_all_pure. rewrite map_map. f_equal. f_equal. f_equal. apply map_ext. intros [[r|] [T [C i]]]; reflexivity.
Qed.
Print Assumptions C48_logpdf_bulk.

(** A bulk simulate changes nothing; it can answer with [l] exactly if every chain can answer
    every query with its item. *)
Theorem C48_simulate_bulk : forall e (queries : list (option Z * (list Z * (row * (row * option nat))))) mp, whole e ->
  let call := ens_simulate_bulk e (Some (map (fun q => match fst q with Some r => AInt r | None => ANone end) queries)) (Some (map (fun q => AList (fst (snd q))) queries))
    (Some (map (fun q => ADict (fst (snd (snd q)))) queries)) (Some (map (fun q => ADict (fst (snd (snd (snd q))))) queries))
    (Some (map (fun q => match snd (snd (snd (snd q))) with Some n => AInt (Z.of_nat n) | None => ANone end) queries)) mp in
  always call (fun r => fst r = e) /\
  forall l, possible call (fun r => snd r = Ok l) <->
    Forall2 (fun c samples => Forall2 (fun q s => possible (simulate c (fst q) (fst (snd q)) (fst (snd (snd q))) (fst (snd (snd (snd q)))) (snd (snd (snd (snd q)))))
                                                    (fun r => r = Ok s)) queries samples) (cgpms e) l.
Proof.
  intros e queries mp W call.
  set (job := fun (q : option Z * (list Z * (row * (row * option nat)))) c => simulate c (fst q) (fst (snd q)) (fst (snd (snd q))) (fst (snd (snd (snd q)))) (snd (snd (snd (snd q))))).
  assert (E := args_of_calls [Some (fun q : option Z * (list Z * (row * (row * option nat))) => match fst q with Some r => AInt r | None => ANone end);
     Some (fun q => AList (fst (snd q))); Some (fun q => ADict (fst (snd (snd q)))); Some (fun q => ADict (fst (snd (snd (snd q)))));
     Some (fun q => match snd (snd (snd (snd q))) with Some n => AInt (Z.of_nat n) | None => ANone end)] queries
                 (ex_intro _ _ (or_introl eq_refl))).
  cbn [map option_map] in E.
  assert (J : forall q c, call_simulate [match fst q with Some r => AInt r | None => ANone end; AList (fst (snd q)); ADict (fst (snd (snd q)));
      ADict (fst (snd (snd (snd q)))); match snd (snd (snd (snd q))) with Some n => AInt (Z.of_nat n) | None => ANone end] c = smap (fun s => (c, s)) (job q c)).
  { intros [rowid [ts [C [ins N]]]] c. cbn [fst snd call_simulate]. destruct rowid, N; cbn [as_rowid as_dict as_count]; rewrite ?Nat2Z.id; reflexivity. }
  assert (EC : call = ens_evaluate e mp (fun _ => call_all (fun a => call_simulate a)
     (map (fun q => [match fst q with Some r => AInt r | None => ANone end; AList (fst (snd q)); ADict (fst (snd (snd q)));
      ADict (fst (snd (snd (snd q)))); match snd (snd (snd (snd q))) with Some n => AInt (Z.of_nat n) | None => ANone end]) queries))).
  { unfold call, ens_simulate_bulk. apply evaluate_same; [|exact W]. intros n c. unfold evaluate_bulk. rewrite E. reflexivity. }
  rewrite EC. clear call EC E. split.
  - apply evaluate_keeps; [exact W|]. intros _ c. induction queries as [|q queries IH]; cbn [map call_all]; [reflexivity|].
    apply always_bind. rewrite J. unfold smap. apply always_bind. eapply always_imp; [|apply always_self]. intros s _. cbn [fst snd always].
    destruct s as [s|x]; [|reflexivity]. apply always_bind. eapply always_imp; [|exact IH]. intros r Er. cbn. exact Er.
  - intros l.
    assert (K : forall c c' samples, can (call_all (fun a => call_simulate a)
     (map (fun q => [match fst q with Some r => AInt r | None => ANone end; AList (fst (snd q)); ADict (fst (snd (snd q)));
      ADict (fst (snd (snd (snd q)))); match snd (snd (snd (snd q))) with Some n => AInt (Z.of_nat n) | None => ANone end]) queries)) c c' samples <->
      c' = c /\ Forall2 (fun q s => possible (job q c) (fun r => r = Ok s)) queries samples).
    { intros c c' samples. rewrite call_all_ok. revert samples. induction queries as [|q queries IH]; intros samples; cbn [map].
      - split; [intros X; inversion X; subst; split; [reflexivity|constructor]|]. intros [-> F]. inversion F. constructor.
      - assert (Q : forall c1 a, can (call_simulate [match fst q with Some r => AInt r | None => ANone end; AList (fst (snd q)); ADict (fst (snd (snd q)));
            ADict (fst (snd (snd (snd q)))); match snd (snd (snd (snd q))) with Some n => AInt (Z.of_nat n) | None => ANone end]) c c1 a <->
            c1 = c /\ possible (job q c) (fun r => r = Ok a)).
        { intros c1 a. unfold can. rewrite J. unfold smap. rewrite <- possible_bind. cbn [possible]. split.
          - intros X. apply possible_some in X as (s & X1 & X2). injection X2 as -> ->. split; [reflexivity|exact X1].
          - intros [-> X]. eapply possible_imp; [|exact X]. cbn. intros r ->. reflexivity. }
        split.
        + intros X. inversion X as [|f fs c0 c1 c2 a l0 H1 H2]; subst. apply Q in H1 as [-> H1]. apply IH in H2 as [-> H2]. split; [reflexivity|constructor; assumption].
        + intros [-> F]. inversion F as [|q0 a qs l0 H1 H2]; subst. apply after_call with c; [apply Q; split; [reflexivity|exact H1]|]. apply IH. split; [reflexivity|exact H2]. }
    rewrite evaluate_ok by exact W. split.
    + intros [L H]. assert (H' : forall n c a, nth_error (cgpms e) n = Some c -> nth_error l n = Some a -> Forall2 (fun q s => possible (job q c) (fun r => r = Ok s)) queries a).
      { intros n c a E1 E2. destruct (H n c a E1 E2) as (c' & X). apply K in X as [_ X]. exact X. }
      clear H. revert l L H'. generalize (cgpms e). intros cs. induction cs as [|c cs IH]; intros [|a l] L H'; try discriminate; constructor.
      * apply (H' 0%nat c a); reflexivity.
      * apply IH; [cbn in L; congruence|]. intros n c' a' E1 E2. apply (H' (S n) c' a'); assumption.
    + intros F. split; [symmetry; apply (F2_len _ _ _ F)|]. intros n c a E1 E2. exists c. apply K. split; [reflexivity|].
      revert n E1 E2. clear - F. induction F as [|c0 a0 cs l H F IH]; intros [|n] E1 E2; cbn in E1, E2; try discriminate.
      * injection E1 as <-. injection E2 as <-. exact H.
      * apply (IH n); assumption.
Qed.
Print Assumptions C48_simulate_bulk.

Example C48_bulk_queries : exists l, possible (ens_simulate_bulk demo_ensemble (Some [AInt 0; AInt 1]) (Some [AList [9]; AList [9; 19]]) None None None true)
    (fun r => snd r = Ok l) /\
  l = [[SOne [(9, vz 0)]; SOne [(9, vz 1); (19, vz 0)]]; [SOne [(9, vz 0)]; SOne [(9, vz 1); (19, vz 0)]]].
Proof. eexists. split; [vm_compute; reflexivity|vm_compute; reflexivity]. Qed.

(** Argument lists of different lengths are refused before anything is changed, whatever the
    chains and with or without worker processes; also if no list is given at all. *)
Theorem C48_lengths : forall e mp l l', whole e -> (0 < chains e)%nat -> List.length l <> List.length l' ->
  (forall rowids observations ins, In (Some l) [rowids; observations; ins] -> In (Some l') [rowids; observations; ins] ->
     ens_observe_bulk e rowids observations ins mp = Ret (e, Err AssertionError)) /\
  (forall rowids targets C ins, In (Some l) [rowids; targets; C; ins] -> In (Some l') [rowids; targets; C; ins] ->
     ens_logpdf_bulk e rowids targets C ins mp = Ret (e, Err AssertionError)) /\
  (forall rowids targets C ins Ns, In (Some l) [rowids; targets; C; ins; Ns] -> In (Some l') [rowids; targets; C; ins; Ns] ->
     ens_simulate_bulk e rowids targets C ins Ns mp = Ret (e, Err AssertionError)).
Proof.
  intros e mp l l' W P N. split; [|split]; intros.
  - apply modify_raises; [exact W|exact P|]. intros c. unfold modify_bulk. rewrite (args_list_bad _ l l') by assumption. reflexivity.
  - apply evaluate_raises; [exact W|exact P|]. intros _ c. unfold evaluate_bulk. rewrite (args_list_bad _ l l') by assumption. reflexivity.
  - apply evaluate_raises; [exact W|exact P|]. intros _ c. unfold evaluate_bulk. rewrite (args_list_bad _ l l') by assumption. reflexivity.
Qed.
Print Assumptions C48_lengths.

Theorem C48_no_lists : forall e mp, whole e -> (0 < chains e)%nat ->
  ens_observe_bulk e None None None mp = Ret (e, Err IndexError) /\
  ens_unobserve_bulk e None mp = Ret (e, Err IndexError) /\
  ens_logpdf_bulk e None None None None mp = Ret (e, Err IndexError) /\
  ens_simulate_bulk e None None None None None mp = Ret (e, Err IndexError).
Proof.
  intros e mp W P. repeat apply conj; (apply modify_raises || apply evaluate_raises); try assumption; reflexivity.
Qed.
Print Assumptions C48_no_lists.

Example C48_lengths_case : whole demo_ensemble /\ (0 < chains demo_ensemble)%nat /\
  ens_observe_bulk demo_ensemble (Some [AInt 5; AInt 6]) (Some [ADict [(1, vz 0)]]) None false = Ret (demo_ensemble, Err AssertionError).
Proof.
  split; [reflexivity|]. split; [cbn; lia|].
  apply (C48_lengths demo_ensemble false [AInt 5; AInt 6] [ADict [(1, vz 0)]] demo_whole); [cbn; lia|cbn; lia|now left|right; now left].
Qed.

(** The heterogeneous calls hand chain number [n] the [n]-th argument. *)
Theorem C48_logpdf_heterogeneous : forall e (queries : list (option Z * (row * (row * row)))) mp, whole e -> List.length queries = chains e ->
  ens_logpdf_heterogeneous e (Some (map (fun q => match fst q with Some r => AInt r | None => ANone end) queries)) (Some (map (fun q => ADict (fst (snd q))) queries))
    (Some (map (fun q => ADict (fst (snd (snd q)))) queries)) (Some (map (fun q => ADict (snd (snd (snd q)))) queries)) mp =
  Ret (e, oseq (map (fun p => logpdf (fst p) (fst (snd p)) (fst (snd (snd p))) (fst (snd (snd (snd p)))) (snd (snd (snd (snd p))))) (combine (cgpms e) queries))).
Proof.
  intros e queries mp W L. unfold ens_logpdf_heterogeneous. rewrite hetero_good.
  - set (d := (None, ([], ([], []))) : option Z * (row * (row * row))).
    rewrite (evaluate_same e mp _ (fun n c => Ret (c, match nth_error queries n with
        | Some q => logpdf c (fst q) (fst (snd q)) (fst (snd (snd q))) (snd (snd (snd q))) | None => Err TypeError end))); [| |exact W].
    + rewrite evaluate_pure by exact W. f_equal. f_equal. f_equal. unfold whole in W. rewrite <- W. rewrite <- W in L.
      transitivity (map (fun p : nat * cgpm => match nth_error queries (fst p - 0) with
        | Some q => logpdf (snd p) (fst q) (fst (snd q)) (fst (snd (snd q))) (snd (snd (snd q))) | None => Err TypeError end) (combine (seq 0 (List.length (cgpms e))) (cgpms e))).
      { apply map_ext. intros [n c]. cbn [fst snd]. rewrite Nat.sub_0_r. reflexivity. }
      revert L. generalize (cgpms e). intros cs. generalize 0%nat as i. revert queries.
      induction cs as [|c cs IH]; intros [|q queries] i L; try discriminate; [reflexivity|].
      cbn [List.length seq combine map fst snd]. f_equal; [rewrite Nat.sub_diag; reflexivity|].
      rewrite <- (IH queries (S i)) by (cbn in L; congruence). apply map_ext_in. intros [n c'] Hn. cbn [fst snd].
      apply in_combine_l in Hn. apply in_seq in Hn. replace (n - i)%nat with (S (n - S i)) by lia. reflexivity.
    + intros n c. cbn [map]. destruct (nth_error queries n) as [q|] eqn:X.
      * rewrite !(nth_error_nth _ _ _ (map_nth_error _ _ _ X)). destruct q as [[r|] [T [C i]]]; reflexivity.
      * apply nth_error_None in X. rewrite !nth_overflow by (rewrite map_length; exact X). reflexivity.
  - intros l H. cbn in H. intuition; match goal with X : Some _ = Some _ |- _ => injection X as <- end; rewrite map_length; exact L.
Qed.
Print Assumptions C48_logpdf_heterogeneous.

(** A list that does not have one item for every chain is refused, and nothing changes. *)
Theorem C48_lengths_heterogeneous : forall e mp, 
  (forall rowid targets C ins l, In (Some l) [rowid; targets; C; ins] -> List.length l <> chains e ->
     ens_logpdf_heterogeneous e rowid targets C ins mp = Ret (e, Err AssertionError)) /\
  (forall rowid targets C ins l, In (Some l) [rowid; targets; C; ins] -> List.length l <> chains e ->
     ens_logpdf_heterogeneous_bulk e rowid targets C ins mp = Ret (e, Err AssertionError)) /\
  (forall rowid targets C ins N l, In (Some l) [rowid; targets; C; ins; N] -> List.length l <> chains e ->
     ens_simulate_heterogeneous e rowid targets C ins N mp = Ret (e, Err AssertionError)) /\
  (forall rowid targets C ins N l, In (Some l) [rowid; targets; C; ins; N] -> List.length l <> chains e ->
     ens_simulate_heterogeneous_bulk e rowid targets C ins N mp = Ret (e, Err AssertionError)).
Proof. intros e mp. repeat apply conj; intros; eapply hetero_bad; eassumption. Qed.
Print Assumptions C48_lengths_heterogeneous.

Example C48_heterogeneous_case : exists l, ens_logpdf_heterogeneous demo_ensemble (Some [ANone; ANone])
    (Some [ADict [(2, vz 1)]; ADict [(3, vz 0)]]) (Some [ADict []; ADict [(1, vz 2)]]) (Some [ADict []; ADict []]) true = Ret (demo_ensemble, Ok l) /\
  l = [match logpdf (CProd demo_crosscat) None [(2, vz 1)] [] [] with Ok x => x | _ => XNan end;
       match logpdf (CProd demo_crosscat) None [(3, vz 0)] [(1, vz 2)] [] with Ok x => x | _ => XNan end].
Proof.
  eexists. split; [|reflexivity].
  transitivity (Ret (A := ensemble * out (list xr)) (demo_ensemble, oseq [logpdf (CProd demo_crosscat) None [(2, vz 1)] [] []; logpdf (CProd demo_crosscat) None [(3, vz 0)] [(1, vz 2)] []])).
  - exact (C48_logpdf_heterogeneous demo_ensemble [(None, ([(2, vz 1)], ([], []))); (None, ([(3, vz 0)], ([(1, vz 2)], [])))] true demo_whole eq_refl).
  - assert (X1 : match logpdf (CProd demo_crosscat) None [(2, vz 1)] [] [] with Ok _ => true | Err _ => false end = true) by (vm_compute; reflexivity).
    assert (X2 : match logpdf (CProd demo_crosscat) None [(3, vz 0)] [(1, vz 2)] [] with Ok _ => true | Err _ => false end = true) by (vm_compute; reflexivity).
    destruct (logpdf (CProd demo_crosscat) None [(2, vz 1)] [] []) as [x|]; [|discriminate].
    destruct (logpdf (CProd demo_crosscat) None [(3, vz 0)] [(1, vz 2)] []) as [y|]; [|discriminate]. reflexivity.
Qed.

(** ** C48: the same table in every chain *)

(** A new ensemble has the chains asked for, each with the columns and types asked for, and
    no rows; the constructor fails only by an assertion (two labels drawn the same). *)
Theorem C48_new : forall order ext outs dists ks n, List.length outs = List.length dists -> Forall2 column_kind dists ks -> NoDup outs ->
  always (new_ensemble order ext false outs dists n) (fun r => match r with
    | Ok e => whole e /\ chains e = n /\ ens_outputs e = outs /\ ens_distributions e = dists /\ forall c, In c (cgpms e) -> new_chain outs ks c
    | Err x => x = AssertionError end).
Proof.
  intros order ext outs dists ks n L K N. apply ensemble_made; [exact L|]. apply chain_drawn; assumption.
Qed.
Print Assumptions C48_new.

(** With dependence constraints, if the external partition sampler keeps to [Q], so does the
    partition of the columns of every chain. *)
Theorem C48_new_constrained : forall order ext outs dists ks n Q, List.length outs = List.length dists -> Forall2 column_kind dists ks -> NoDup outs ->
  lists order ->
  (forall alpha, (0 < qr alpha)%R -> always (ext (List.length outs) alpha) (fun r => exists l, r = Ok l /\ List.length l = List.length outs /\ Q l)) ->
  always (new_ensemble order ext true outs dists n) (fun r => match r with
    | Ok e => whole e /\ chains e = n /\ ens_outputs e = outs /\ ens_distributions e = dists /\ forall c, In c (cgpms e) ->
        new_chain outs ks c /\ exists l, Q l /\ List.length l = List.length outs /\ assigned outs l c
    | Err x => x = AssertionError end).
Proof.
  intros order ext outs dists ks n Q L K N LO HE. apply ensemble_made; [exact L|]. apply chain_constrained; assumption.
Qed.
Print Assumptions C48_new_constrained.

(** After any successful calls (rows recorded and removed, one by one or in bulk, and
    inference that keeps the table), every chain has exactly the same table. *)
Theorem C48_same_table : forall e0 outs ks l e, whole e0 -> ens_outputs e0 = outs -> (forall c, In c (cgpms e0) -> new_chain outs ks c) ->
  ens_history e0 l e ->
  whole e /\ same_but_chains e0 e /\ forall c, In c (cgpms e) -> showing outs ks (fold_left apply_change l (fun _ _ => None)) c.
Proof.
  intros e0 outs ks l e W EO HN EH.
  assert (S : chains_show outs ks (fun _ _ => None) e0) by (split; [exact W|split; [exact EO|]]; intros c Hc; apply (HN c Hc)).
  destruct (history_shows outs ks (fun _ _ => None) e0 l e S EH) as (W' & _ & S'). split; [exact W'|]. split; [|exact S'].
  clear - EH W. assert (X : whole e /\ same_but_chains e0 e); [|apply X].
  induction EH as [|l e e' mp rid obs EH IH A P|l e e' mp rowids observations EH IH L A P|l e e' mp rid EH IH P|l e e' mp rowids EH IH P|l e e' mp program EH IH K P].
  - split; [exact W|repeat split].
  - apply (ens_modify_ok e mp _ e' (proj1 IH)) in P as [(E1 & E2 & E3) F]. destruct IH as [IH1 (IH2 & IH3 & IH4)]. split; [|unfold same_but_chains; repeat split; congruence]. unfold whole in *. apply F2_len in F. congruence.
  - apply (ens_modify_ok e mp _ e' (proj1 IH)) in P as [(E1 & E2 & E3) F]. destruct IH as [IH1 (IH2 & IH3 & IH4)]. split; [|unfold same_but_chains; repeat split; congruence]. unfold whole in *. apply F2_len in F. congruence.
  - apply (ens_modify_ok e mp _ e' (proj1 IH)) in P as [(E1 & E2 & E3) F]. destruct IH as [IH1 (IH2 & IH3 & IH4)]. split; [|unfold same_but_chains; repeat split; congruence]. unfold whole in *. apply F2_len in F. congruence.
  - apply (ens_modify_ok e mp _ e' (proj1 IH)) in P as [(E1 & E2 & E3) F]. destruct IH as [IH1 (IH2 & IH3 & IH4)]. split; [|unfold same_but_chains; repeat split; congruence]. unfold whole in *. apply F2_len in F. congruence.
  - apply (ens_modify_ok e mp _ e' (proj1 IH)) in P as [(E1 & E2 & E3) F]. destruct IH as [IH1 (IH2 & IH3 & IH4)]. split; [|unfold same_but_chains; repeat split; congruence]. unfold whole in *. apply F2_len in F. congruence.
Qed.
Print Assumptions C48_same_table.

(** Gibbs sampling is such an inference, if every row has a value for every column. *)
Theorem C48_inference : forall e fuel clock g N T kernels outs rowids,
  (forall c, In c (cgpms e) -> exists X, c = CProd X /\ crosscat X /\ complete X /\ no_gaps X /\
     (List.length (flat_map columns_of X) <= 257)%nat /\ columns_given X outs) ->
  keeps_table e (fun c => let! r := transition fuel clock g c N T kernels outs rowids in Ret (fst r, do _ <- snd r; Ok (fst r))).
Proof.
  intros e fuel clock g N T kernels outs rowids HX outs' ks F c s c' Hc SH CN.
  destruct (HX c Hc) as (X & -> & C & CX & NG & LX & HO).
  unfold can in CN. rewrite <- possible_bind in CN. cbn [possible] in CN.
  destruct (always_possible _ _ _ (C55_transition X fuel clock g N T kernels outs rowids C CX NG LX HO) CN) as ([d [u|x]] & (X' & E1 & SD) & E2); cbn in E1, E2; [|discriminate].
  assert (E : c' = CProd X') by congruence. rewrite E. apply showing_same_data with X; assumption.
Qed.
Print Assumptions C48_inference.

(** Two new chains with columns 1 and 2, and a row recorded with a cluster drawn by each. *)
Definition demo_new_chain : cgpm := CProd [demo_new].
Definition demo_new_ensemble : ensemble := mkEns 2 [1; 2] (firstn 2 demo_distributions) [demo_new_chain; demo_new_chain].

Lemma one_flip : forall w, possible (log_pflip [Fin w]) (fun r => r = Ok 0%nat).
Proof. intros w. cbn. exists 0%nat. split; [lia|]. split; [apply exp_pos|reflexivity]. Qed.

Lemma demo_new_chain_ok : new_chain [1; 2] [KCategory 3; KBit] demo_new_chain.
Proof.
  destruct (new_view_good demo_new demo_new_view) as (RE & S & K & R). split.
  - exists [demo_new]. split; [reflexivity|]. split; [|split; [|split]].
    + split; [intros m [<-|[]]; split; [apply creachable_grown; exact RE|split; [exact S|exact K]]|].
      replace (flat_map outputs [demo_new]) with [9; 1; 2] by (vm_compute; reflexivity). repeat (constructor; [cbn; intuition lia|]). constructor.
    + replace (flat_map columns_of [demo_new]) with [1; 2] by (vm_compute; reflexivity). apply Permutation_refl.
    + constructor; [exists demo_new; split; [now left|vm_compute; reflexivity]|]. constructor; [exists demo_new; split; [now left|vm_compute; reflexivity]|constructor].
    + intros r v x. split; [|discriminate]. intros (m & [<-|[]] & E). exfalso. apply (ViewsThm5.cell_seat demo_new r v x E). exact (proj1 (R r)).
  - exists [demo_new]. split; [reflexivity|]. intros m [<-|[]]. exact demo_new_view.
Qed.

Example C48_same_table_case : exists e, whole demo_new_ensemble /\ (forall c, In c (cgpms demo_new_ensemble) -> new_chain [1; 2] [KCategory 3; KBit] c) /\
  ens_history demo_new_ensemble [Recorded 0 [(1, vz 2); (2, vz 1)]] e.
Proof.
  assert (O : exists c, possible (observe demo_new_chain 0 [(1, vz 2); (2, vz 1)] []) (fun r => r = (c, Ok tt))).
  { eexists. lazy -[possible sbind log_pflip Rdiv Rplus Rmult Rinv Rminus exp ln IZR Q2R qr].
    rewrite <- !possible_bind. eapply possible_imp; [|apply one_flip]. intros r ->.
    lazy -[Rdiv Rplus Rmult Rinv Rminus exp ln IZR Q2R qr]. reflexivity. }
  destruct O as (c & O). exists (with_cgpms demo_new_ensemble [c; c]). split; [reflexivity|]. split; [intros d [<-|[<-|[]]]; exact demo_new_chain_ok|].
  apply (eh_observe demo_new_ensemble [] demo_new_ensemble (with_cgpms demo_new_ensemble [c; c]) true 0 [(1, vz 2); (2, vz 1)]); [constructor| |].
  - split; [repeat (constructor; [cbn; intuition lia|]); constructor|]. intros z Hz. exact Hz.
  - apply (C48_observe demo_new_ensemble 0 [(1, vz 2); (2, vz 1)] [] true); [reflexivity|]. split; [repeat split|].
    constructor; [exact O|]. constructor; [exact O|constructor].
Qed.

Example C48_inference_case : exists X, CProd demo_crosscat = CProd X /\ crosscat X /\ complete X /\ no_gaps X /\
     (List.length (flat_map columns_of X) <= 257)%nat /\ columns_given X None.
Proof.
  exists demo_crosscat. split; [reflexivity|]. split; [exact demo_crosscat_ok|]. split; [exact demo_complete|]. split; [exact (proj1 (proj2 (proj2 C55_case)))|].
  split; [replace (flat_map columns_of demo_crosscat) with [1; 2; 3] by (vm_compute; reflexivity); cbn; lia|intros l o E; discriminate].
Qed.

Example C48_new_case : Forall2 column_kind demo_distributions [KCategory 3; KBit; KBit] /\ NoDup [1; 2; 3] /\ lists by_size.
Proof.
  split; [|split].
  - constructor; [apply ck_categorical; [reflexivity|lia]|]. constructor; [apply ck_bernoulli|]. constructor; [apply ck_bernoulli|constructor].
  - repeat (constructor; [cbn; intuition lia|]). constructor.
  - exact (proj1 by_size_ok).
Qed.

(** ** C49: dependence matrices *)

(** The matrix of the columns (or any other outputs, each once) of a CrossCat model is a
    symmetric matrix of zeros and ones with ones on the diagonal, transitive, and has a one
    exactly for outputs in the same view. *)
Theorem C49_columns : forall X outs, crosscat X -> NoDup outs -> incl outs (flat_map outputs X) ->
  exists M, same_assignment_column_pairwise (CProd X) outs = Ok M /\
    equivalence_matrix (List.length outs) M /\ indicates outs (same_view X) M.
Proof. exact column_pairwise_spec. Qed.
Print Assumptions C49_columns.

Theorem C49_columns_unknown : forall X outs o, crosscat X -> In o outs -> ~ In o (flat_map outputs X) -> (2 <= List.length outs)%nat ->
  same_assignment_column_pairwise (CProd X) outs = Err KeyError.
Proof. exact column_pairwise_unknown. Qed.
Print Assumptions C49_columns_unknown.

(** The matrix of the rows of the view of an output: one row for every row of the view, and a
    one exactly for rows in the same cluster. *)
Theorem C49_rows : forall X m o, crosscat X -> In m X -> In o (outputs m) ->
  exists rows M, get_rowids m = Ok rows /\ NoDup rows /\ (forall r, In r rows <-> seat m r <> None) /\
    same_assignment_row_pairwise (CProd X) o = Ok M /\
    equivalence_matrix (List.length rows) M /\ indicates rows (fun r r' => seat m r = seat m r') M.
Proof. exact row_pairwise_spec. Qed.
Print Assumptions C49_rows.

Theorem C49_rows_unknown : forall X o, crosscat X -> ~ In o (flat_map outputs X) ->
  same_assignment_row_pairwise (CProd X) o = Err KeyError.
Proof. exact row_pairwise_unknown. Qed.
Print Assumptions C49_rows_unknown.

(** The ensemble answers with one such matrix for every chain. *)
Theorem C49_ensemble : forall e mp, whole e -> NoDup (ens_outputs e) ->
  (forall c, In c (cgpms e) -> exists X, c = CProd X /\ crosscat X /\ incl (ens_outputs e) (flat_map columns_of X)) ->
  exists Ms, ens_same_assignment_column_pairwise e mp = Ret (e, Ok Ms) /\
    Forall2 (fun c M => exists X, c = CProd X /\ equivalence_matrix (List.length (ens_outputs e)) M /\ indicates (ens_outputs e) (together X) M) (cgpms e) Ms.
Proof.
  intros e mp W ND HX. unfold ens_same_assignment_column_pairwise. rewrite evaluate_each by exact W.
  cut (exists Ms, oseq (map (fun c => same_assignment_column_pairwise c (ens_outputs e)) (cgpms e)) = Ok Ms /\
    Forall2 (fun c M => exists X, c = CProd X /\ equivalence_matrix (List.length (ens_outputs e)) M /\ indicates (ens_outputs e) (together X) M) (cgpms e) Ms).
  { intros (Ms & E & F). exists Ms. rewrite E. split; [reflexivity|exact F]. }
  clear W. revert HX ND. generalize (ens_outputs e). intros outs. induction (cgpms e) as [|c cs IH]; intros HX ND.
  - exists []. split; [reflexivity|constructor].
  - destruct (HX c (or_introl eq_refl)) as (X & -> & CX & IX).
    assert (IX' : incl outs (flat_map outputs X)).
    { intros o Ho. apply IX in Ho. apply in_flat_map in Ho as (m & Hm & Ho). apply in_flat_map. exists m. split; [exact Hm|].
      apply (columns_outputs m o); [apply CX; exact Hm|exact Ho]. }
    destruct (column_pairwise_spec X outs CX ND IX') as (M & E & Q & J). destruct IH as (Ms & Es & F); [intros d Hd; apply HX; now right|exact ND|].
    exists (M :: Ms). cbn [map]. rewrite E. cbn [oseq obind]. rewrite Es. split; [reflexivity|]. constructor; [|exact F].
    exists X. split; [reflexivity|]. split; [exact Q|]. intros i j a b Ei Ej. rewrite (J i j a b Ei Ej). split.
    + intros (m & Hm & Ha & Hb). exists m. split; [exact Hm|]. apply nth_error_In in Ei, Ej.
      assert (NL : forall v, In v outs -> In v (outputs m) -> In v (columns_of m)).
      { intros v Hv Hv'. rewrite (sheet_outputs m (proj1 (proj2 (proj1 CX m Hm)))) in Hv'. destruct Hv' as [E'|Hv']; [|exact Hv'].
        exfalso. apply (label_not_column X m v CX Hm (IX v Hv)). symmetry. exact E'. }
      split; apply NL; assumption.
    + intros (m & Hm & Ha & Hb). exists m. split; [exact Hm|]. split; apply columns_outputs; try assumption; apply CX; exact Hm.
Qed.
Print Assumptions C49_ensemble.

Example C49_case : crosscat demo_crosscat /\ incl [1; 2; 3] (flat_map outputs demo_crosscat) /\
  same_assignment_column_pairwise (CProd demo_crosscat) [1; 2; 3] = Ok [[1; 1; 0]; [1; 1; 0]; [0; 0; 1]] /\
  same_assignment_row_pairwise (CProd demo_crosscat) 1 = Ok [[1; 0]; [0; 1]] /\
  same_assignment_row_pairwise (CProd demo_crosscat) 3 = Ok [[1; 1]; [1; 1]].
Proof.
  split; [exact demo_crosscat_ok|]. split; [|split; [vm_compute; reflexivity|split; vm_compute; reflexivity]].
  replace (flat_map outputs demo_crosscat) with [9; 1; 2; 19; 3] by (vm_compute; reflexivity). intros z Hz. cbn in *. intuition.
Qed.

(** If an output is given twice the matrix is wrong: columns 1 and 2 are in the same view but
    their entry is 0. *)
Theorem C49_duplicates_refuted : ~ (forall X outs, crosscat X -> incl outs (flat_map outputs X) ->
  exists M, same_assignment_column_pairwise (CProd X) outs = Ok M /\ indicates outs (same_view X) M).
Proof.
  intros H. destruct (H demo_crosscat [1; 2; 1] demo_crosscat_ok) as (M & E & J).
  - replace (flat_map outputs demo_crosscat) with [9; 1; 2; 19; 3] by (vm_compute; reflexivity). intros z Hz. cbn in *. intuition.
  - assert (E' : same_assignment_column_pairwise (CProd demo_crosscat) [1; 2; 1] = Ok [[1; 0; 0]; [0; 1; 1]; [0; 1; 1]]) by (vm_compute; reflexivity).
    rewrite E' in E. injection E as <-. specialize (J 0%nat 1%nat 1 2 eq_refl eq_refl). cbn in J.
    assert (X : 0 = 1); [|discriminate]. apply J. exists left2. split; [now left|].
    replace (outputs left2) with [9; 1; 2] by (vm_compute; reflexivity). cbn. intuition.
Qed.
Print Assumptions C49_duplicates_refuted.

(** ** C56: saving and reloading an ensemble *)

(** An ensemble made again from its metadata is the same ensemble: every chain is the same
    model. The only failures are those of the constructor, which first makes random chains
    that are then thrown away. *)
Theorem C56_reload : forall order ext constrained e, whole e -> (forall c, In c (cgpms e) -> grown c) ->
  always (ens_reload order ext constrained e) (fun r => match r with
    | Ok e' => e' = e
    | Err x => possible (new_ensemble order ext constrained (ens_outputs e) (ens_distributions e) (chains e)) (fun q => q = Err x) end).
Proof.
  intros order ext constrained e W G. unfold ens_reload.
  assert (E : oseq (map clone (cgpms e)) = Ok (cgpms e)).
  { clear W. induction (cgpms e) as [|c cs IH]; [reflexivity|]. cbn [map oseq]. unfold clone at 1. rewrite C30_round_trip by (apply G; now left).
    cbn [obind]. rewrite IH by (intros d Hd; apply G; now right). reflexivity. }
  rewrite E. unfold sobind. apply always_bind.
  assert (N : always (new_ensemble order ext constrained (ens_outputs e) (ens_distributions e) (chains e)) (fun r => match r with
    | Ok e' => chains e' = chains e /\ ens_outputs e' = ens_outputs e /\ ens_distributions e' = ens_distributions e | Err _ => True end)).
  { unfold new_ensemble. destruct (Nat.eqb _ _); [|exact Logic.I]. unfold sobind. apply always_bind. eapply always_imp; [|apply always_self].
    intros [cs|x] _; cbn; auto. }
  generalize (always_and _ _ _ N (always_self _)). apply always_imp. intros [e'|x] [H P]; cbn [always omap obind].
  - destruct e as [n o d cs], e' as [n' o' d' cs']. cbn in H |- *. destruct H as (-> & -> & ->). reflexivity.
  - exact P.
Qed.
Print Assumptions C56_reload.

(** So after any successful calls on a new ensemble; and the only failure is the assertion of
    two labels drawn the same. *)
Theorem C56_reload_history : forall order ext ks e0 l e, List.length (ens_outputs e0) = List.length (ens_distributions e0) ->
  Forall2 column_kind (ens_distributions e0) ks -> NoDup (ens_outputs e0) ->
  whole e0 -> (forall c, In c (cgpms e0) -> new_chain (ens_outputs e0) ks c) -> ens_history e0 l e ->
  always (ens_reload order ext false e) (fun r => match r with Ok e' => e' = e | Err x => x = AssertionError end).
Proof.
  intros order ext ks e0 l e L K ND W NC H.
  destruct (C48_same_table e0 (ens_outputs e0) ks l e W eq_refl NC H) as (W' & (_ & EO & ED) & SH).
  assert (G : forall c, In c (cgpms e) -> grown c).
  { intros c Hc. destruct (SH c Hc) as (X & -> & CX & _). apply crosscat_grown. exact CX. }
  eapply always_imp; [|exact (C56_reload order ext false e W' G)]. intros [e'|x] HR; [exact HR|].
  rewrite EO, ED in HR. destruct (always_possible _ _ _ (C48_new order ext (ens_outputs e0) (ens_distributions e0) ks (chains e) L K ND) HR) as (q & Hq & ->). exact Hq.
Qed.
Print Assumptions C56_reload_history.

Example C56_case : whole demo_ensemble /\ (forall c, In c (cgpms demo_ensemble) -> grown c) /\
  oseq (map clone (cgpms demo_ensemble)) = Ok [CProd demo_crosscat; CProd demo_crosscat].
Proof.
  assert (G : grown (CProd demo_crosscat)) by (apply crosscat_grown; exact demo_crosscat_ok).
  split; [reflexivity|]. split; [intros c [<-|[<-|[]]]; exact G|]. cbn [cgpms demo_ensemble map oseq]. unfold clone. rewrite (C30_round_trip _ G). reflexivity.
Qed.
