(** Property C23: queries do not change any answer. Statements use the model of the API with
    effects (Query.v), the pure model (Cgpm.v) and the specification (SpecQuery.v). *)
From Coq Require Import List ZArith QArith Qcanon Reals Bool String Permutation Lia Lra.
From Verif Require Import Base Xr Samp Lgamma Prims Cgpm Lib SpecPrims PrimsInv PrimsDens PrimsThm2
  SpecComp CompInv CompDens CompThm PropPrims DemoComp PropComp SpecBook Book
  Query SpecQuery QueryThm
  SpecWalks WalksThm.
Import ListNotations.
Local Open Scope Z_scope.

(** A density query answers as the pure function does, on any object, and what it leaves is
    the object with components added to its flexible arrays, copies of their bases. *)
Theorem C23_logpdf_effect : forall c rid T C ins,
  let (c', r) := logpdf_st (depth c) rid T C ins c in r = logpdf c rid T C ins /\ touched c c'.
Proof.
  intros c rid T C ins. destruct (logpdf_st_ok (depth c) rid T C ins c (fits_depth c)) as [A B].
  destruct (logpdf_st (depth c) rid T C ins c). auto.
Qed.
Print Assumptions C23_logpdf_effect.

Theorem C23_simulate_effect : forall c rid ts C ins N,
  coupled (fun r v => snd r = v /\ touched c (fst r)) (simulate_st (depth c) rid ts C ins N c) (simulate c rid ts C ins N).
Proof.
  intros c rid ts C ins N. eapply coupled_imp; [|apply simulate_st_ok; apply fits_depth]. intros r v [A B]. auto.
Qed.
Print Assumptions C23_simulate_effect.

(** Such an object answers every call as the original one does. *)
Theorem C23_same_answers : forall c c', touched c c' ->
  (forall rid T C ins, logpdf c' rid T C ins = logpdf c rid T C ins) /\
  (forall rid ts C ins N, simulate c' rid ts C ins N = simulate c rid ts C ins N) /\
  (forall rid, snd (unobserve c' rid) = snd (unobserve c rid) /\
               touched (fst (unobserve c rid)) (fst (unobserve c' rid))) /\
  (forall rid obs ins, coupled (fun r r' => snd r' = snd r /\ touched (fst r) (fst r'))
                               (observe c rid obs ins) (observe c' rid obs ins)) /\
  (grown c -> flexible c -> clean c -> score c' = score c).
Proof.
  intros c c' T. split; [intros; now rewrite (touched_logpdf _ _ T)|]. split; [intros; now rewrite (touched_simulate _ _ T)|].
  split; [intros rid; destruct (touched_unobserve c c' rid T); auto|]. split.
  - intros rid obs ins. eapply coupled_imp; [|apply touched_observe; exact T]. intros r r' [A B]. auto.
  - intros RE F C. apply touched_score; [now apply grown_wf|now split|exact T].
Qed.
Print Assumptions C23_same_answers.

(** Every program of queries and updates gives the answers it would give if queries had no
    effect at all: same draws, same probabilities, same results. Programs that ask for
    logpdf_score are covered for objects whose arrays are flexible with empty bases. *)
Theorem C23_interleaved : forall qs c, (In QScore qs -> grown c /\ flexible c /\ clean c) ->
  coupled eq (run_effects qs c) (run_pure qs c).
Proof.
  intros qs c H. apply run_effects_ok; [apply td_same|]. intros Q. destruct (H Q) as (A & B & C). split; [now apply grown_wf|now split].
Qed.
Print Assumptions C23_interleaved.

(** In particular the answers have the same law. *)
Theorem C23_interleaved_law : forall qs c, (In QScore qs -> grown c /\ flexible c /\ clean c) ->
  finite_choices (run_effects qs c) ->
  forall f, expect (run_effects qs c) f = expect (run_pure qs c) f.
Proof. intros qs c H F f. apply coupled_expect; [exact F|]. now apply C23_interleaved. Qed.
Print Assumptions C23_interleaved_law.

(** Non-trivial: the query below adds the component of the new cluster. *)
Definition new_keys (c : cgpm) : list val :=
  match c with CMix _ _ (CFlexArr _ _ cs _) _ => keys cs | _ => [] end.
Example C23_case :
  new_keys demo_view = [vz 0; vz 1] /\
  new_keys (fst (logpdf_st (depth demo_view) None [(1, vz 2)] [] [] demo_view)) = [vz 0; vz 1; vz 2] /\
  grown demo_view /\ flexible demo_view /\ clean demo_view /\
  match run_effects [QScore; QLogpdf None [(1, vz 2)] [] []; QScore; QObserve 7 [(9, vz 2); (1, vz 0); (2, vz 1)] []; QUnobserve 7] demo_view with
  | Ret l => nth_error l 4 = Some (ARow (Ok ([(9, vz 2); (1, vz 0); (2, vz 1)], [])))
  | _ => False
  end.
Proof.
  split; [vm_compute; reflexivity|]. split; [vm_compute; reflexivity|]. split; [exact (creachable_grown _ (proj1 demo_view_reachable))|].
  split; [vm_compute; repeat split|]. split; [vm_compute; repeat split|]. vm_compute. reflexivity.
Qed.

(** If the base of a flexible array has data, a query that instantiates a component changes
    logpdf_score. *)
Definition dirty_base : cgpm := CProd [CDist (fst (dist_observe cat1 0 [(1, vz 2)] []))].
Definition dirty : cgpm := new_flexmix crp9 dirty_base.
Lemma dirty_reachable : creachable dirty.
Proof.
  apply (cr_flexible crp9 dirty_base [0]); [exact crp9_reachable|vm_compute; reflexivity| |cbn; intuition lia].
  apply (cr_product [CDist (fst (dist_observe cat1 0 [(1, vz 2)] []))]); [|reflexivity].
  intros c [<-|[]]. constructor. exists cat1, [Observe 0 [(1, vz 2)] []]. split; [|reflexivity]. apply fresh_cat; [lia|exact half_pos].
Qed.
Theorem C23_score_refuted : exists c T, creachable c /\ flexible c /\
  score (fst (logpdf_st (depth c) None T [] [] c)) <> score c.
Proof.
  exists dirty, [(1, vz 2)]. split; [exact dirty_reachable|]. split; [repeat split|].
  assert (E : fst (logpdf_st (depth dirty) None [(1, vz 2)] [] [] dirty) = CMix true crp9 (CFlexArr 9 dirty_base [(vz 0, dirty_base)] []) []) by (vm_compute; reflexivity).
  rewrite E. clear E. set (d' := fst (dist_observe cat1 0 [(1, vz 2)] [])).
  assert (S0 : dist_score crp9 = Ok (Fin 0%R)) by (apply C05_score_empty; apply fresh_crp; exact half_pos).
  assert (S1 : exists l, dist_score d' = Ok (Fin l) /\ (l < 0)%R).
  { destruct (C05_score_step cat1 0 (vz 2) d' cat1_reachable) as (r & l & A & B & L); [vm_compute; reflexivity|].
    rewrite (C05_score_empty cat1) in A by (apply fresh_cat; [lia|exact half_pos]). injection A as <-.
    exists (0 + l)%R. split; [exact B|]. cbn [vz] in L.
    assert (P : dist_logpdf cat1 (Some 0) [(dist_o cat1, vz 2)] [] [] = cat_predictive 2 [0; 0; 0] half) by (vm_compute; reflexivity).
    rewrite P in L. unfold cat_predictive in L. rewrite !pylog_ok in L by (rewrite <- qr_0; apply qr_lt; reflexivity). cbn [obind] in L. injection L as <-.
    rewrite Rplus_0_l. apply Rlt_minus. apply ln_increasing; apply qr_lt || (rewrite <- qr_0; apply qr_lt); reflexivity. }
  destruct S1 as (l & S1 & NEG). unfold dirty, new_flexmix, dirty_base. fold d'. cbn [score map oseq omap obind]. rewrite S0, S1.
  cbn. intros X. injection X. lra.
Qed.
Print Assumptions C23_score_refuted.
