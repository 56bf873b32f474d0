(** Property C24: queries leave the caller's dictionaries alone. Statements use the model of
    the API on dictionaries in memory (Args.v), the model on values (Cgpm.v) and the
    specification (SpecArgs.v, SpecQuery.v). *)
From Coq Require Import List ZArith QArith Qcanon Reals Bool String Permutation Lia Lra.
From Verif Require Import Base Xr Samp Lgamma Prims Cgpm Lib SpecPrims PrimsInv PrimsDens PrimsThm2
  SpecComp CompInv CompDens CompThm PropPrims DemoComp PropComp SpecBook Book
  Query SpecQuery QueryThm Args SpecArgs ArgsThm.
Import ListNotations.
Local Open Scope Z_scope.

(** The three dictionaries may be one and the same object, or any others in memory. *)
Theorem C24_logpdf : forall c h rid T C ins, is_array c = false ->
  (T < List.length h)%nat -> (C < List.length h)%nat -> (ins < List.length h)%nat ->
  let (h', r) := logpdf_at c rid T C ins h in
  untouched h h' /\ r = logpdf c rid (get h T) (get h C) (get h ins).
Proof.
  intros c h rid T C ins A LT LC LI.
  assert (X := proj1 (logpdf_at_ok c) A h rid T C ins _ _ _ (conj LT eq_refl) (conj LC eq_refl) (conj LI eq_refl) h (un_refl h)).
  destruct (logpdf_at c rid T C ins h). exact X.
Qed.
Print Assumptions C24_logpdf.

Theorem C24_simulate : forall c h rid ts C ins N, is_array c = false ->
  (C < List.length h)%nat -> (ins < List.length h)%nat ->
  coupled (fun r v => untouched h (fst r) /\ snd r = v) (simulate_at c rid ts C ins N h)
          (simulate c rid ts (get h C) (get h ins) N).
Proof.
  intros c h rid ts C ins N A LC LI.
  exact (proj1 (simulate_at_ok c) A h rid ts C ins N _ _ (conj LC eq_refl) (conj LI eq_refl) h (un_refl h)).
Qed.
Print Assumptions C24_simulate.

Theorem C24_observe : forall c h rid obs ins, is_array c = false ->
  (obs < List.length h)%nat -> (ins < List.length h)%nat ->
  coupled (fun r v => untouched h (fst r) /\ snd r = v) (observe_at c rid obs ins h)
          (observe c rid (get h obs) (get h ins)).
Proof.
  intros c h rid obs ins A LO LI. exact (proj1 (observe_at_ok c) A h rid obs ins _ _ (conj LO eq_refl) (conj LI eq_refl)).
Qed.
Print Assumptions C24_observe.

(** An array used directly touches nothing but its inputs ... *)
Theorem C24_array_inputs_only : forall c h rid T C ins,
  (T < List.length h)%nat -> (C < List.length h)%nat -> (ins < List.length h)%nat -> T <> ins -> C <> ins ->
  let (h', r) := logpdf_at c rid T C ins h in
  untouched_but ins h h' /\ r = logpdf c rid (get h T) (get h C) (get h ins).
Proof.
  intros c h rid T C ins LT LC LI N1 N2.
  assert (X := proj2 (logpdf_at_ok c) h rid T C ins _ _ _ (conj LT eq_refl) (conj LC eq_refl) (conj LI eq_refl) N1 N2).
  destruct (logpdf_at c rid T C ins h). exact X.
Qed.
Print Assumptions C24_array_inputs_only.

(** ... but from those it removes the indexer, so that the same call made again raises. *)
Theorem C24_array_refuted : forall c h rid T C ins, is_array c = true ->
  (T < List.length h)%nat -> (C < List.length h)%nat -> (ins < List.length h)%nat -> NoDup (keys (get h ins)) ->
  let h' := fst (logpdf_at c rid T C ins h) in
  lookup (indexer c) (get h' ins) = None /\ snd (logpdf_at c rid T C ins h') = Err KeyError.
Proof.
  intros c h rid T C ins A LT LC LI ND h'. assert (X := array_pops c h rid T C ins A LT LC LI ND). fold h' in X.
  split; [exact X|]. rewrite (array_needs c h' rid T C ins A X). reflexivity.
Qed.
Print Assumptions C24_array_refuted.

(** A call that succeeds and whose repetition fails; and a mixture called with one dictionary
    for constraints and inputs. *)
Definition demo_array : cgpm := CFlexArr 9 demo_base [] [].
Definition demo_heap : heap := [[(1, vz 2)]; []; [(9, vz 0)]].
Example C24_case :
  (exists r, snd (logpdf_at demo_array None 0%nat 1%nat 2%nat demo_heap) = Ok r) /\
  fst (logpdf_at demo_array None 0%nat 1%nat 2%nat demo_heap) <> demo_heap /\
  snd (logpdf_at demo_array None 0%nat 1%nat 2%nat (fst (logpdf_at demo_array None 0%nat 1%nat 2%nat demo_heap))) = Err KeyError /\
  (exists r, snd (logpdf_at demo_view None 0%nat 1%nat 1%nat demo_heap) = Ok r) /\
  (List.length (fst (logpdf_at demo_view None 0%nat 1%nat 1%nat demo_heap)) > 3)%nat.
Proof.
  split; [eexists; vm_compute; reflexivity|]. split; [vm_compute; discriminate|]. split; [vm_compute; reflexivity|].
  split; [eexists; vm_compute; reflexivity|]. vm_compute. lia.
Qed.
