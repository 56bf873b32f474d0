(** C73: the abstract syntax of a model. *)
From Coq Require Import List ZArith QArith Qcanon Reals Bool String Lia.
From Verif Require Import Base Xr Samp Lgamma Prims Cgpm Lib SpecPrims PrimsInv SpecComp CompInv PropPrims DemoComp PropComp
  SpecTable Table Walks SpecWalks Views Crosscat PropViews Dsl PropCpp Ast AstThm.
From Verif Require Import SpecViews SpecCrosscat SpecAst.
Import ListNotations.
Local Open Scope Z_scope.

(** Recording and removing rows, whether the call succeeds or raises, does not change it. *)
Theorem C73_unchanged : forall c,
  (forall rid obs ins, always (observe c rid obs ins) (fun r => convert_cgpm_to_ast (fst r) = convert_cgpm_to_ast c)) /\
  (forall rid, convert_cgpm_to_ast (fst (unobserve c rid)) = convert_cgpm_to_ast c).
Proof. intros c. split; [exact (observe_ast c)|exact (unobserve_ast c)]. Qed.
Print Assumptions C73_unchanged.

Example C73_unchanged_case : fst (unobserve numbers2 4) <> numbers2 /\
  convert_cgpm_to_ast (fst (unobserve numbers2 4)) =
    Some (TMix (TPrim "crp" [] [("alpha", half)])
      (TList [TPrim "categorical" [("k", qz 3)] [("alpha", half)]; TPrim "normal" [] [("m", 0%Qc); ("r", 1%Qc); ("s", half); ("nu", 1%Qc)]]))%string.
Proof.
  split; [|vm_compute; reflexivity]. intros E. assert (Y : match fst (unobserve numbers2 4) with CMix _ _ _ r2c => List.length r2c | _ => 0%nat end = 2%nat) by (rewrite E; vm_compute; reflexivity).
  vm_compute in Y. discriminate.
Qed.

(** A well-formed model has none exactly if it shows a mixture with a fixed number of
    components or a bare array. *)
Theorem C73_none : forall c, wf c -> (convert_cgpm_to_ast c = None <-> foreign c).
Proof. intros c W. split; [apply None_foreign; exact W|apply foreign_None]. Qed.
Print Assumptions C73_none.

Example C73_none_case : wf demo_finite /\ foreign demo_finite /\ wf demo_state /\ convert_cgpm_to_ast demo_state <> None /\ ~ foreign demo_state.
Proof.
  assert (W := creachable_wf _ (proj1 demo_state_reachable)). assert (N : convert_cgpm_to_ast demo_state <> None) by (vm_compute; discriminate).
  split; [apply creachable_wf, demo_finite_reachable|]. split; [constructor|]. split; [exact W|]. split; [exact N|]. intros F. apply N. apply C73_none; assumption.
Qed.

(** The one of a CrossCat model is that of src/sample_crosscat.py without the columns. *)
Theorem C73_crosscat : forall X, crosscat X ->
  exists ast, convert_crosscat_to_ast (CProd X) = Ok ast /\ convert_cgpm_to_ast (CProd X) = Some (TList (map nameless_view ast)).
Proof. exact crosscat_ast. Qed.
Print Assumptions C73_crosscat.

Example C73_crosscat_case : crosscat demo_numbers /\
  convert_cgpm_to_ast (CProd demo_numbers) = Some (TList
    [TMix (TPrim "crp" [] [("alpha", half)])
      (TList [TPrim "categorical" [("k", qz 3)] [("alpha", half)]; TPrim "normal" [] [("m", 0%Qc); ("r", 1%Qc); ("s", half); ("nu", 1%Qc)]]);
     TMix (TPrim "crp" [] [("alpha", half)]) (TList [TPrim "categorical" [("k", qz 5)] [("alpha", half)]])])%string.
Proof. split; [exact demo_numbers_ok|vm_compute; reflexivity]. Qed.

(** With the columns of its views it determines a CrossCat model that has no data. *)
Theorem C73_determined : forall X X', (forall m, In m X \/ In m X' -> unused m) -> map outputs X = map outputs X' ->
  convert_cgpm_to_ast (CProd X) = convert_cgpm_to_ast (CProd X') -> X = X'.
Proof. exact models_determined. Qed.
Print Assumptions C73_determined.

Example C73_determined_case : (forall m, In m [numbers0; codes0] -> unused m) /\ map outputs [numbers0; codes0] = [[9; 1; 2]; [19; 3]].
Proof.
  split; [|vm_compute; reflexivity]. intros m [<-|[<-|[]]].
  - exists 9, half, [cat1; nrm2]. split; [reflexivity|]. intros d [<-|[<-|[]]].
    + split; [exact cat1_reachable|]. split; [reflexivity|]. split; discriminate.
    + split; [exists nrm2, []; split; [|reflexivity]; apply (fresh_nrm 2 0%Qc 1%Qc half 1%Qc); reflexivity|]. split; [reflexivity|]. split; discriminate.
  - exists 19, half, [cat3]. split; [reflexivity|]. intros d [<-|[]].
    split; [exists cat3, []; split; [|reflexivity]; apply fresh_cat; [lia|exact half_pos]|]. split; [reflexivity|]. split; discriminate.
Qed.
