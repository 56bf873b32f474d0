(** C50: estimates of mutual information and entropy. *)
From Coq Require Import List ZArith QArith Qcanon Reals Bool String Permutation Lia Lra.
From Verif Require Import Base Xr Samp Lgamma Prims Cgpm Lib SpecPrims PrimsInv SpecComp CompInv CompDens CompThm SpecSim DemoComp SpecWalks WalksThm
  SpecTable SpecHist PropTable Views ViewsThm SpecViews PropViews ViewsThm2 Ensemble SpecEnsemble PropEnsemble Entropy SpecEntropy EntropyThm.
Import ListNotations.
Local Open Scope Z_scope.

(** ** C50 *)

(** Targets in different children of a product: whatever the random generator does and
    however many samples are asked for, the estimate is exactly 0 with variance 0. *)
Theorem C50_independent : forall cs t0 t1 C M T N, grown (CProd cs) ->
  askable (CProd cs) (t0 ++ t1) (given_cells C) -> apart cs t0 t1 -> M = None \/ M = Some [] ->
  always (mutual_information (CProd cs) t0 t1 C M T N) (fun r => r = Ok (mkEstimate (Fin 0) (Fin 0))).
Proof. intros cs t0 t1 C M T N RE. apply independent_mi. apply grown_wf. exact RE. Qed.
Print Assumptions C50_independent.

(** From the same samples the estimate is the same with the two groups of targets swapped,
    for any model, whether or not the groups are independent. *)
Theorem C50_symmetric : forall c t0 t1 C samples v,
  mi_of c t0 t1 C samples = Ok v <-> mi_of c t1 t0 C samples = Ok v.
Proof. intros. split; apply symmetric_mi. Qed.
Print Assumptions C50_symmetric.

(** With the same group twice the estimate is one of the entropy: always finite, with a
    variance that is not negative; for discrete columns it is not negative either. *)
Theorem C50_entropy : forall c t0 t1 C M T N, grown c -> askable c t0 (given_cells C) ->
  (forall k, In k t0 <-> In k t1) -> M = None \/ M = Some [] ->
  always (mutual_information c t0 t1 C M T N) (fun r =>
    exists h v, r = Ok (mkEstimate (Fin h) (Fin v)) /\ (0 <= v)%R /\ (discrete c t0 -> (0 <= h)%R)).
Proof. intros c t0 t1 C M T N RE. apply entropy_estimate. apply grown_wf. exact RE. Qed.
Print Assumptions C50_entropy.

(** A query with an unknown column or with groups of columns that meet is refused, before
    anything is simulated. *)
Theorem C50_validation : forall c t0 t1 C M T N,
  let ms := match M with Some M => M | None => [] end in
  let cs := keys (given_cells C) in
  (exists k, In k (t0 ++ t1 ++ cs ++ ms) /\ ~ In k (outputs c)) \/
  (exists k, In k (t0 ++ t1) /\ In k cs) \/ (exists k, In k (t0 ++ t1) /\ In k ms) \/ (exists k, In k cs /\ In k ms) \/
  ((exists k, In k t0 /\ In k t1) /\ ~ (forall k, In k t0 <-> In k t1)) ->
  mutual_information c t0 t1 C M T N = Ret (Err ValueError).
Proof.
  intros c t0 t1 C M T N ms cs H. apply invalid_query. fold ms cs. intros (H1 & H2 & H3 & H4 & H5).
  destruct H as [(k & A & B)|[(k & A & B)|[(k & A & B)|[(k & A & B)|((k & A & B) & D)]]]]; [auto|eapply H2; eauto|eapply H3; eauto|eapply H4; eauto|].
  destruct H5 as [H5|H5]; [auto|eapply H5; eauto].
Qed.
Print Assumptions C50_validation.

(** With columns to marginalise mutual_information never returns: it raises for every
    model, query and random outcome. *)
Theorem C50_marginalize_refuted : forall c t0 t1 C m M T N,
  always (mutual_information c t0 t1 C (Some (m :: M)) T N) (fun r => exists e, r = Err e).
Proof. exact marginalize_raises. Qed.
Print Assumptions C50_marginalize_refuted.

(** In an ensemble whose chains all keep the two groups apart every chain's estimate is 0,
    in worker processes or not, and the ensemble stays as it was. *)
Theorem C50_ensemble : forall e t0 t1 C M T N mp, whole e ->
  (forall c, In c (cgpms e) -> exists cs, c = CProd cs /\ grown c /\ askable c (t0 ++ t1) (given_cells C) /\ apart cs t0 t1) ->
  M = None \/ M = Some [] ->
  always (ens_mutual_information e t0 t1 C M T N mp) (fun r => r = (e, Ok (repeat (mkEstimate (Fin 0) (Fin 0)) (chains e)))).
Proof.
  intros e t0 t1 C M T N mp W H HM. unfold ens_mutual_information. apply evaluate_all; [exact W|].
  intros n c Hc. destruct (H c Hc) as (cs & -> & RE & Q & A). apply always_bind.
  generalize (C50_independent cs t0 t1 C M T N RE Q A HM). apply always_imp. intros r ->. reflexivity.
Qed.
Print Assumptions C50_ensemble.

(** A table with columns 1 and 2 in one view and 3 in another; column 2 is constrained. *)
Lemma demo_askable : askable (CProd demo_crosscat) ([1] ++ [3]) (given_cells (Some [(2, vz 1)])).
Proof.
  assert (RE := crosscat_grown _ demo_crosscat_ok).
  assert (G : (0 < dens (CProd demo_crosscat) [(2%Z, vz 1)])%R /\ solid (CProd demo_crosscat) [(2, vz 1)] /\ labelled (CProd demo_crosscat) [(2, vz 1)]).
  { apply plausible_good; [exact (grown_wf _ RE)|]. apply plausibleb_ok. vm_compute. reflexivity. }
  assert (EO : outputs (CProd demo_crosscat) = [9; 1; 2; 19; 3]) by (vm_compute; reflexivity).
  assert (EN : nested (CProd demo_crosscat) = []) by (vm_compute; reflexivity).
  unfold askable. rewrite EO, EN. cbn [given_cells keys map fst app].
  split; [discriminate|]. split; [repeat constructor; cbn; intuition lia|]. split; [cbn; intuition lia|].
  split; [repeat constructor; cbn; intuition lia|]. split; [cbn; intuition lia|]. tauto.
Qed.

Lemma demo_apart : apart demo_crosscat [1] [3].
Proof.
  intros c Hc a b [<-|[]] [<-|[]]. destruct Hc as [<-|[<-|[]]].
  - replace (outputs left2) with [9; 1; 2] by (vm_compute; reflexivity). cbn. intuition lia.
  - replace (outputs right2) with [19; 3] by (vm_compute; reflexivity). cbn. intuition lia.
Qed.

Example C50_independent_case : grown (CProd demo_crosscat) /\ askable (CProd demo_crosscat) ([1] ++ [3]) [(2, vz 1)] /\
  apart demo_crosscat [1] [3] /\
  always (mutual_information (CProd demo_crosscat) [1] [3] (Some [(2, vz 1)]) None None (Some 5%nat))
    (fun r => r = Ok (mkEstimate (Fin 0) (Fin 0))).
Proof.
  assert (RE := crosscat_grown _ demo_crosscat_ok). split; [exact RE|]. split; [exact demo_askable|]. split; [exact demo_apart|].
  exact (C50_independent demo_crosscat [1] [3] (Some [(2, vz 1)]) None None (Some 5%nat) RE demo_askable demo_apart (or_introl eq_refl)).
Qed.

Example C50_ensemble_case : whole demo_ensemble /\
  (forall c, In c (cgpms demo_ensemble) -> exists cs, c = CProd cs /\ grown c /\ askable c ([1] ++ [3]) [(2, vz 1)] /\ apart cs [1] [3]).
Proof.
  split; [reflexivity|]. intros c Hc. exists demo_crosscat.
  assert (E : c = CProd demo_crosscat) by (destruct Hc as [<-|[<-|[]]]; reflexivity). rewrite E.
  split; [reflexivity|]. split; [exact (crosscat_grown _ demo_crosscat_ok)|]. split; [exact demo_askable|exact demo_apart].
Qed.

Example C50_entropy_case : askable (CProd demo_crosscat) [1; 3] [(2, vz 1)] /\ discrete (CProd demo_crosscat) [1; 3] /\
  (forall k, In k [1; 3] <-> In k [3; 1]).
Proof.
  split; [exact demo_askable|]. split; [|cbn; intuition lia].
  vm_compute. repeat split; intros; eexists; reflexivity.
Qed.

Example C50_validation_case :
  mutual_information (CProd demo_crosscat) [1] [3] (Some [(1, vz 0)]) None None None = Ret (Err ValueError) /\
  mutual_information (CProd demo_crosscat) [1; 2] [2; 3] None None None None = Ret (Err ValueError) /\
  mutual_information (CProd demo_crosscat) [1] [7] None None None None = Ret (Err ValueError).
Proof.
  split; [|split]; apply C50_validation.
  - right. left. exists 1. cbn. auto.
  - right. right. right. right. split; [exists 2; cbn; auto|]. intros H. destruct (proj1 (H 1) (or_introl eq_refl)) as [E|[E|[]]]; discriminate.
  - left. exists 7. split; [cbn; auto|]. replace (outputs (CProd demo_crosscat)) with [9; 1; 2; 19; 3] by (vm_compute; reflexivity).
    cbn. intuition lia.
Qed.

(** Two samples of a mixture, whose columns depend on each other: the estimate is the same
    either way round. *)
Example C50_symmetric_case : exists v, mi_of (CProd demo_crosscat) [1] [2] [] [[(1, vz 0); (2, vz 1)]; [(1, vz 2); (2, vz 0)]] = Ok v /\
  mi_of (CProd demo_crosscat) [2] [1] [] [[(1, vz 0); (2, vz 1)]; [(1, vz 2); (2, vz 0)]] = Ok v /\ List.length v = 2%nat.
Proof.
  assert (X : match mi_of (CProd demo_crosscat) [1] [2] [] [[(1, vz 0); (2, vz 1)]; [(1, vz 2); (2, vz 0)]] with
              | Ok v => List.length v | Err _ => 0%nat end = 2%nat) by (vm_compute; reflexivity).
  destruct (mi_of (CProd demo_crosscat) [1] [2] [] [[(1, vz 0); (2, vz 1)]; [(1, vz 2); (2, vz 0)]]) as [v|] eqn:E; [|discriminate].
  exists v. split; [reflexivity|]. split; [|exact X]. apply C50_symmetric. exact E.
Qed.
