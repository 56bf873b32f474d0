(** Worked composite models, used to show that hypotheses of the theorems are met, with
    boolean tests for the shapes and cells considered. *)
From Coq Require Import List ZArith QArith Qcanon Reals Bool String Permutation Lia Lra.
From Verif Require Import Base Xr Samp Lgamma Prims Cgpm Lib SpecPrims PrimsInv PrimsDens PrimsThm2
  SpecComp CompInv CompDens CompThm PropPrims.
Import ListNotations.
Local Open Scope Z_scope.

(** ** Worked models *)

Definition state_of (m : samp (cgpm * out unit)) : cgpm :=
  match m with Ret (c, _) => c | _ => CProd [] end.

Definition is_ret {A} (m : samp A) : bool := match m with Ret _ => true | _ => false end.

Lemma step_reachable : forall c rid obs, creachable c -> is_ret (observe c rid obs []) = true ->
  creachable (state_of (observe c rid obs [])).
Proof.
  intros c rid obs RE E. destruct (observe c rid obs []) as [[c' r]| | | | |] eqn:O; try discriminate.
  apply (cr_observe c rid obs [] c' r RE). rewrite O. reflexivity.
Qed.

Definition flatb (c : cgpm) : bool :=
  match c with
  | CDist _ => true
  | CProd cs => forallb (fun c' => match c' with CDist _ => true | _ => false end) cs
  | _ => false
  end.
Definition viewb (c : cgpm) : bool :=
  match c with CMix _ _ arr _ => forallb flatb (components arr) | _ => false end.

Lemma flatb_ok : forall c, flatb c = true -> flat c.
Proof.
  intros [d|cs| | |]; cbn; try discriminate; intros H; [constructor|].
  assert (E : cs = map CDist (leaves (CProd cs))).
  { cbn. induction cs as [|c cs IH]; [reflexivity|]. cbn in H. apply andb_true_iff in H. destruct H as [H1 H2].
    destruct c; try discriminate. cbn. f_equal. auto. }
  rewrite E. constructor.
Qed.

Lemma viewb_ok : forall c, viewb c = true -> view c.
Proof.
  intros [| | | |flex div arr r2c]; cbn; try discriminate. intros H. exists flex, div, arr, r2c.
  split; [reflexivity|]. intros c Hc. rewrite forallb_forall in H. apply flatb_ok. auto.
Qed.

Definition cellb (d : dist) (x : val) : bool :=
  match x, kind_of d with
  | VQ q, KCategory k => is_int q && (0 <=? trunc q) && (trunc q <? k)
  | VQ q, KBit => is_int q && (0 <=? trunc q) && (trunc q <? 2)
  | VQ q, KCount => is_int q && (0 <=? trunc q)
  | _, KReal _ => true
  | VNan, KCategory _ => true
  | _, _ => false
  end.
Fixpoint plausibleb (c : cgpm) (S : row) : bool :=
  match c with
  | CDist d => match lookup (dist_o d) S with Some x => cellb d x | None => true end
  | CProd cs => forallb (fun c' => plausibleb c' S) cs
  | CFinArr _ cs _ => forallb (fun c' => plausibleb c' S) cs
  | CFlexArr _ base cs _ => plausibleb base S && forallb (fun p => let '(_, c') := p in plausibleb c' S) cs
  | CMix _ div arr _ =>
      match lookup (dist_o div) S with
      | Some x => match dist_support div with Ok K => memb x (map vz K) | Err _ => false end
      | None => true
      end && plausibleb arr S
  end.

Lemma is_int_val : forall q, is_int q = true -> q = qz (trunc q).
Proof. intros q. apply is_int_spec. Qed.

Lemma plausibleb_ok : forall c S, plausibleb c S = true -> plausible c S.
Proof.
  intros c S. induction c as [d|cs IH|ix cs m IH|ix b cs m IHb IH|flex div arr m IH] using cgpm_ind_In;
    cbn [plausibleb plausible].
  - destruct (lookup (dist_o d) S) as [x|] eqn:L; [|discriminate]. intros H y [= <-].
    destruct x as [|q]; destruct d; cbn in *; try discriminate; auto;
      rewrite ?andb_true_iff in H.
    + exists (trunc q). split; [apply is_int_val; tauto|]. rewrite Z.leb_le, Z.ltb_lt in H. tauto.
    + rewrite Z.leb_le, Z.ltb_lt in H. destruct H as [[H1 H2] H3]. rewrite (is_int_val q H1).
      assert (trunc q = 0 \/ trunc q = 1) as [->| ->] by lia; auto.
    + exists (trunc q). split; [apply is_int_val; tauto|]. rewrite Z.leb_le in H. tauto.
  - rewrite forallb_forall, each_In. auto.
  - rewrite forallb_forall, each_In. auto.
  - rewrite andb_true_iff, forallb_forall, each_In. intros [Hb H]. split; auto.
    intros [k c] Hk. eapply IH; eauto. apply (H (k, c) Hk).
  - rewrite andb_true_iff. intros [H1 H2]. split; auto. intros x Hx. rewrite Hx in H1.
    destruct (dist_support div) as [K|]; [|discriminate]. apply memb_In in H1. apply in_map_iff in H1.
    destruct H1 as (z & <- & Hz). eauto.
Qed.

Definition cat1 : dist := DCat (cat_new 1 3 half).
Definition ber2 : dist := DBer (ber_new 2 1%Qc half).
Definition crp9 : dist := DCrp (crp_new 9 half).

(** A view with a Categorical and a Bernoulli column and three rows in two clusters. *)
Definition demo_base : cgpm := CProd [CDist cat1; CDist ber2].
Definition demo_view1 : cgpm := state_of (observe (new_flexmix crp9 demo_base) 0 [(9, vz 0); (1, vz 2); (2, vz 1)] []).
Definition demo_view2 : cgpm := state_of (observe demo_view1 1 [(9, vz 0); (1, vz 0)] []).
Definition demo_view : cgpm := state_of (observe demo_view2 2 [(9, vz 1); (1, vz 2); (2, vz 0)] []).

Lemma cat1_reachable : reachable cat1.
Proof. exists cat1, []. split; [|reflexivity]. apply fresh_cat; [lia|exact half_pos]. Qed.
Lemma ber2_reachable : reachable ber2.
Proof. exists ber2, []. split; [|reflexivity]. apply fresh_ber; [exact one_pos|exact half_pos]. Qed.
Lemma crp9_reachable : reachable crp9.
Proof. exists crp9, []. split; [|reflexivity]. apply fresh_crp. exact half_pos. Qed.

Lemma base_reachable : creachable demo_base.
Proof.
  apply (cr_product [CDist cat1; CDist ber2]); [|reflexivity].
  intros c [<-|[<-|[]]]; constructor; [exact cat1_reachable|exact ber2_reachable].
Qed.

Example demo_view_reachable : creachable demo_view /\ view demo_view.
Proof.
  split; [|apply viewb_ok; vm_compute; reflexivity].
  unfold demo_view, demo_view2, demo_view1.
  repeat (apply step_reachable; [|vm_compute; reflexivity]).
  apply (cr_flexible crp9 demo_base [0]); [exact crp9_reachable|vm_compute; reflexivity|exact base_reachable|].
  cbn. intuition lia.
Qed.

(** A finite mixture: a Bernoulli cluster variable and two Products. *)
Definition ber8 : dist := DBer (ber_new 8 1%Qc half).
Definition cat1' : dist := DCat (cat_new 1 2 half).
Definition demo_finite : cgpm :=
  CMix false ber8 (CFinArr 8 [CProd [CDist cat1; CDist ber2]; CProd [CDist cat1'; CDist ber2]] []) [].

Lemma ber8_reachable : reachable ber8.
Proof. exists ber8, []. split; [|reflexivity]. apply fresh_ber; [exact one_pos|exact half_pos]. Qed.
Lemma cat1'_reachable : reachable cat1'.
Proof. exists cat1', []. split; [|reflexivity]. apply fresh_cat; [lia|exact half_pos]. Qed.
Lemma base'_reachable : creachable (CProd [CDist cat1'; CDist ber2]).
Proof.
  apply (cr_product [CDist cat1'; CDist ber2]); [|reflexivity].
  intros c [<-|[<-|[]]]; constructor; [exact cat1'_reachable|exact ber2_reachable].
Qed.

Example demo_finite_reachable : creachable demo_finite /\ view demo_finite.
Proof.
  split; [|apply viewb_ok; reflexivity].
  apply (cr_finite ber8 [CProd [CDist cat1; CDist ber2]; CProd [CDist cat1'; CDist ber2]]).
  - exact ber8_reachable.
  - discriminate.
  - intros c [<-|[<-|[]]]; [exact base_reachable|exact base'_reachable].
  - intros c [<-|[<-|[]]]; (split; [reflexivity|cbn; intuition lia]).
  - reflexivity.
Qed.

(** A state: a view and a Normal column. *)
Definition demo_state : cgpm := CProd [demo_view; CDist (DNrm (mkNrm 5 [] 0 0%Qc 0%Qc 0%Qc 1%Qc half 1%Qc))].

Example demo_state_reachable : creachable demo_state /\ state demo_state.
Proof.
  assert (RV := demo_view_reachable). split.
  - apply (cr_product [demo_view; CDist (DNrm (mkNrm 5 [] 0 0%Qc 0%Qc 0%Qc 1%Qc half 1%Qc))]).
    + intros c [<-|[<-|[]]]; [apply RV|]. constructor. exists (DNrm (mkNrm 5 [] 0 0%Qc 0%Qc 0%Qc 1%Qc half 1%Qc)), [].
      split; [|reflexivity]. apply (fresh_nrm 5 0%Qc 1%Qc half 1%Qc). reflexivity.
    + destruct RV as [_ (flex & div & arr & r2c & E & _)].
      rewrite new_product_ok; [unfold demo_state; rewrite E; reflexivity| |].
      * replace (flat_map outputs _) with [9; 1; 2; 5] by (vm_compute; reflexivity).
        repeat constructor; cbn; intuition lia.
      * intros i Hi. exfalso. replace (flat_map inputs _) with (@nil Z) in Hi by (vm_compute; reflexivity). exact Hi.
  - exists [demo_view; CDist (DNrm (mkNrm 5 [] 0 0%Qc 0%Qc 0%Qc 1%Qc half 1%Qc))]. split; [reflexivity|].
    intros c [<-|[<-|[]]]; [left; apply RV|right; eauto].
Qed.

(** A mixture of mixtures. *)
Definition ber7 : dist := DBer (ber_new 7 1%Qc half).
Definition inner (k : dist) : cgpm :=
  CMix false ber8 (CFinArr 8 [CProd [CDist k; CDist ber2]; CProd [CDist k; CDist ber2]] []) [].
Definition demo_nested : cgpm := CMix false ber7 (CFinArr 7 [inner cat1; inner cat1'] []) [].

Lemma inner_reachable : forall k, reachable k -> dist_o k = 1 -> creachable (inner k).
Proof.
  intros k RK O. apply (cr_finite ber8 [CProd [CDist k; CDist ber2]; CProd [CDist k; CDist ber2]]).
  - exact ber8_reachable.
  - discriminate.
  - assert (X : creachable (CProd [CDist k; CDist ber2])).
    { apply (cr_product [CDist k; CDist ber2]).
      - intros c [<-|[<-|[]]]; constructor; [exact RK|exact ber2_reachable].
      - rewrite new_product_ok; [reflexivity| |].
        + cbn. rewrite O. repeat constructor; cbn; intuition lia.
        + cbn. tauto. }
    intros c [<-|[<-|[]]]; exact X.
  - intros c [<-|[<-|[]]]; (split; [reflexivity|cbn; rewrite O; intuition lia]).
  - reflexivity.
Qed.

Example demo_nested_reachable : creachable demo_nested.
Proof.
  apply (cr_finite ber7 [inner cat1; inner cat1']).
  - exists ber7, []. split; [|reflexivity]. apply fresh_ber; [exact one_pos|exact half_pos].
  - discriminate.
  - intros c [<-|[<-|[]]]; apply inner_reachable; auto using cat1_reachable, cat1'_reachable.
  - intros c [<-|[<-|[]]]; (split; [reflexivity|cbn; intuition lia]).
  - reflexivity.
Qed.
