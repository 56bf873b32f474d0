(** C39, C40: moving columns between the views of a CrossCat model. *)
From Coq Require Import List ZArith QArith Qcanon Reals Bool String Permutation Lia.
From Verif Require Import Base Xr Samp Lgamma Prims Cgpm Lib SpecPrims PrimsInv SpecComp CompInv CompDens CompThm PropPrims DemoComp
  SpecTable SpecHist Table PropTable Walks SpecWalks WalksThm Trans Views ViewsThm ViewsThm2 ViewsThm3 ViewsThm4 ViewsThm5.
From Verif Require Import SpecViews.
Import ListNotations.
Local Open Scope Z_scope.

(** ** Worked CrossCat models *)

(** A new view with one Bernoulli column. *)
Definition bit_view (label o : Z) : cgpm := new_flexmix (DCrp (crp_new label half)) (CProd [CDist (DBer (ber_new o 1%Qc half))]).

Lemma bit_view_new : forall label o, label <> o -> new_view (bit_view label o).
Proof.
  intros label o N. exists (crp_new label half), [DBer (ber_new o 1%Qc half)].
  split; [reflexivity|]. split; [|split; [reflexivity|split; [discriminate|]]].
  - apply (cr_flexible (DCrp (crp_new label half)) _ [0]).
    + exists (DCrp (crp_new label half)), []. split; [|reflexivity]. apply fresh_crp. exact half_pos.
    + reflexivity.
    + apply (cr_product [CDist (DBer (ber_new o 1%Qc half))]); [|reflexivity]. intros c [<-|[]]. constructor.
      exists (DBer (ber_new o 1%Qc half)), []. split; [|reflexivity]. apply fresh_ber; [exact one_pos|exact half_pos].
    + cbn. intros [E|[]]. congruence.
  - intros d [<-|[]]; split; (discriminate || reflexivity).
Qed.

Lemma history_view : forall m0 es m, new_view m0 -> history m0 es m -> grown m /\ sheet m /\ consistent m.
Proof. intros m0 es m N H. destruct (C26_consistent m0 es m N H) as (A & B & C). split; [apply creachable_grown; exact A|auto]. Qed.

Definition left1 : cgpm := state_of (observe demo_new 0 [(9, vz 0); (1, vz 2); (2, vz 1)] []).
Definition left2 : cgpm := state_of (observe left1 1 [(9, vz 1); (1, vz 0); (2, vz 1)] []).
Definition right1 : cgpm := state_of (observe (bit_view 19 3) 0 [(19, vz 0); (3, vz 1)] []).
Definition right2 : cgpm := state_of (observe right1 1 [(19, vz 0); (3, vz 0)] []).
Definition right3 : cgpm := state_of (observe right2 7 [(19, vz 1); (3, vz 0)] []).

Lemma left_good : grown left2 /\ sheet left2 /\ consistent left2.
Proof.
  assert (H : history demo_new [EObserve 0 [(9, vz 0); (1, vz 2); (2, vz 1)]; EObserve 1 [(9, vz 1); (1, vz 0); (2, vz 1)]] left2).
  { apply (h_step demo_new [EObserve 0 [(9, vz 0); (1, vz 2); (2, vz 1)]] left1); [apply (h_step demo_new [] demo_new); [constructor|]|];
      (apply observe_happens; [repeat constructor; cbn; intuition lia|intros y [= <-]; eexists; reflexivity|vm_compute; reflexivity]). }
  exact (history_view _ _ _ demo_new_view H).
Qed.

Lemma right_history : history (bit_view 19 3) [EObserve 0 [(19, vz 0); (3, vz 1)]; EObserve 1 [(19, vz 0); (3, vz 0)]] right2.
Proof.
  apply (h_step _ [EObserve 0 [(19, vz 0); (3, vz 1)]] right1); [apply (h_step _ [] (bit_view 19 3)); [constructor|]|];
    (apply observe_happens; [repeat constructor; cbn; intuition lia|intros y [= <-]; eexists; reflexivity|vm_compute; reflexivity]).
Qed.

Lemma right_good : grown right2 /\ sheet right2 /\ consistent right2.
Proof. exact (history_view _ _ _ (bit_view_new 19 3 ltac:(discriminate)) right_history). Qed.

Lemma right3_good : grown right3 /\ sheet right3 /\ consistent right3.
Proof.
  assert (H : history (bit_view 19 3) ([EObserve 0 [(19, vz 0); (3, vz 1)]; EObserve 1 [(19, vz 0); (3, vz 0)]] ++ [EObserve 7 [(19, vz 1); (3, vz 0)]]) right3).
  { apply (h_step _ _ right2); [exact right_history|].
    apply observe_happens; [repeat constructor; cbn; intuition lia|intros y [= <-]; eexists; reflexivity|vm_compute; reflexivity]. }
  exact (history_view _ _ _ (bit_view_new 19 3 ltac:(discriminate)) H).
Qed.

Definition demo_crosscat : list cgpm := [left2; right2].
Definition demo_ragged : list cgpm := [left2; right3].

Lemma demo_crosscat_ok : crosscat demo_crosscat.
Proof.
  split; [intros m [<-|[<-|[]]]; [exact left_good|exact right_good]|].
  replace (flat_map outputs demo_crosscat) with [9; 1; 2; 19; 3] by (vm_compute; reflexivity).
  repeat (constructor; [cbn; intuition lia|]). constructor.
Qed.

Lemma demo_ragged_ok : crosscat demo_ragged.
Proof.
  split; [intros m [<-|[<-|[]]]; [exact left_good|exact right3_good]|].
  replace (flat_map outputs demo_ragged) with [9; 1; 2; 19; 3] by (vm_compute; reflexivity).
  repeat (constructor; [cbn; intuition lia|]). constructor.
Qed.

Lemma demo_rows : forall r v x, holds demo_crosscat r v x -> r = 0 \/ r = 1.
Proof.
  intros r v x (m & [<-|[<-|[]]] & E); apply cell_seat in E.
  - destruct (Z.eq_dec r 0) as [->|N0]; [auto|]. destruct (Z.eq_dec r 1) as [->|N1]; [auto|]. exfalso. apply E.
    assert (X : match left2 with CMix _ _ _ r2c => r2c | _ => [] end = [(0, vz 0); (1, vz 1)]) by (vm_compute; reflexivity).
    destruct left2 as [| | | |f d a r2c]; try reflexivity. cbn [seat]. cbn in X. subst r2c.
    rewrite !lookup_cons_neq by congruence. reflexivity.
  - destruct (Z.eq_dec r 0) as [->|N0]; [auto|]. destruct (Z.eq_dec r 1) as [->|N1]; [auto|]. exfalso. apply E.
    assert (X : match right2 with CMix _ _ _ r2c => r2c | _ => [] end = [(0, vz 0); (1, vz 0)]) by (vm_compute; reflexivity).
    destruct right2 as [| | | |f d a r2c]; try reflexivity. cbn [seat]. cbn in X. subst r2c.
    rewrite !lookup_cons_neq by congruence. reflexivity.
Qed.

Lemma demo_complete : complete demo_crosscat.
Proof.
  intros r v x w Hx Hw. replace (flat_map columns_of demo_crosscat) with [1; 2; 3] in Hw by (vm_compute; reflexivity).
  apply demo_rows in Hx. destruct Hx as [->| ->], Hw as [<-|[<-|[<-|[]]]];
    eexists; first [exists left2; split; [now left|vm_compute; reflexivity]|exists right2; split; [right; now left|vm_compute; reflexivity]].
Qed.

(** ** C25, C26 after a column has been added *)

(** The view with rows 0 and 1 of [right2] after adding a Categorical column: it meets the
    hypotheses of [C25_continues] and [C26_stays]. *)
Example C26_stays_case : exists p, add_cgpm right2 (CDist cat1') = Ok p /\ grown p /\ sheet p /\ consistent p /\
  columns_of p = [3; dist_o cat1'] /\ seat p 1 = Some (vz 0).
Proof.
  destruct (add_one right2 cat1') as (p & E & G & _ & _ & C & SE & _).
  - exact right_good.
  - exact cat1'_reachable.
  - reflexivity.
  - discriminate.
  - vm_compute. intuition discriminate.
  - exists p. split; [exact E|]. destruct G as (A & B & D). do 3 (split; [assumption|]).
    split; [rewrite C; vm_compute; reflexivity|]. rewrite SE. vm_compute. reflexivity.
Qed.

(** ** C39 *)

(** Every outcome of a column transition that returns: the same columns with the same types
    and the same cells, only the given columns moved, the views well kept and none of them
    empty. Whatever the outcome, the model passed in is as it was. *)
Theorem C39_transition : forall X outs m aux, crosscat X -> outs <> [] -> NoDup outs -> In m X ->
  (forall o, In o outs -> In o (columns_of m)) -> aligned outs X -> (List.length X <= 257)%nat ->
  always (transition_cgpm_view_assigments (CProd X) outs aux) (fun p => fst p = CProd X /\
    forall c, snd p = Ok c -> exists X', c = CProd X' /\ reassigned outs X X').
Proof.
  intros X outs m aux C NE ND Hm H AL LX. destruct (in_split _ _ Hm) as (l & r & ->). rewrite app_length in LX. cbn [List.length] in LX.
  assert (T := transition_main (fun _ => True) outs l m r aux C NE ND H AL ltac:(lia)). apply always_given.
  revert T. apply given_imp. intros p (A1 & A2 & _). split; [exact A1|]. intros c Ec. destruct (A2 c Ec) as (X' & B1 & B2 & _). eauto.
Qed.
Print Assumptions C39_transition.

(** It does return, unless the name drawn for a new view is that of an existing output. *)
Theorem C39_transition_returns : forall X outs m aux, crosscat X -> outs <> [] -> NoDup outs -> In m X ->
  (forall o, In o outs -> In o (columns_of m)) -> aligned outs X -> (List.length X <= 257)%nat ->
  given (fun z => ~ In z (flat_map outputs X)) (transition_cgpm_view_assigments (CProd X) outs aux) (fun p =>
    exists X', p = (CProd X, Ok (CProd X')) /\ reassigned outs X X').
Proof.
  intros X outs m aux C NE ND Hm H AL LX. destruct (in_split _ _ Hm) as (l & r & ->). rewrite app_length in LX. cbn [List.length] in LX.
  assert (T := transition_main (fun z => ~ In z (flat_map outputs (l ++ m :: r))) outs l m r aux C NE ND H AL ltac:(lia)).
  revert T. apply given_imp. intros [c res] (E1 & E2 & E3). cbn [fst snd] in *. destruct E3 as [c' ->]; [auto|].
  destruct (E2 c' eq_refl) as (X' & -> & RG & _). subst c. exists X'. auto.
Qed.
Print Assumptions C39_transition_returns.

Lemma demo_aligned : forall outs, aligned outs demo_crosscat.
Proof. intros outs. apply complete_aligned; [exact demo_crosscat_ok|exact demo_complete]. Qed.

Example C39_transition_case : crosscat demo_crosscat /\ In left2 demo_crosscat /\ columns_of left2 = [1; 2] /\
  aligned [2] demo_crosscat /\ (List.length demo_crosscat <= 257)%nat.
Proof.
  split; [exact demo_crosscat_ok|]. split; [now left|]. split; [vm_compute; reflexivity|]. split; [exact (demo_aligned [2])|]. cbn. lia.
Qed.

(** Moving a column by hand to the view of another column. *)
Theorem C39_assign : forall X o0 o1 m w, crosscat X -> In m X -> In o0 (columns_of m) -> In w X -> In o1 (columns_of w) ->
  (forall r x, cell m r o0 = Some x -> seat w r <> None) ->
  exists X', set_cgpm_view_assignment (CProd X) o0 (Some o1) = Ret (CProd X, Ok (CProd X')) /\ reassigned [o0] X X' /\ together X' o0 o1.
Proof.
  intros X o0 o1 m w C Hm H0 Hw H1 AL. destruct (set_existing_main X o0 o1 m w C Hm H0 Hw H1 AL) as (X' & A1 & A2 & A3 & _). eauto.
Qed.
Print Assumptions C39_assign.

Example C39_assign_case : crosscat demo_crosscat /\ In left2 demo_crosscat /\ In 2 (columns_of left2) /\
  In right2 demo_crosscat /\ In 3 (columns_of right2) /\ (forall r x, cell left2 r 2 = Some x -> seat right2 r <> None) /\
  ~ together demo_crosscat 2 3 /\
  exists X', set_cgpm_view_assignment (CProd demo_crosscat) 2 (Some 3) = Ret (CProd demo_crosscat, Ok (CProd X')) /\
    map outputs X' = [[9; 1]; [19; 3; 2]].
Proof.
  split; [exact demo_crosscat_ok|]. split; [now left|]. split; [replace (columns_of left2) with [1; 2] by (vm_compute; reflexivity); right; now left|].
  split; [right; now left|]. split; [replace (columns_of right2) with [3] by (vm_compute; reflexivity); now left|]. split.
  { intros r x E. apply (demo_aligned [2] r 2 x); [now left|exists left2; split; [now left|exact E]|right; now left]. }
  split.
  - intros (m & [<-|[<-|[]]] & H1 & H2).
    + replace (columns_of left2) with [1; 2] in H2 by (vm_compute; reflexivity). cbn in H2. intuition lia.
    + replace (columns_of right2) with [3] in H1 by (vm_compute; reflexivity). cbn in H1. intuition lia.
  - eexists. split; [vm_compute; reflexivity|]. vm_compute. reflexivity.
Qed.

(** Moving a column by hand to a view of its own. *)
Theorem C39_assign_alone : forall X o0 m, crosscat X -> In m X -> In o0 (columns_of m) ->
  always (set_cgpm_view_assignment (CProd X) o0 None) (fun p => fst p = CProd X /\
    forall c, snd p = Ok c -> exists X', c = CProd X' /\ reassigned [o0] X X' /\ forall v, together X' o0 v -> v = o0) /\
  given (fun z => ~ In z (flat_map outputs X)) (set_cgpm_view_assignment (CProd X) o0 None) (fun p =>
    exists X', p = (CProd X, Ok (CProd X')) /\ reassigned [o0] X X' /\ forall v, together X' o0 v -> v = o0).
Proof.
  intros X o0 m C Hm H0. split.
  - apply always_given. assert (T := set_singleton_main (fun _ => True) X o0 m C Hm H0). revert T. apply given_imp.
    intros p (A1 & A2 & _). split; [exact A1|]. intros c Ec. destruct (A2 c Ec) as (X' & B1 & B2 & B3 & _). eauto.
  - assert (T := set_singleton_main (fun z => ~ In z (flat_map outputs X)) X o0 m C Hm H0). revert T. apply given_imp.
    intros [c res] (E1 & E2 & E3). cbn [fst snd] in *. destruct E3 as [c' ->]; [auto|].
    destruct (E2 c' eq_refl) as (X' & -> & RG & RS & _). subst c. exists X'. auto.
Qed.
Print Assumptions C39_assign_alone.

Example C39_assign_alone_case : crosscat demo_crosscat /\ In left2 demo_crosscat /\ In 2 (columns_of left2).
Proof.
  split; [exact demo_crosscat_ok|]. split; [now left|]. replace (columns_of left2) with [1; 2] by (vm_compute; reflexivity). right; now left.
Qed.

(** A whole pass over the columns, whether or not it raises on the way: the model has the
    same table at the end, and the columns not asked for are grouped as they were. *)
Theorem C39_sweep : forall X outs, crosscat X -> complete X -> (List.length (flat_map columns_of X) <= 257)%nat ->
  (forall o, In o outs -> In o (flat_map columns_of X)) -> outs <> [] ->
  always (transition_view_assignments false (CProd X) (Some outs)) (fun p => exists X', fst p = CProd X' /\ regrouped outs X X') /\
  always (transition_view_assignments false (CProd X) None) (fun p => exists X', fst p = CProd X' /\ regrouped (flat_map columns_of X) X X').
Proof.
  intros X outs C CX LX H NE. unfold transition_view_assignments. split.
  - destruct outs as [|o outs]; [congruence|]. apply reassign_each_ok; auto. lia.
  - rewrite distribution_outputs by exact C. apply reassign_each_ok; auto. lia.
Qed.
Print Assumptions C39_sweep.

Example C39_sweep_case : crosscat demo_crosscat /\ complete demo_crosscat /\ flat_map columns_of demo_crosscat = [1; 2; 3].
Proof. split; [exact demo_crosscat_ok|]. split; [exact demo_complete|]. vm_compute. reflexivity. Qed.

(** With the column in a view of index above 256, [i is not view_current] holds for that view
    too, and the transition raises. *)
Definition many_views : list cgpm := map (fun i => bit_view (1000 + Z.of_nat i) (Z.of_nat i)) (seq 0 258).

Fixpoint distinctb (l : list Z) : bool :=
  match l with [] => true | x :: l' => negb (existsb (Z.eqb x) l') && distinctb l' end.
Lemma distinctb_ok : forall l, distinctb l = true -> NoDup l.
Proof.
  induction l as [|x l IH]; [constructor|]. cbn [distinctb]. rewrite andb_true_iff, negb_true_iff. intros [H1 H2]. constructor; [|auto].
  intros Y. assert (existsb (Z.eqb x) l = true) by (apply existsb_exists; exists x; split; [exact Y|apply Z.eqb_refl]). congruence.
Qed.

Lemma many_views_ok : crosscat many_views /\ complete many_views.
Proof.
  split; [split|].
  - intros m Hm. unfold many_views in Hm. apply in_map_iff in Hm. destruct Hm as (i & <- & _).
    apply (history_view (bit_view (1000 + Z.of_nat i) (Z.of_nat i)) []); [apply bit_view_new; lia|constructor].
  - apply distinctb_ok. vm_compute. reflexivity.
  - intros r v x w (m & Hm & E) _. exfalso. unfold many_views in Hm. apply in_map_iff in Hm. destruct Hm as (i & <- & _). discriminate.
Qed.

Theorem C39_many_views_refuted : exists X o m, crosscat X /\ complete X /\ In m X /\ In o (columns_of m) /\
  transition_cgpm_view_assigments (CProd X) [o] 1 = Ret (CProd X, Err AssertionError).
Proof.
  exists many_views, 257, (bit_view 1257 257). destruct many_views_ok as [A B]. split; [exact A|]. split; [exact B|].
  split; [unfold many_views; apply in_map_iff; exists 257%nat; split; [reflexivity|apply in_seq; lia]|].
  split; [now left|]. vm_compute. reflexivity.
Qed.
Print Assumptions C39_many_views_refuted.

(** The name of a new view is drawn without regard to the names there are; if it is taken,
    the move raises. *)
Theorem C39_label_taken_refuted : exists X o m, crosscat X /\ complete X /\ In m X /\ In o (columns_of m) /\
  possible (set_cgpm_view_assignment (CProd X) o None) (fun p => snd p = Err AssertionError).
Proof.
  exists [bit_view 9 1; bit_view 19 3], 3, (bit_view 19 3). split; [split|].
  - intros m [<-|[<-|[]]]; [apply (history_view (bit_view 9 1) [])|apply (history_view (bit_view 19 3) [])];
      solve [apply bit_view_new; discriminate|constructor].
  - apply distinctb_ok. reflexivity.
  - split; [intros r v x w (m & [<-|[<-|[]]] & E); discriminate|]. split; [right; now left|]. split; [now left|].
    assert (X : match set_cgpm_view_assignment (CProd [bit_view 9 1; bit_view 19 3]) 3 None with
                | DrawInt lo hi k => lo = 0 /\ 9 < hi /\ k 9 = Ret (CProd [bit_view 9 1; bit_view 19 3], Err AssertionError) | _ => False end).
    { vm_compute. auto. }
    destruct (set_cgpm_view_assignment _ 3 None) as [ | | | |lo hi k| ]; try contradiction. destruct X as (-> & X2 & X3).
    cbn [possible]. exists 9. split; [lia|]. rewrite X3. reflexivity.
Qed.
Print Assumptions C39_label_taken_refuted.

(** ** C40 *)

(** The columns [outs] of view [m] proposed to another view [v] that knows their rows: the
    view is as it was. *)
Theorem C40_no_trace : forall X outs m v D L, crosscat X -> NoDup outs -> In m X -> (forall o, In o outs -> In o (columns_of m)) ->
  In v X -> v <> m -> (forall r o x, In o outs -> cell m r o = Some x -> seat v r <> None) ->
  oseq (map (get_cgpm_base (CProd X)) outs) = Ok D -> oseq (map (get_dataset (CProd X)) outs) = Ok L ->
  exists q, proposal_existing_one v D L = Ret (v, Ok q).
Proof.
  intros X outs m v D L C ND Hm H Hv NV AL ED EL. destruct (in_split _ _ Hm) as (l & r & EX). rewrite EX in *.
  assert (Gm := crosscat_views _ m C Hm). assert (Gv := crosscat_views _ v C Hv).
  destruct (bases_ok l m r outs C H) as (D' & ED' & FD). destruct (datasets_ok l m r outs C H) as (L' & EL' & FL).
  rewrite ED in ED'. injection ED' as <-. rewrite EL in EL'. injection EL' as <-.
  destruct (blanks m outs D Gm H ND FD) as (OD & HD & SU).
  destruct (existing_one D (cells_of m outs) v L Gv) as (q & E & _); [|exact SU|exact FL| |exists q; exact E].
  - split; [|rewrite OD; exact ND]. intros d Hd. destruct (HD d Hd) as (R1 & R2 & R3 & _). repeat (split; [assumption|]).
    apply (one_view l m r v (dist_o d) C).
    + apply column_output; [apply Gm|]. apply H. rewrite <- OD. now apply in_map.
    + apply in_app_or in Hv. cbn [In] in Hv. apply in_or_app. destruct Hv as [Y|[Y|Y]]; auto. congruence.
  - intros r' o x Ht. apply cells_of_ok in Ht; auto. destruct Ht as [Ho Ec]. apply (AL r' o x Ho Ec).
Qed.
Print Assumptions C40_no_trace.

(** The same for all proposals of a transition together. *)
Theorem C40_rejected : forall X outs m aux, crosscat X -> outs <> [] -> NoDup outs -> In m X ->
  (forall o, In o outs -> In o (columns_of m)) -> aligned outs X -> (List.length X <= 257)%nat ->
  always (transition_cgpm_view_assigments (CProd X) outs aux) (fun p => fst p = CProd X).
Proof.
  intros X outs m aux C NE ND Hm H AL LX. assert (T := C39_transition X outs m aux C NE ND Hm H AL LX). revert T. apply always_imp. tauto.
Qed.
Print Assumptions C40_rejected.

(** A row the view does not know is seated in the view by every proposal. *)
Theorem C40_trace : forall X outs m v D L r o x, crosscat X -> NoDup outs -> In m X -> (forall o, In o outs -> In o (columns_of m)) ->
  In v X -> v <> m -> oseq (map (get_cgpm_base (CProd X)) outs) = Ok D -> oseq (map (get_dataset (CProd X)) outs) = Ok L ->
  In o outs -> cell m r o = Some x -> always (proposal_existing_one v D L) (fun p => seat (fst p) r <> None).
Proof.
  intros X outs m v D L r o x C ND Hm H Hv NV ED EL Ho Ec. destruct (in_split _ _ Hm) as (l & r0 & EX). rewrite EX in *.
  assert (Gm := crosscat_views _ m C Hm). assert (Gv := crosscat_views _ v C Hv).
  destruct (bases_ok l m r0 outs C H) as (D' & ED' & FD). destruct (datasets_ok l m r0 outs C H) as (L' & EL' & FL).
  rewrite ED in ED'. injection ED' as <-. rewrite EL in EL'. injection EL' as <-.
  destruct (blanks m outs D Gm H ND FD) as (OD & HD & SU).
  apply (existing_leak D (cells_of m outs) v L r o x Gv); [|exact SU|exact FL|apply cells_of_ok; auto].
  split; [|rewrite OD; exact ND]. intros d Hd. destruct (HD d Hd) as (R1 & R2 & R3 & _). repeat (split; [assumption|]).
  apply (one_view l m r0 v (dist_o d) C).
  - apply column_output; [apply Gm|]. apply H. rewrite <- OD. now apply in_map.
  - apply in_app_or in Hv. cbn [In] in Hv. apply in_or_app. destruct Hv as [Y|[Y|Y]]; auto. congruence.
Qed.
Print Assumptions C40_trace.

Theorem C40_refuted : exists X o m v D L r, crosscat X /\ In m X /\ In o (columns_of m) /\ In v X /\ v <> m /\
  oseq (map (get_cgpm_base (CProd X)) [o]) = Ok D /\ oseq (map (get_dataset (CProd X)) [o]) = Ok L /\
  seat v r = None /\ always (proposal_existing_one v D L) (fun p => seat (fst p) r <> None).
Proof.
  assert (C := demo_ragged_ok). assert (H3 : forall o, In o [3] -> In o (columns_of right3)).
  { replace (columns_of right3) with [3] by (vm_compute; reflexivity). auto. }
  assert (Hm : In right3 demo_ragged) by (right; now left). assert (Hv : In left2 demo_ragged) by now left.
  assert (NV : left2 <> right3).
  { intros E. assert (X : label_of left2 = 9) by (vm_compute; reflexivity). rewrite E in X. vm_compute in X. discriminate. }
  destruct (in_split _ _ Hm) as (l & r & EX).
  assert (C' := C). rewrite EX in C'. destruct (bases_ok l right3 r [3] C' H3) as (D & ED & _). destruct (datasets_ok l right3 r [3] C' H3) as (L & EL & _).
  rewrite <- EX in ED, EL.
  exists demo_ragged, 3, right3, left2, D, L, 7. split; [exact C|]. split; [exact Hm|]. split; [apply H3; now left|]. split; [exact Hv|].
  split; [exact NV|]. split; [exact ED|]. split; [exact EL|]. split; [vm_compute; reflexivity|].
  apply (C40_trace demo_ragged [3] right3 left2 D L 7 3 (vz 0)); auto.
  - repeat constructor; intros [].
  - now left.
Qed.
Print Assumptions C40_refuted.

Example C40_case : crosscat demo_crosscat /\ In right2 demo_crosscat /\ In 3 (columns_of right2) /\ In left2 demo_crosscat /\ left2 <> right2 /\
  (forall r o x, In o [3] -> cell right2 r o = Some x -> seat left2 r <> None) /\ cell right2 0 3 = Some (vz 1).
Proof.
  split; [exact demo_crosscat_ok|]. split; [right; now left|].
  split; [replace (columns_of right2) with [3] by (vm_compute; reflexivity); now left|]. split; [now left|]. split.
  { intros E. assert (X : label_of left2 = 9) by (vm_compute; reflexivity). rewrite E in X. vm_compute in X. discriminate. }
  split; [|vm_compute; reflexivity]. intros r o x Ho E. apply (demo_aligned [3] r o x Ho); [exists right2; split; [right; now left|exact E]|now left].
Qed.
