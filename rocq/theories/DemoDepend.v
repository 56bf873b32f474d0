(** A model with columns 0, 1 and 2 in two views, for the cases of C70 and C71. *)
From Coq Require Import List ZArith QArith Qcanon Reals Bool String Permutation Sorted Lia.
From Verif Require Import Base Xr Samp Lgamma Prims Cgpm Lib SpecPrims PrimsInv SpecComp CompInv CompDens CompThm SimShape PropPrims DemoComp PropComp
  SpecTable SpecHist Table Gibbs Hist PropTable Walks SpecWalks WalksThm Trans Views ViewsThm ViewsThm2 ViewsThm3 ViewsThm4 ViewsThm5
  Hypers SpecHypers Progress Crosscat PropViews CrosscatThm CrosscatThm2 CrosscatThm3 Cpp CppThm CppThm2 CppThm3.
From Verif Require Import SpecViews SpecCrosscat SpecCpp Depend SpecDepend.
Import ListNotations.
Local Open Scope Z_scope.

Definition nrm1 : dist := DNrm (mkNrm 1 [] 0 0%Qc 0%Qc 0%Qc 1%Qc half 1%Qc).
Definition cat0 : dist := DCat (cat_new 0 3 half).
Definition cat2 : dist := DCat (cat_new 2 5 half).
Definition pair0 : cgpm := new_flexmix (DCrp (crp_new 9 half)) (CProd [CDist cat0; CDist nrm1]).
Definition pair1 : cgpm := state_of (observe pair0 4 [(9, vz 0); (0, vz 2); (1, VQ half)] []).
Definition pair2 : cgpm := state_of (observe pair1 6 [(9, vz 1); (0, VNan); (1, vz 1)] []).
Definition alone0 : cgpm := new_flexmix (DCrp (crp_new 19 half)) (CProd [CDist cat2]).
Definition alone1 : cgpm := state_of (observe alone0 6 [(19, vz 0); (2, vz 3)] []).
Definition alone2 : cgpm := state_of (observe alone1 4 [(19, vz 0); (2, vz 1)] []).
Definition demo_views : list cgpm := [pair2; alone2].

Lemma pair_good : grown pair2 /\ sheet pair2 /\ consistent pair2.
Proof.
  apply (history_view pair0 [EObserve 4 [(9, vz 0); (0, vz 2); (1, VQ half)]; EObserve 6 [(9, vz 1); (0, VNan); (1, vz 1)]]).
  - exists (crp_new 9 half), [cat0; nrm1]. split; [reflexivity|]. split; [|split; [reflexivity|split; [discriminate|]]].
    + apply (cr_flexible (DCrp (crp_new 9 half)) _ [0]).
      * exists (DCrp (crp_new 9 half)), []. split; [|reflexivity]. apply fresh_crp. exact half_pos.
      * reflexivity.
      * apply (cr_product [CDist cat0; CDist nrm1]); [|reflexivity]. intros c [<-|[<-|[]]]; constructor; [exists cat0, []; split; [|reflexivity]; apply fresh_cat; [lia|exact half_pos]|].
        exists nrm1, []. split; [|reflexivity]. apply (fresh_nrm 1 0%Qc 1%Qc half 1%Qc). reflexivity.
      * cbn. intuition lia.
    + intros d [<-|[<-|[]]]; split; (discriminate || reflexivity).
  - apply (h_step _ [EObserve 4 [(9, vz 0); (0, vz 2); (1, VQ half)]] pair1); [apply (h_step _ [] pair0); [constructor|]|];
      (apply observe_happens; [repeat constructor; cbn; intuition lia|intros y [= <-]; eexists; reflexivity|vm_compute; reflexivity]).
Qed.

Lemma alone_good : grown alone2 /\ sheet alone2 /\ consistent alone2.
Proof.
  apply (history_view alone0 [EObserve 6 [(19, vz 0); (2, vz 3)]; EObserve 4 [(19, vz 0); (2, vz 1)]]).
  - exists (crp_new 19 half), [cat2]. split; [reflexivity|]. split; [|split; [reflexivity|split; [discriminate|]]].
    + apply (cr_flexible (DCrp (crp_new 19 half)) _ [0]).
      * exists (DCrp (crp_new 19 half)), []. split; [|reflexivity]. apply fresh_crp. exact half_pos.
      * reflexivity.
      * apply (cr_product [CDist cat2]); [|reflexivity]. intros c [<-|[]]; constructor.
        exists cat2, []. split; [|reflexivity]. apply fresh_cat; [lia|exact half_pos].
      * cbn. intuition lia.
    + intros d [<-|[]]; split; (discriminate || reflexivity).
  - apply (h_step _ [EObserve 6 [(19, vz 0); (2, vz 3)]] alone1); [apply (h_step _ [] alone0); [constructor|]|];
      (apply observe_happens; [repeat constructor; cbn; intuition lia|intros y [= <-]; eexists; reflexivity|vm_compute; reflexivity]).
Qed.

Lemma demo_views_ok : crosscat demo_views.
Proof.
  split; [intros m [<-|[<-|[]]]; [exact pair_good|exact alone_good]|].
  replace (flat_map outputs demo_views) with [9; 0; 1; 19; 2] by (vm_compute; reflexivity).
  repeat (constructor; [cbn; intuition lia|]). constructor.
Qed.

Lemma views_seats : forall m r, In m demo_views -> seat m r <> None -> r = 4 \/ r = 6.
Proof.
  intros m r [<-|[<-|[]]] E.
  - destruct (Z.eq_dec r 4) as [->|N0]; [auto|]. destruct (Z.eq_dec r 6) as [->|N1]; [auto|]. exfalso. apply E.
    assert (X : match pair2 with CMix _ _ _ r2c => r2c | _ => [] end = [(4, vz 0); (6, vz 1)]) by (vm_compute; reflexivity).
    destruct pair2 as [| | | |f d a r2c]; try reflexivity. cbn [seat]. cbn in X. subst r2c.
    rewrite !lookup_cons_neq by congruence. reflexivity.
  - destruct (Z.eq_dec r 4) as [->|N0]; [auto|]. destruct (Z.eq_dec r 6) as [->|N1]; [auto|]. exfalso. apply E.
    assert (X : match alone2 with CMix _ _ _ r2c => r2c | _ => [] end = [(6, vz 0); (4, vz 0)]) by (vm_compute; reflexivity).
    destruct alone2 as [| | | |f d a r2c]; try reflexivity. cbn [seat]. cbn in X. subst r2c.
    rewrite !lookup_cons_neq by congruence. reflexivity.
Qed.

Lemma views_cells : forall r w, r = 4 \/ r = 6 -> In w [0; 1; 2] -> exists y, holds demo_views r w y.
Proof.
  intros r w Hr Hw. destruct Hr as [->| ->], Hw as [<-|[<-|[<-|[]]]];
    eexists; first [exists pair2; split; [now left|vm_compute; reflexivity]|exists alone2; split; [right; now left|vm_compute; reflexivity]].
Qed.

Lemma views_kinds : forall v k, typed demo_views v k -> k = KReal true \/ exists n, k = KCategory n.
Proof.
  intros v k (m & Hm & E). assert (G := crosscat_views demo_views m demo_views_ok Hm). assert (Hv := kind_at_column m v k G E). destruct Hm as [<-|[<-|[]]].
  - replace (columns_of pair2) with [0; 1] in Hv by (vm_compute; reflexivity). destruct Hv as [<-|[<-|[]]].
    + replace (kind_at pair2 0) with (Some (KCategory 3)) in E by (vm_compute; reflexivity). right. exists 3. congruence.
    + replace (kind_at pair2 1) with (Some (KReal true)) in E by (vm_compute; reflexivity). left. congruence.
  - replace (columns_of alone2) with [2] in Hv by (vm_compute; reflexivity). destruct Hv as [<-|[]].
    replace (kind_at alone2 2) with (Some (KCategory 5)) in E by (vm_compute; reflexivity). right. exists 5. congruence.
Qed.

Lemma views_importable : importable demo_views.
Proof.
  split; [exact demo_views_ok|]. split.
  { intros r v x w (m & Hm & E) Hw. replace (flat_map columns_of demo_views) with [0; 1; 2] in Hw by (vm_compute; reflexivity).
    apply views_cells; [|exact Hw]. apply (views_seats m r Hm). apply (cell_seat m r v x E). }
  split; [discriminate|]. split; [exact views_kinds|]. split.
  - intros v n (m & Hm & E). assert (G := crosscat_views demo_views m demo_views_ok Hm). assert (Hv := kind_at_column m v _ G E). destruct Hm as [<-|[<-|[]]].
    + replace (columns_of pair2) with [0; 1] in Hv by (vm_compute; reflexivity). destruct Hv as [<-|[<-|[]]].
      * exists 4, (qz 2). exists pair2. split; [now left|]. vm_compute. reflexivity.
      * replace (kind_at pair2 1) with (Some (KReal true)) in E by (vm_compute; reflexivity). congruence.
    + replace (columns_of alone2) with [2] in Hv by (vm_compute; reflexivity). destruct Hv as [<-|[]].
      exists 4, (qz 1). exists alone2. split; [right; now left|]. vm_compute. reflexivity.
  - intros m r Hm Hs. exists 0. apply views_cells; [|now left]. apply (views_seats m r Hm Hs).
Qed.

(** A check of a partition. *)
Definition same_view (Zv : dict Z nat) (v w : Z) : bool :=
  match lookup v Zv, lookup w Zv with Some i, Some j => Nat.eqb i j | _, _ => false end.
Definition check_partition (Zv : dict Z nat) (Cd Ci : list (list Z)) : out bool :=
  if forallb (forallb (fun v => dmem v Zv)) (Cd ++ Ci) && forallb (fun b => Nat.eqb (List.length b) 2) Ci then
    Ok (forallb (fun b => forallb (fun v => forallb (same_view Zv v) b) b) Cd &&
        forallb (fun b => match b with [v; w] => negb (same_view Zv v w) | _ => false end) Ci)
  else Err KeyError.

Lemma check_partition_ok : partition_check check_partition.
Proof.
  intros Zv Cd Ci. unfold check_partition.
  assert (KN : forall v, dmem v Zv = true <-> exists i, lookup v Zv = Some i) by (intros v; unfold dmem; destruct (lookup v Zv); split; intros Y; try discriminate; eauto; destruct Y; discriminate).
  assert (SV : forall v w i j, lookup v Zv = Some i -> lookup w Zv = Some j -> (same_view Zv v w = true <-> i = j)) by (intros v w i j E1 E2; unfold same_view; rewrite E1, E2; apply Nat.eqb_eq).
  assert (EQ : forallb (forallb (fun v => dmem v Zv)) (Cd ++ Ci) = true -> forallb (fun b => Nat.eqb (List.length b) 2) Ci = true ->
    (forallb (fun b => forallb (fun v => forallb (same_view Zv v) b) b) Cd && forallb (fun b => match b with [v; w] => negb (same_view Zv v w) | _ => false end) Ci = true <-> met Zv Cd Ci)).
  { intros K L. rewrite forallb_forall in K. assert (KB : forall b v, In b Cd \/ In b Ci -> In v b -> exists i, lookup v Zv = Some i).
    { intros b v Hb Hv. apply KN. assert (Y := K b (in_or_app _ _ _ Hb)). rewrite forallb_forall in Y. exact (Y v Hv). }
    rewrite andb_true_iff, !forallb_forall. rewrite forallb_forall in L. split.
    - intros [A B]. split.
      + intros b v w Hb Hv Hw. assert (Y := A b Hb). rewrite forallb_forall in Y. assert (Y2 := Y v Hv). rewrite forallb_forall in Y2. assert (Y3 := Y2 w Hw).
        destruct (KB b v (or_introl Hb) Hv) as (i & Ei), (KB b w (or_introl Hb) Hw) as (j & Ej). apply (SV v w i j Ei Ej) in Y3. subst j. eauto.
      + intros v w Hp. assert (Y := B _ Hp). cbn in Y. destruct (KB _ v (or_intror Hp) (or_introl eq_refl)) as (i & Ei), (KB _ w (or_intror Hp) (or_intror (or_introl eq_refl))) as (j & Ej).
        exists i, j. split; [exact Ei|]. split; [exact Ej|]. intros E. apply (SV v w i j Ei Ej) in E. rewrite E in Y. discriminate.
    - intros [A B]. split.
      + intros b Hb. apply forallb_forall. intros v Hv. apply forallb_forall. intros w Hw. destruct (A b v w Hb Hv Hw) as (i & Ei & Ej). apply (SV v w i i Ei Ej). reflexivity.
      + intros b Hb. assert (Y := L b Hb). destruct b as [|v [|w [|u b]]]; try discriminate. destruct (B v w Hb) as (i & j & Ei & Ej & N).
        destruct (same_view Zv v w) eqn:E; [|reflexivity]. exfalso. apply N. apply (SV v w i j Ei Ej). exact E. }
  split.
  - destruct (forallb (forallb (fun v => dmem v Zv)) (Cd ++ Ci)) eqn:E1; [|discriminate]. destruct (forallb (fun b => Nat.eqb (List.length b) 2) Ci) eqn:E2; [|discriminate].
    cbn [andb]. intros [= Y]. apply EQ; auto.
  - intros K P. assert (E1 : forallb (forallb (fun v => dmem v Zv)) (Cd ++ Ci) = true).
    { apply forallb_forall. intros b Hb. apply forallb_forall. intros v Hv. apply KN. apply in_app_or in Hb. assert (Y := K b v Hb Hv).
      destruct (lookup v Zv) as [i|] eqn:E; [eauto|]. apply lookup_None in E. contradiction. }
    assert (E2 : forallb (fun b => Nat.eqb (List.length b) 2) Ci = true) by (apply forallb_forall; intros b Hb; destruct (P b Hb) as (v & w & ->); reflexivity).
    rewrite E1, E2. cbn [andb]. eexists. split; [reflexivity|]. apply EQ; assumption.
Qed.

(** Columns 0 and 1 are to be dependent, 0 and 2 independent. *)
Lemma views_named : well_named demo_views [[0; 1]] [[0; 2]].
Proof.
  assert (E : flat_map columns_of demo_views = [0; 1; 2]) by (vm_compute; reflexivity). split.
  - rewrite E. intros b v [[<-|[]]|[<-|[]]] Hv; cbn in *; intuition.
  - intros b [<-|[]]. eauto.
Qed.

Lemma views_obey : obeys demo_views [[0; 1]] [[0; 2]].
Proof.
  assert (E1 : columns_of pair2 = [0; 1]) by (vm_compute; reflexivity). assert (E2 : columns_of alone2 = [2]) by (vm_compute; reflexivity). split.
  - intros b v w [<-|[]] Hv Hw. exists pair2. rewrite E1. split; [now left|]. cbn in *. intuition.
  - intros v w [[= <- <-]|[]] (m & [<-|[<-|[]]] & Hv & Hw); rewrite ?E1, ?E2 in *; cbn in *; intuition lia.
Qed.

Lemma views_disobey : ~ obeys demo_views [[0; 2]] [].
Proof.
  assert (E1 : columns_of pair2 = [0; 1]) by (vm_compute; reflexivity). assert (E2 : columns_of alone2 = [2]) by (vm_compute; reflexivity).
  intros [A _]. destruct (A [0; 2] 0 2 (or_introl eq_refl) (or_introl eq_refl) (or_intror (or_introl eq_refl))) as (m & [<-|[<-|[]]] & Hv & Hw); rewrite ?E1, ?E2 in *; cbn in *; intuition lia.
Qed.

(** Grid points all at the lower end. *)
Definition flat_space (a b : Qc) (n : nat) : list Qc := repeat a n.
