(** Properties C25, C26, C29 (removal) and C36-C38: a view records a table of rows, and row
    inference moves rows between clusters by their exact conditional law. Statements use the
    model of the API (Prims.v, Cgpm.v, Trans.v) and the specification (SpecComp.v,
    SpecTable.v, SpecHist.v). *)
From Coq Require Import List ZArith QArith Qcanon Reals Bool String Permutation Lia Lra.
From Verif Require Import Base Xr Samp Lgamma Prims Cgpm Lib SpecPrims PrimsInv PrimsDens PrimsThm2
  SpecComp CompInv CompDens CompThm PropPrims DemoComp PropComp SpecBook Book
  SpecTable Trans SpecHist Table Gibbs Hist SpecWalks WalksThm.
Import ListNotations.
Local Open Scope Z_scope.

(** ** Worked views *)

Definition demo_new : cgpm := new_flexmix crp9 demo_base.
Lemma demo_new_view : new_view demo_new.
Proof.
  exists (crp_new 9 half), [cat1; ber2]. split; [reflexivity|]. split; [|split; [reflexivity|split; [discriminate|]]].
  - apply (cr_flexible crp9 demo_base [0]); [exact crp9_reachable|vm_compute; reflexivity|exact base_reachable|].
    cbn. intuition lia.
  - intros d [<-|[<-|[]]]; split; (discriminate || reflexivity).
Qed.

Definition demo_events : list event :=
  [EObserve 0 [(9, vz 0); (1, vz 2); (2, vz 1)]; EObserve 1 [(9, vz 0); (1, vz 0)];
   EObserve 2 [(9, vz 1); (1, vz 2); (2, vz 0)]].

Lemma observe_happens : forall m m' rid obs, NoDup (keys obs) ->
  (forall y, lookup (label_of m) obs = Some y -> exists z, y = vz z) -> observe m rid obs [] = Ret (m', Ok tt) ->
  happens m (EObserve rid obs) m'.
Proof. intros m m' rid obs ND L E. split; [exact ND|]. split; [exact L|]. rewrite E. reflexivity. Qed.

Lemma demo_history : history demo_new demo_events demo_view.
Proof.
  apply (h_step demo_new [EObserve 0 [(9, vz 0); (1, vz 2); (2, vz 1)]; EObserve 1 [(9, vz 0); (1, vz 0)]] demo_view2).
  - apply (h_step demo_new [EObserve 0 [(9, vz 0); (1, vz 2); (2, vz 1)]] demo_view1).
    + apply (h_step demo_new [] demo_new); [constructor|]. apply observe_happens.
      * repeat constructor; cbn; intuition lia.
      * intros y [= <-]. eexists; reflexivity.
      * vm_compute. reflexivity.
    + apply observe_happens.
      * repeat constructor; cbn; intuition lia.
      * intros y [= <-]. eexists; reflexivity.
      * vm_compute. reflexivity.
  - apply observe_happens.
    + repeat constructor; cbn; intuition lia.
    + intros y [= <-]. eexists; reflexivity.
    + vm_compute. reflexivity.
Qed.

(** ** C25 *)

(** After every history of successful observe, unobserve, transition_rows,
    set_rowid_component and parameter-setting calls on a new view, with any random outcomes,
    the view records the table obtained by playing the same calls on an empty table. *)
Theorem C25_table : forall m0 es m, new_view m0 -> history m0 es m ->
  exists t, table_history (label_of m0) (columns_of m0) (fun _ => None) es t /\ records m t /\
    label_of m = label_of m0 /\ columns_of m = columns_of m0.
Proof.
  intros m0 es m N H. destruct (new_view_good m0 N) as (RE & S & K & R).
  destruct (history_refines creachable creachable_stable creachable_wf m0 es m RE S K _ R H) as (_ & _ & _ & (C1 & C2 & _) & t & T & R'). exists t. auto.
Qed.
Print Assumptions C25_table.

(** One call, from any consistent view: the recorded table takes one step. *)
Theorem C25_step : forall m e m' t, grown m -> sheet m -> consistent m -> records m t -> happens m e m' ->
  exists t', table_step (label_of m) (columns_of m) t e t' /\ records m' t'.
Proof. intros m e m' t RE S K R H. apply (step_refines m e m' t (grown_wf m RE) S K R H). Qed.
Print Assumptions C25_step.

(** The same for a history that starts at any consistent view, with the rows it records:
    columns may have been added and removed before. *)
Theorem C25_continues : forall m0 t0 es m, grown m0 -> sheet m0 -> consistent m0 -> records m0 t0 -> history m0 es m ->
  exists t, table_history (label_of m0) (columns_of m0) t0 es t /\ records m t /\
    label_of m = label_of m0 /\ columns_of m = columns_of m0.
Proof.
  intros m0 t0 es m RE S K R H.
  destruct (history_refines grown grown_stable grown_wf m0 es m RE S K _ R H) as (_ & _ & _ & (C1 & C2 & _) & t & T & R'). exists t. auto.
Qed.
Print Assumptions C25_continues.

(** The recorded table is unique: cells and clusters can be read off the view. *)
Theorem C25_table_unique : forall m t t', records m t -> records m t' ->
  forall r, match t r, t' r with
            | Some (k, f), Some (k', f') => k = k' /\ forall o, In o (columns_of m) -> f o = f' o
            | None, None => True
            | _, _ => False
            end.
Proof.
  intros m t t' R R' r. destruct (R r) as [A B], (R' r) as [A' B'].
  destruct (t r) as [[k f]|], (t' r) as [[k' f']|]; try congruence; [|exact I].
  split; [congruence|]. intros o Ho. rewrite <- B, <- B' by exact Ho. reflexivity.
Qed.
Print Assumptions C25_table_unique.

Example C25_case : new_view demo_new /\ history demo_new demo_events demo_view /\
  map (seat demo_view) [0; 1; 2; 3] = [Some (vz 0); Some (vz 0); Some (vz 1); None] /\
  map (fun r => map (cell demo_view r) [1; 2]) [0; 1; 2; 3] =
    [[Some (vz 2); Some (vz 1)]; [Some (vz 0); None]; [Some (vz 2); Some (vz 0)]; [None; None]].
Proof. split; [exact demo_new_view|]. split; [exact demo_history|]. split; vm_compute; reflexivity. Qed.

(** ** C26 *)

(** In every state reached by successful calls the row divider, the mixture and the component
    array agree on the rows and their clusters, and all cells of a row are in the component
    of its cluster and in no other. *)
Theorem C26_consistent : forall m0 es m, new_view m0 -> history m0 es m -> creachable m /\ sheet m /\ consistent m.
Proof.
  intros m0 es m N H. destruct (new_view_good m0 N) as (RE & S & K & R).
  destruct (history_refines creachable creachable_stable creachable_wf m0 es m RE S K _ R H) as (A & B & C & _). auto.
Qed.
Print Assumptions C26_consistent.

(** Successful calls keep a consistent view consistent, also when its columns have been
    added and removed. *)
Theorem C26_stays : forall m0 es m, grown m0 -> sheet m0 -> consistent m0 -> history m0 es m ->
  grown m /\ sheet m /\ consistent m.
Proof.
  intros m0 es m RE S K H.
  set (t0 := fun r => match seat m0 r with Some k => Some (k, fun o => cell m0 r o) | None => None end).
  assert (R : records m0 t0).
  { intros r. unfold t0. split; [destruct (seat m0 r); reflexivity|]. intros o Ho.
    destruct (seat m0 r) as [k|] eqn:E; [reflexivity|]. destruct m0; try reflexivity. cbn [cell seat] in *. rewrite E. reflexivity. }
  destruct (history_refines grown grown_stable grown_wf m0 es m RE S K _ R H) as (A & B & C & _). auto.
Qed.
Print Assumptions C26_stays.

(** What consistency means for a single row. *)
Theorem C26_row : forall m0 es flex div arr r2c r, new_view m0 -> history m0 es (CMix flex div arr r2c) ->
  (In r (keys (dist_data div)) <-> In r (keys r2c)) /\ (In r (keys (row_index arr)) <-> In r (keys r2c)) /\
  (forall k, lookup r (dist_data div) = Some k <-> lookup r r2c = Some k) /\
  (forall k, lookup r (row_index arr) = Some k <-> lookup r r2c = Some k) /\
  (forall k o x, lookup r r2c <> Some k -> in_column (leaves (component_at arr k)) r o <> Some x).
Proof.
  intros m0 es flex div arr r2c r N H. destruct (C26_consistent m0 es _ N H) as (_ & _ & (N1 & N2 & A3 & A4 & A5 & A6)).
  assert (X : forall (d d' : dict Z val), lookup r d = lookup r d' -> (In r (keys d) <-> In r (keys d'))).
  { intros d d' E. destruct (lookup r d) eqn:L.
    - split; intros _; eapply lookup_Some_keys; eauto.
    - split; intros J; exfalso; [apply (proj1 (lookup_None d r)); auto|apply (proj1 (lookup_None d' r)); auto]. }
  split; [apply X; apply A3|]. split; [apply X; apply A4|]. split; [intros k; rewrite A3; reflexivity|].
  split; [intros k; rewrite A4; reflexivity|].
  intros k o x NE C. apply NE. unfold in_column in C.
  destruct (find (fun d => dist_o d =? o) (leaves (component_at arr k))) as [d|] eqn:F; [|discriminate].
  apply find_some in F. apply (A6 r k d); [apply F|]. eapply lookup_Some_keys; eauto.
Qed.
Print Assumptions C26_row.

Example C26_case : consistent demo_view /\ sheet demo_view.
Proof. destruct (C26_consistent _ _ _ demo_new_view demo_history) as (_ & S & K). auto. Qed.

Lemma consistent_row : forall m r, consistent m ->
  match m with CMix _ div _ r2c => lookup r (dist_data div) = lookup r r2c | _ => True end.
Proof. intros [| | | |flex div arr r2c] r K; try exact I. apply K. Qed.

(** A cluster label that is not an integer is truncated by the row divider but not by the
    mixture: the two then disagree, and unobserve returns a cluster in which the row's cells
    never were. *)
Definition one_half3 : val := VQ (Q2Qc (3 # 2)).
Definition demo_odd : cgpm := state_of (observe demo_view 5 [(9, one_half3); (1, vz 2)] []).
Theorem C26_fraction_refuted : exists m, creachable m /\
  observe demo_view 5 [(9, one_half3); (1, vz 2)] [] = Ret (m, Ok tt) /\ ~ consistent m /\
  seat m 5 = Some one_half3 /\
  match m with CMix _ div _ _ => lookup 5 (dist_data div) = Some (vz 1) | _ => False end /\
  snd (unobserve m 5) = Ok ([(9, vz 1); (1, vz 2)], []).
Proof.
  exists demo_odd. split; [|split; [vm_compute; reflexivity|]].
  - unfold demo_odd. apply step_reachable; [apply demo_view_reachable|vm_compute; reflexivity].
  - split; [|split; [vm_compute; reflexivity|split; vm_compute; reflexivity]].
    intros A. apply (consistent_row _ 5) in A. vm_compute in A. discriminate.
Qed.
Print Assumptions C26_fraction_refuted.

(** ** C29, removal *)

(** Unobserving a row takes from the score the log density of the returned row given what
    remains (when the row divider without the row still offers its cluster: see C38_twin_refuted for
    the other case). *)
Theorem C29_unobserve_takes_logpdf : forall m rid z m1 row ins K l, grown m -> sheet m -> consistent m ->
  seat m rid = Some (vz z) -> unobserve m rid = (m1, Ok (row, ins)) ->
  match divider m1 with Some d => dist_support d = Ok K | None => False end -> In z K ->
  logpdf m1 None row [] [] = Ok (Fin l) ->
  exists s, score m1 = Ok (Fin s) /\ score m = Ok (Fin (s + l)).
Proof.
  intros m rid z m1 row ins K l RE S KO SE EU DS Hz LG. assert (L : seat m rid <> None) by congruence.
  destruct (removed_row m rid (grown_wf m RE) S KO L) as (m1' & row' & s & s1 & EU' & DR & WR & DV & DV1 & EO & ED & D1 & RE1 & UN & RR).
  rewrite EU in EU'. injection EU' as <- <- ->. rewrite DV1 in DS. cbn in DS. injection DS as <-.
  assert (ID : dset (label_of m) (vz z) row = row).
  { apply dset_same. destruct WR as (_ & _ & -> & _). exact SE. }
  destruct (RR z Hz) as (_ & _ & _ & _ & LL & _). cbv zeta in LL. rewrite ID in LL. rewrite LL in LG. injection LG as LG.
  unfold xlog in LG. destruct (Rlt_dec 0 (dens m1 row)) as [P|]; [|discriminate]. injection LG as <-.
  assert (SCO : forall x, wf x -> sheet x -> score x = Ok (Fin (total_score x))).
  { intros x RX SX. apply score_total; [exact RX|apply (sheet_tidy x SX)]. }
  exists (total_score m1). destruct DR as (_ & S1 & _). split; [apply SCO; assumption|].
  rewrite (SCO m (grown_wf m RE) S). rewrite (removal_score m rid m1 row s1 z (grown_wf m RE) S KO SE EU DV1 Hz P). reflexivity.
Qed.
Print Assumptions C29_unobserve_takes_logpdf.

(** ** C36 *)

(** Every outcome of transition_rows that does not raise leaves the rows, all cells and the
    cluster of every other row as they were, and the row's new cluster is in the support of
    the row divider with the row removed. *)
Theorem C36_moves_one_row : forall m rid, grown m -> sheet m -> consistent m -> seat m rid <> None ->
  always (transition_rows m rid) (fun r => snd r = Ok tt ->
    sheet (fst r) /\ consistent (fst r) /\ same_columns m (fst r) /\ others_same rid m (fst r) /\
    (forall o, In o (columns_of m) -> cell (fst r) rid o = cell m rid o) /\
    exists m1 res d K z, unobserve m rid = (m1, Ok res) /\ divider m1 = Some d /\ dist_support d = Ok K /\
      In z K /\ seat (fst r) rid = Some (vz z)).
Proof.
  intros m rid RE S K L.
  destruct (gibbs_moves m rid (grown_wf m RE) S K L) as (m1 & s & s1 & (DR & row & EU) & DV & DV1 & D1 & EO & ED & A & _).
  eapply always_imp; [|exact A]. intros r G E. destruct G as [(_ & z & Hz & (M1 & M2 & M3 & M4 & M5 & M6 & M7))|G].
  - do 5 (split; [assumption|]). exists m1, (row, []), (DCrp s1), (crp_support s1), z. auto.
  - rewrite G in E. discriminate.
Qed.
Print Assumptions C36_moves_one_row.

(** It does not raise if no cell of the row is NaN in a Bernoulli or Poisson column. *)
Theorem C36_never_raises : forall m rid, grown m -> sheet m -> consistent m -> seat m rid <> None ->
  observable m rid -> always (transition_rows m rid) (fun r => snd r = Ok tt).
Proof.
  intros m rid RE S K L OB. destruct (gibbs_moves m rid (grown_wf m RE) S K L) as (m1 & s & s1 & _ & _ & _ & _ & _ & _ & _ & A & _). auto.
Qed.
Print Assumptions C36_never_raises.

(** It always raises if some cell of the row is NaN in a Bernoulli or Poisson column, and the
    row is then lost. *)
Theorem C36_missing_cell_raises : forall m rid o, grown m -> sheet m -> consistent m ->
  In o (columns_of m) -> cell m rid o = Some VNan -> kind_at m o = Some KBit \/ kind_at m o = Some KCount ->
  exists m1, transition_rows m rid = Ret (m1, Err ValueError) /\ seat m1 rid = None /\ others_same rid m m1.
Proof.
  intros m rid o RE S K Ho CE KB.
  assert (L : seat m rid <> None).
  { intros L. destruct (sheet_inv m S) as (s & bs & cs & r2i & r2c & -> & _). cbn [seat mkview] in L. cbn [cell mkview] in CE. rewrite L in CE. discriminate. }
  destruct (gibbs_moves m rid (grown_wf m RE) S K L) as (m1 & s & s1 & (DR & _) & _ & _ & _ & _ & _ & _ & _ & A).
  exists m1. split; [exact (A o Ho CE KB)|]. destruct DR as (_ & _ & _ & _ & D5 & D6). auto.
Qed.
Print Assumptions C36_missing_cell_raises.

Lemma demo_view_good : grown demo_view /\ sheet demo_view /\ consistent demo_view.
Proof.
  destruct (C26_consistent _ _ _ demo_new_view demo_history) as (A & B).
  split; [exact (creachable_grown _ A)|exact B].
Qed.

Lemma observable_columns : forall m r, sheet m -> (forall o, In o (columns_of m) -> cell m r o <> Some VNan) -> observable m r.
Proof.
  intros m r S H o E. assert (X : kind_at m o <> None -> In o (columns_of m)).
  { destruct (sheet_inv m S) as (s & bs & cs & r2i & r2c & -> & _).
    change (columns_of (mkview s bs cs r2i r2c)) with (outputs (CProd (map CDist bs))). rewrite outputs_prod.
    cbn [kind_at mkview]. destruct (find (fun d => dist_o d =? o) (leaves (CProd (map CDist bs)))) as [d|] eqn:F; [|congruence].
    intros _. apply find_some in F. destruct F as [F1 F2]. apply Z.eqb_eq in F2. subst o.
    rewrite leaves_prod in F1. now apply in_map. }
  split; intros K; apply (H o); auto; apply X; congruence.
Qed.

Example C36_case : grown demo_view /\ sheet demo_view /\ consistent demo_view /\ seat demo_view 0 = Some (vz 0) /\
  observable demo_view 0.
Proof.
  destruct demo_view_good as (A & B & C). do 3 (split; [assumption|]). split; [vm_compute; reflexivity|].
  apply observable_columns; [exact B|]. intros o Ho. change (columns_of demo_view) with [1; 2] in Ho.
  destruct Ho as [<-|[<-|[]]]; vm_compute; discriminate.
Qed.

Example C29_unobserve_case : exists m1 row K l, unobserve demo_view 0 = (m1, Ok (row, [])) /\
  match divider m1 with Some d => dist_support d = Ok K | None => False end /\ In 0 K /\
  logpdf m1 None row [] [] = Ok (Fin l).
Proof.
  destruct C36_case as (A & B & C & SE & OB). assert (L : seat demo_view 0 <> None) by (rewrite SE; discriminate).
  destruct (removed_row demo_view 0 (grown_wf _ A) B C L) as (m1 & row & s & s1 & EU & DR & WR & DV & DV1 & EO & ED & D1 & RE1 & UN & RR).
  assert (S1 : match unobserve demo_view 0 with (CMix _ (DCrp s1) _ _, _) => crp_support s1 = [0; 1; 2] | _ => False end) by (vm_compute; reflexivity).
  rewrite EU in S1. assert (K1 : crp_support s1 = [0; 1; 2]).
  { destruct m1 as [| | | |f d a r]; try contradiction. injection DV1 as ->. exact S1. }
  assert (ID : dset (label_of demo_view) (vz 0) row = row).
  { apply dset_same. destruct WR as (_ & _ & -> & _). exact SE. }
  destruct (RR 0) as (_ & _ & _ & _ & LL & PP & _); [rewrite K1; now left|]. rewrite ID in LL, PP.
  exists m1, row, (crp_support s1), (ln (dens m1 row)). split; [exact EU|]. rewrite DV1. split; [reflexivity|].
  split; [rewrite K1; now left|]. rewrite LL. specialize (PP OB). unfold xlog. destruct (Rlt_dec 0 (dens m1 row)); [reflexivity|contradiction].
Qed.

(** The same view with a missing cell in its Bernoulli column. *)
Definition demo_gap : cgpm := state_of (observe demo_view 6 [(9, vz 1); (1, vz 0); (2, VNan)] []).
Example C36_missing_case : grown demo_gap /\ sheet demo_gap /\ consistent demo_gap /\ In 2 (columns_of demo_gap) /\
  cell demo_gap 6 2 = Some VNan /\ kind_at demo_gap 2 = Some KBit.
Proof.
  assert (H : history demo_new (demo_events ++ [EObserve 6 [(9, vz 1); (1, vz 0); (2, VNan)]]) demo_gap).
  { apply (h_step _ _ demo_view); [exact demo_history|]. apply observe_happens.
    - repeat constructor; cbn; intuition lia.
    - intros y [= <-]. eexists; reflexivity.
    - vm_compute. reflexivity. }
  destruct (C26_consistent _ _ _ demo_new_view H) as (A & B & C).
  split; [exact (creachable_grown _ A)|]. do 2 (split; [assumption|]).
  split; [vm_compute; auto|]. split; vm_compute; reflexivity.
Qed.

(** ** C37 *)

(** [K]: the clusters offered to the row. [mz z]: the model with the row moved to cluster
    [z]; [sz z]: its logpdf_score. *)
Definition placements (m : cgpm) (rid : Z) (K : list Z) (mz : Z -> cgpm) (sz : Z -> R) : Prop :=
  NoDup K /\
  (exists m1 row d, unobserve m rid = (m1, Ok (row, [])) /\ divider m1 = Some d /\ dist_support d = Ok K /\
     forall z, In z K -> observe m1 rid (dset (label_of m) (vz z) row) [] = Ret (mz z, Ok tt)) /\
  forall z, In z K -> score (mz z) = Ok (Fin (sz z)) /\ seat (mz z) rid = Some (vz z) /\ others_same rid m (mz z) /\
    (forall o, In o (columns_of m) -> cell (mz z) rid o = cell m rid o).

(** The law of cluster [z] proportional to the exponentiated score of the whole model. *)
Definition conditional (K : list Z) (sz : Z -> R) (z : Z) : R := (exp (sz z) / rsum (map (fun z' => exp (sz z')) K))%R.

Lemma seat_int : forall m rid, consistent m -> seat m rid <> None -> exists z, seat m rid = Some (vz z).
Proof.
  intros m rid K L. destruct (seat m rid) as [k|] eqn:E; [|congruence]. destruct m as [| | | |flex div arr r2c]; try discriminate E.
  destruct K as (_ & _ & _ & _ & A5 & _). destruct (A5 rid k E) as [z ->]. eauto.
Qed.

Lemma gibbs_placements : forall m rid, grown m -> sheet m -> consistent m -> seat m rid <> None ->
  observable m rid ->
  exists K mz sz, placements m rid K mz sz /\ finite_choices (transition_rows m rid) /\
    (forall z0 sc, seat m rid = Some (vz z0) -> In z0 K -> score m = Ok (Fin sc) -> sz z0 = sc) /\
    (forall f, expect (transition_rows m rid) f = rsum (map (fun z => (conditional K sz z * f (mz z, Ok tt))%R) K)) /\
    K <> [] /\ forall z, In z K -> finite_choices (transition_rows (mz z) rid) /\
      forall g : option val -> R, expect (transition_rows (mz z) rid) (fun r => g (seat (fst r) rid)) =
        rsum (map (fun z' => (conditional K sz z' * g (Some (vz z')))%R) K).
Proof.
  intros m rid RE S KO L OB. destruct (seat_int m rid KO L) as [z0 SE].
  destruct (gibbs_balance m rid z0 (grown_wf m RE) S KO SE OB) as (K & mz & sz & sc & ND & DV & MZ & SC & SZ & FC & EX & BK).
  exists K, mz, sz.
  destruct (removed_row m rid (grown_wf m RE) S KO L) as (m1 & row & s & s1 & EU & DR & WR & DV0 & DV1 & EO & ED & D1 & _).
  destruct (DV s DV0) as (s1' & EC & ES). assert (E1 : s1 = s1').
  { destruct (sheet_inv m S) as (s' & bs & cs & r2i & r2c & -> & _). injection DV0 as ->.
    unfold mkview in EU. cbn [unobserve] in EU. unfold mix_unobserve in EU. rewrite EC in EU.
    destruct DR as (_ & S1 & _). destruct (sheet_inv m1 S1) as (s2 & bs2 & cs2 & r2i2 & r2c2 & -> & _). injection DV1 as ->.
    repeat (match type of EU with context [match ?x with _ => _ end] => destruct x; try discriminate EU end);
      unfold mkview in EU; injection EU; intros; subst; reflexivity. }
  subst s1'. split; [|split; [exact FC|split; [|split; [exact EX|split; [rewrite <- ES; apply support_nonempty|]]]]].
  - split; [exact ND|]. split.
    + exists m1, row, (DCrp s1). split; [exact EU|]. split; [exact DV1|]. cbn [dist_support].
      rewrite ES. split; [reflexivity|]. intros z Hz. destruct (MZ z Hz) as (_ & _ & _ & m1' & row' & EU' & EO').
      rewrite EU in EU'. injection EU' as <- <-. exact EO'.
    + intros z Hz. destruct (MZ z Hz) as ((M1 & M2 & M3 & M4 & M5 & M6 & M7) & _ & SCZ & _). auto.
  - intros z1 sc1 E1 Hz1 SC1. rewrite SE in E1. assert (z1 = z0) as -> by (apply vz_inj; congruence). rewrite SC in SC1. injection SC1 as <-. auto.
  - intros z Hz. destruct (BK z Hz) as (FZ & mz' & MZ' & EZ). split; [exact FZ|]. intros g. rewrite EZ. apply rsum_ext.
    intros z' Hz'. destruct (MZ' z' Hz') as ((_ & _ & _ & _ & _ & M6 & _) & _). cbn [fst]. rewrite M6. reflexivity.
Qed.

(** transition_rows leaves the row in cluster [z] with probability
    exp(score_z) / sum_z' exp(score_z'), score_z being the logpdf_score of the model with the
    row in cluster z. *)
Theorem C37_exact_conditional : forall m rid, grown m -> sheet m -> consistent m -> seat m rid <> None ->
  observable m rid ->
  exists K mz sz, placements m rid K mz sz /\ finite_choices (transition_rows m rid) /\
    (forall z0 sc, seat m rid = Some (vz z0) -> In z0 K -> score m = Ok (Fin sc) -> sz z0 = sc) /\
    forall f, expect (transition_rows m rid) f = rsum (map (fun z => (conditional K sz z * f (mz z, Ok tt))%R) K).
Proof.
  intros m rid RE S KO L OB. destruct (gibbs_placements m rid RE S KO L OB) as (K & mz & sz & A & B & C & D & _).
  exists K, mz, sz. auto.
Qed.
Print Assumptions C37_exact_conditional.

(** Hence the step leaves the posterior over the row's cluster invariant: if the cluster is
    drawn from the conditional law and then the step is made, the cluster has the conditional
    law again. *)
Theorem C37_invariant : forall m rid, grown m -> sheet m -> consistent m -> seat m rid <> None ->
  observable m rid ->
  exists K mz sz, placements m rid K mz sz /\
    (forall z, In z K -> finite_choices (transition_rows (mz z) rid)) /\
    rsum (map (conditional K sz) K) = 1%R /\
    forall g : option val -> R,
      rsum (map (fun z => (conditional K sz z * expect (transition_rows (mz z) rid) (fun r => g (seat (fst r) rid)))%R) K) =
      rsum (map (fun z => (conditional K sz z * g (Some (vz z)))%R) K).
Proof.
  intros m rid RE S KO L OB. destruct (gibbs_placements m rid RE S KO L OB) as (K & mz & sz & A & _ & _ & _ & NE & D).
  exists K, mz, sz. split; [exact A|]. split; [intros z Hz; apply D; exact Hz|].
  assert (T : rsum (map (conditional K sz) K) = 1%R).
  { assert (P : (0 < rsum (map (fun z' => exp (sz z')) K))%R) by (apply rsum_pos; [exact NE|intros; apply exp_pos]).
    replace (map (conditional K sz) K) with (map (fun x => (/ rsum (map (fun z' => exp (sz z')) K) * x)%R) (map (fun z' => exp (sz z')) K)).
    - rewrite rsum_scale. field. lra.
    - rewrite map_map. apply map_ext. intros z. unfold conditional, Rdiv. ring. }
  split; [exact T|]. intros g.
  set (e := rsum (map (fun z => (conditional K sz z * g (Some (vz z)))%R) K)).
  transitivity (rsum (map (fun z => (e * conditional K sz z)%R) K)).
  - apply rsum_ext. intros z Hz. rewrite (proj2 (D z Hz) g). unfold e. ring.
  - rewrite <- (map_map (conditional K sz) (fun x => (e * x)%R)), rsum_scale, T. ring.
Qed.
Print Assumptions C37_invariant.

(** ** C38 *)

(** set_rowid_component with another recorded row never raises; it puts [r0] in the cluster
    of [r1] and changes nothing else. *)
Theorem C38_joins : forall m r0 r1, grown m -> sheet m -> consistent m -> seat m r0 <> None -> seat m r1 <> None ->
  r0 <> r1 ->
  exists m', set_rowid_component m r0 (Some r1) = Ret (m', Ok tt) /\ grown m' /\ sheet m' /\ consistent m' /\
    same_columns m m' /\ others_same r0 m m' /\ seat m' r0 = seat m r1 /\ seat m' r1 = seat m r1 /\
    (forall o, In o (columns_of m) -> cell m' r0 o = cell m r0 o).
Proof.
  intros m r0 r1 RE S K L0 L1 NE. destruct (seat_int m r1 K L1) as [z SE]. rewrite SE.
  destruct (set_component_join m r0 r1 z (grown_wf m RE) S K L0 NE SE) as (m' & E & (M1 & M2 & M3 & M4 & M5 & M6 & M7)).
  exists m'. split; [exact E|]. assert (RR := reseat_stable grown grown_stable m r0 (Some r1) RE). rewrite E in RR. split; [exact RR|].
  do 4 (split; [assumption|]). split; [exact M6|]. split; [rewrite <- SE; apply M5; congruence|exact M7].
Qed.
Print Assumptions C38_joins.

(** With None it never raises; [r0] gets a cluster of its own and nothing else changes. *)
Theorem C38_alone : forall m r0, grown m -> sheet m -> consistent m -> seat m r0 <> None ->
  exists m' k, set_rowid_component m r0 None = Ret (m', Ok tt) /\ grown m' /\ sheet m' /\ consistent m' /\
    same_columns m m' /\ others_same r0 m m' /\ seat m' r0 = Some k /\ (forall r, seat m' r = Some k -> r = r0) /\
    (forall o, In o (columns_of m) -> cell m' r0 o = cell m r0 o).
Proof.
  intros m r0 RE S K L0.
  destruct (set_component_alone m r0 (grown_wf m RE) S K L0) as (m' & z & E & (M1 & M2 & M3 & M4 & M5 & M6 & M7) & NO).
  exists m', (vz z). split; [exact E|]. assert (RR := reseat_stable grown grown_stable m r0 None RE). rewrite E in RR. split; [exact RR|].
  do 4 (split; [assumption|]). split; [exact M6|]. split; [|exact M7].
  intros r Hr. destruct (Z.eq_dec r r0) as [|NE]; [assumption|]. exfalso. exact (NO r NE Hr).
Qed.
Print Assumptions C38_alone.

(** With [r0] itself, as a cached small int, nothing happens. *)
Theorem C38_same : forall m r, sheet m -> -5 <= r <= 256 -> set_rowid_component m r (Some r) = Ret (m, Ok tt).
Proof.
  intros m r S H. destruct (sheet_inv m S) as (s & bs & cs & r2i & r2c & -> & _). unfold mkview, set_rowid_component.
  unfold int_is. rewrite Z.eqb_refl. destruct (Z.leb_spec (-5) r); [|lia]. destruct (Z.leb_spec r 256); [reflexivity|lia].
Qed.
Print Assumptions C38_same.

Example C38_case : grown demo_view /\ sheet demo_view /\ consistent demo_view /\
  seat demo_view 0 = Some (vz 0) /\ seat demo_view 2 = Some (vz 1).
Proof. destruct demo_view_good as (A & B & C). do 3 (split; [assumption|]). split; vm_compute; reflexivity. Qed.

(** With [r0] itself as another int object, the row being alone in a cluster that is not the
    last: the call raises and the row is lost. *)
Definition demo_twin1 : cgpm := state_of (observe demo_new 300 [(9, vz 0); (1, vz 2); (2, vz 1)] []).
Definition demo_twin : cgpm := state_of (observe demo_twin1 1 [(9, vz 1); (1, vz 0)] []).
Theorem C38_twin_refuted : exists m r m' e, creachable m /\ sheet m /\ consistent m /\ seat m r <> None /\
  set_rowid_component m r (Some r) = Ret (m', Err e) /\ seat m' r = None.
Proof.
  assert (H : history demo_new [EObserve 300 [(9, vz 0); (1, vz 2); (2, vz 1)]; EObserve 1 [(9, vz 1); (1, vz 0)]] demo_twin).
  { apply (h_step demo_new [EObserve 300 [(9, vz 0); (1, vz 2); (2, vz 1)]] demo_twin1).
    + apply (h_step demo_new [] demo_new); [constructor|]. apply observe_happens.
      * repeat constructor; cbn; intuition lia.
      * intros y [= <-]. eexists; reflexivity.
      * vm_compute. reflexivity.
    + apply observe_happens.
      * repeat constructor; cbn; intuition lia.
      * intros y [= <-]. eexists; reflexivity.
      * vm_compute. reflexivity. }
  destruct (C26_consistent _ _ _ demo_new_view H) as (A & B & C).
  exists demo_twin, 300, (state_of (set_rowid_component demo_twin 300 (Some 300))). eexists.
  do 3 (split; [assumption|]). split; [vm_compute; discriminate|]. split; [vm_compute; reflexivity|vm_compute; reflexivity].
Qed.
Print Assumptions C38_twin_refuted.
