(** C43-C46: transitions by the external engine. *)
From Coq Require Import List ZArith QArith Qcanon Reals Bool String Permutation Sorted Lia.
From Verif Require Import Base Xr Samp Lgamma Prims Cgpm Lib SpecPrims PrimsInv SpecComp CompInv CompDens CompThm SimShape PropPrims DemoComp PropComp
  SpecTable SpecHist Table Gibbs Hist PropTable Walks SpecWalks WalksThm Trans Views ViewsThm ViewsThm2 ViewsThm3 ViewsThm4 ViewsThm5
  Hypers SpecHypers Progress Crosscat PropViews CrosscatThm CrosscatThm2 CrosscatThm3 Cpp CppThm CppThm2 CppThm3.
From Verif Require Import SpecViews SpecCrosscat SpecCpp.
Import ListNotations.
Local Open Scope Z_scope.

(** ** A case: Categorical and Normal columns, two rows, two views *)

Definition nrm2 : dist := DNrm (mkNrm 2 [] 0 0%Qc 0%Qc 0%Qc 1%Qc half 1%Qc).
Definition cat3 : dist := DCat (cat_new 3 5 half).
Definition numbers0 : cgpm := new_flexmix (DCrp (crp_new 9 half)) (CProd [CDist cat1; CDist nrm2]).
Definition numbers1 : cgpm := state_of (observe numbers0 4 [(9, vz 0); (1, vz 2); (2, VQ half)] []).
Definition numbers2 : cgpm := state_of (observe numbers1 6 [(9, vz 1); (1, VNan); (2, vz 1)] []).
Definition codes0 : cgpm := new_flexmix (DCrp (crp_new 19 half)) (CProd [CDist cat3]).
Definition codes1 : cgpm := state_of (observe codes0 6 [(19, vz 0); (3, vz 3)] []).
Definition codes2 : cgpm := state_of (observe codes1 4 [(19, vz 0); (3, vz 1)] []).
Definition demo_numbers : list cgpm := [numbers2; codes2].

Lemma numbers_good : grown numbers2 /\ sheet numbers2 /\ consistent numbers2.
Proof.
  apply (history_view numbers0 [EObserve 4 [(9, vz 0); (1, vz 2); (2, VQ half)]; EObserve 6 [(9, vz 1); (1, VNan); (2, vz 1)]]).
  - exists (crp_new 9 half), [cat1; nrm2]. split; [reflexivity|]. split; [|split; [reflexivity|split; [discriminate|]]].
    + apply (cr_flexible (DCrp (crp_new 9 half)) _ [0]).
      * exists (DCrp (crp_new 9 half)), []. split; [|reflexivity]. apply fresh_crp. exact half_pos.
      * reflexivity.
      * apply (cr_product [CDist cat1; CDist nrm2]); [|reflexivity]. intros c [<-|[<-|[]]]; constructor; [exact cat1_reachable|].
        exists nrm2, []. split; [|reflexivity]. apply (fresh_nrm 2 0%Qc 1%Qc half 1%Qc). reflexivity.
      * cbn. intuition lia.
    + intros d [<-|[<-|[]]]; split; (discriminate || reflexivity).
  - apply (h_step _ [EObserve 4 [(9, vz 0); (1, vz 2); (2, VQ half)]] numbers1); [apply (h_step _ [] numbers0); [constructor|]|];
      (apply observe_happens; [repeat constructor; cbn; intuition lia|intros y [= <-]; eexists; reflexivity|vm_compute; reflexivity]).
Qed.

Lemma codes_good : grown codes2 /\ sheet codes2 /\ consistent codes2.
Proof.
  apply (history_view codes0 [EObserve 6 [(19, vz 0); (3, vz 3)]; EObserve 4 [(19, vz 0); (3, vz 1)]]).
  - exists (crp_new 19 half), [cat3]. split; [reflexivity|]. split; [|split; [reflexivity|split; [discriminate|]]].
    + apply (cr_flexible (DCrp (crp_new 19 half)) _ [0]).
      * exists (DCrp (crp_new 19 half)), []. split; [|reflexivity]. apply fresh_crp. exact half_pos.
      * reflexivity.
      * apply (cr_product [CDist cat3]); [|reflexivity]. intros c [<-|[]]; constructor.
        exists cat3, []. split; [|reflexivity]. apply fresh_cat; [lia|exact half_pos].
      * cbn. intuition lia.
    + intros d [<-|[]]; split; (discriminate || reflexivity).
  - apply (h_step _ [EObserve 6 [(19, vz 0); (3, vz 3)]] codes1); [apply (h_step _ [] codes0); [constructor|]|];
      (apply observe_happens; [repeat constructor; cbn; intuition lia|intros y [= <-]; eexists; reflexivity|vm_compute; reflexivity]).
Qed.

Lemma demo_numbers_ok : crosscat demo_numbers.
Proof.
  split; [intros m [<-|[<-|[]]]; [exact numbers_good|exact codes_good]|].
  replace (flat_map outputs demo_numbers) with [9; 1; 2; 19; 3] by (vm_compute; reflexivity).
  repeat (constructor; [cbn; intuition lia|]). constructor.
Qed.

Lemma numbers_seats : forall m r, In m demo_numbers -> seat m r <> None -> r = 4 \/ r = 6.
Proof.
  intros m r [<-|[<-|[]]] E.
  - destruct (Z.eq_dec r 4) as [->|N0]; [auto|]. destruct (Z.eq_dec r 6) as [->|N1]; [auto|]. exfalso. apply E.
    assert (X : match numbers2 with CMix _ _ _ r2c => r2c | _ => [] end = [(4, vz 0); (6, vz 1)]) by (vm_compute; reflexivity).
    destruct numbers2 as [| | | |f d a r2c]; try reflexivity. cbn [seat]. cbn in X. subst r2c.
    rewrite !lookup_cons_neq by congruence. reflexivity.
  - destruct (Z.eq_dec r 4) as [->|N0]; [auto|]. destruct (Z.eq_dec r 6) as [->|N1]; [auto|]. exfalso. apply E.
    assert (X : match codes2 with CMix _ _ _ r2c => r2c | _ => [] end = [(6, vz 0); (4, vz 0)]) by (vm_compute; reflexivity).
    destruct codes2 as [| | | |f d a r2c]; try reflexivity. cbn [seat]. cbn in X. subst r2c.
    rewrite !lookup_cons_neq by congruence. reflexivity.
Qed.

Lemma numbers_cells : forall r w, r = 4 \/ r = 6 -> In w [1; 2; 3] -> exists y, holds demo_numbers r w y.
Proof.
  intros r w Hr Hw. destruct Hr as [->| ->], Hw as [<-|[<-|[<-|[]]]];
    eexists; first [exists numbers2; split; [now left|vm_compute; reflexivity]|exists codes2; split; [right; now left|vm_compute; reflexivity]].
Qed.

Lemma numbers_kinds : forall v k, typed demo_numbers v k -> k = KReal true \/ exists n, k = KCategory n.
Proof.
  intros v k (m & Hm & E). assert (G := crosscat_views demo_numbers m demo_numbers_ok Hm). assert (Hv := kind_at_column m v k G E). destruct Hm as [<-|[<-|[]]].
  - replace (columns_of numbers2) with [1; 2] in Hv by (vm_compute; reflexivity). destruct Hv as [<-|[<-|[]]].
    + replace (kind_at numbers2 1) with (Some (KCategory 3)) in E by (vm_compute; reflexivity). right. exists 3. congruence.
    + replace (kind_at numbers2 2) with (Some (KReal true)) in E by (vm_compute; reflexivity). left. congruence.
  - replace (columns_of codes2) with [3] in Hv by (vm_compute; reflexivity). destruct Hv as [<-|[]].
    replace (kind_at codes2 3) with (Some (KCategory 5)) in E by (vm_compute; reflexivity). right. exists 5. congruence.
Qed.

Lemma demo_importable : importable demo_numbers.
Proof.
  split; [exact demo_numbers_ok|]. split.
  { intros r v x w (m & Hm & E) Hw. replace (flat_map columns_of demo_numbers) with [1; 2; 3] in Hw by (vm_compute; reflexivity).
    apply numbers_cells; [|exact Hw]. apply (numbers_seats m r Hm). apply (cell_seat m r v x E). }
  split; [discriminate|]. split; [exact numbers_kinds|]. split.
  - intros v n (m & Hm & E). assert (G := crosscat_views demo_numbers m demo_numbers_ok Hm). assert (Hv := kind_at_column m v _ G E). destruct Hm as [<-|[<-|[]]].
    + replace (columns_of numbers2) with [1; 2] in Hv by (vm_compute; reflexivity). destruct Hv as [<-|[<-|[]]].
      * exists 4, (qz 2). exists numbers2. split; [now left|]. vm_compute. reflexivity.
      * replace (kind_at numbers2 2) with (Some (KReal true)) in E by (vm_compute; reflexivity). congruence.
    + replace (columns_of codes2) with [3] in Hv by (vm_compute; reflexivity). destruct Hv as [<-|[]].
      exists 4, (qz 1). exists codes2. split; [right; now left|]. vm_compute. reflexivity.
  - intros m r Hm Hs. exists 1. apply numbers_cells; [|now left]. apply (numbers_seats m r Hm Hs).
Qed.

(** ** C43 *)

(** What the engine is given describes the model: the views of the columns, in each view the
    clusters of the rows in increasing order of their ids, and the table, with the categories
    numbered; the columns and rows to work on are named by their positions. *)
Theorem C43_request : forall srt scc X N S kernels rowids cols Cd Ci seed,
  (forall l, Permutation (srt l) l) -> importable X -> sensible X N S rowids cols Cd (scc Ci) ->
  exists rq obs rows code, cpp_request srt scc (CProd X) N S kernels rowids cols Cd Ci seed = Ok (Some (rq, obs)) /\ rows_of X rows /\
    structure (List.length (flat_map columns_of X)) (List.length rows) (assignments (rq_X_L rq)) (rq_X_D rq) /\
    grouped (flat_map columns_of X) rows (assignments (rq_X_L rq)) (rq_X_D rq) X /\
    List.length (view_states (rq_X_L rq)) = List.length (rq_X_D rq) /\
    (forall v, In v (flat_map columns_of X) -> numbering X v (code v)) /\
    tabulated X (flat_map columns_of X) rows code (rq_T rq) /\
    positions (flat_map columns_of X) (match cols with Some l => l | None => [] end) (rq_cols rq) /\
    positions rows (match rowids with Some l => l | None => [] end) (rq_rows rq).
Proof. exact request_ok. Qed.
Print Assumptions C43_request.

Example C43_request_case : importable demo_numbers /\ sensible demo_numbers (Some 10) None (Some [6]) (Some [3; 1]) [[1; 3]] [] /\
  exists rq obs, cpp_request (fun l => l) (fun _ => []) (CProd demo_numbers) (Some 10) None None (Some [6]) (Some [3; 1]) [[1; 3]] [] None = Ok (Some (rq, obs)) /\
    assignments (rq_X_L rq) = [0; 0; 1] /\ rq_X_D rq = [[0; 1]; [0; 0]] /\ rq_T rq = [[vz 0; VQ half; vz 1]; [VNan; vz 1; vz 0]] /\
    rq_cols rq = [2%nat; 0%nat] /\ rq_rows rq = [1%nat].
Proof.
  split; [exact demo_importable|]. split.
  - split; [left; discriminate|]. replace (flat_map columns_of demo_numbers) with [1; 2; 3] by (vm_compute; reflexivity). split; [|split; [|split]].
    + intros l o [= <-] Ho. replace (flat_map columns_of demo_numbers) with [1; 2; 3] by (vm_compute; reflexivity). cbn in *. intuition.
    + intros l r [= <-] [<-|[]]. exists 1. apply numbers_cells; [now right|now left].
    + intros b o [<-|[]] Ho. cbn in *. intuition.
    + intros o b [].
  - eexists. eexists. split; [vm_compute; reflexivity|]. split; [reflexivity|]. split; [reflexivity|]. split; [|split; reflexivity]. vm_compute. reflexivity.
Qed.

(** Whatever numbering of views and clusters the engine answers with, the model returned has
    these views and these clusters and the same table; and it is returned if the labels drawn
    for new views are new. *)
Theorem C43_import : forall srt order scc engine X N S kernels rowids cols Cd Ci seed rq obs rows,
  (forall l, Permutation (srt l) l) -> set_order order -> importable X -> rows_of X rows ->
  cpp_request srt scc (CProd X) N S kernels rowids cols Cd Ci seed = Ok (Some (rq, obs)) ->
  structure (List.length (flat_map columns_of X)) (List.length rows) (assignments (fst (engine rq))) (snd (engine rq)) ->
  List.length (view_states (fst (engine rq))) = List.length (snd (engine rq)) ->
  forall draws res, outcome (transition_cpp srt order scc engine (CProd X) N S kernels rowids cols Cd Ci seed) draws res ->
    (forall c, res = Ok c -> exists X', c = CProd X' /\ same_data X X' /\
       grouped (flat_map columns_of X) rows (assignments (fst (engine rq))) (snd (engine rq)) X') /\
    (NoDup draws -> (forall z, In z draws -> ~ In z (flat_map outputs X)) -> exists c, res = Ok c).
Proof. exact import_ok. Qed.
Print Assumptions C43_import.

(** An order of sets as CPython has it for small ints. *)
Definition by_size (l : list Z) : list Z := zsort (nodup Z.eq_dec l).
Lemma by_size_ok : set_order by_size.
Proof.
  assert (A : forall l, NoDup (by_size l) /\ forall z, In z (by_size l) <-> In z l).
  { intros l. split.
    - eapply Permutation_NoDup; [apply Permutation_sym, zsort_perm|apply NoDup_nodup].
    - intros z. unfold by_size. rewrite zsort_In. apply nodup_In. }
  split; [exact A|]. intros l n H. destruct (A l) as [ND HI]. apply sorted_perm_eq.
  - apply zsort_sorted.
  - clear. generalize 0%nat. induction n as [|n IH]; intros i; cbn [seq map]; constructor; [apply IH|]. apply Forall_forall. intros z Hz.
    apply in_map_iff in Hz. destruct Hz as (j & <- & Hj). apply in_seq in Hj. lia.
  - apply NoDup_Permutation; [exact ND|apply (zrange_NoDup n)|]. intros z. rewrite HI, H. symmetry. apply (zrange_In n).
Qed.

(** The engine puts column 1 with column 3, and column 2 alone; the rows together in the first
    view and apart in the second. *)
Definition demo_engine (rq : request) : latents * list (list Z) :=
  (mkLatents [] [0; 1; 0] [] [mkViewState 0 [] [] 0%Qc; mkViewState 0 [] [] 0%Qc] None None, [[0; 0]; [1; 0]]).

Example C43_import_case : set_order by_size /\ importable demo_numbers /\ rows_of demo_numbers [4; 6] /\
  (exists rq obs, cpp_request (fun l => l) (fun _ => []) (CProd demo_numbers) (Some 10) None None None None [] [] None = Ok (Some (rq, obs))) /\
  (forall rq, structure (List.length (flat_map columns_of demo_numbers)) (List.length [4; 6]) (assignments (fst (demo_engine rq))) (snd (demo_engine rq)) /\
    List.length (view_states (fst (demo_engine rq))) = List.length (snd (demo_engine rq))).
Proof.
  split; [exact by_size_ok|]. split; [exact demo_importable|]. split.
  { split.
    - repeat constructor; lia.
    - intros r. split.
      + intros Hr. exists 1. apply numbers_cells; [cbn in Hr; intuition|now left].
      + intros (v & x & m & Hm & E). assert (Y := numbers_seats m r Hm (cell_seat m r v x E)). cbn. intuition. }
  split; [eexists; eexists; vm_compute; reflexivity|].
  { intros rq. cbn [demo_engine fst snd assignments view_states]. split; [|reflexivity]. split; [vm_compute; reflexivity|]. split.
    - intros z. cbn. split; [intuition lia|]. intros Hz. lia.
    - intros part [<-|[<-|[]]]; reflexivity. }
Qed.

(** An engine that answers with what it was given brings back the views and the clusters of
    the model. *)
Theorem C43_roundtrip : forall srt order scc X N S kernels rowids cols Cd Ci seed,
  (forall l, Permutation (srt l) l) -> set_order order -> importable X -> sensible X N S rowids cols Cd (scc Ci) ->
  forall draws res, outcome (transition_cpp srt order scc (fun rq => (rq_X_L rq, rq_X_D rq)) (CProd X) N S kernels rowids cols Cd Ci seed) draws res ->
    (forall c, res = Ok c -> exists X', c = CProd X' /\ same_data X X' /\ same_partitions X X') /\
    (NoDup draws -> (forall z, In z draws -> ~ In z (flat_map outputs X)) -> exists c, res = Ok c).
Proof.
  intros srt order scc X N S kernels rowids cols Cd Ci seed SP SO IM SE draws res OC.
  destruct (request_ok srt scc X N S kernels rowids cols Cd Ci seed SP IM SE) as (rq & obs & rows & code & ER & RO & ST & GR & LV & _).
  destruct (import_ok srt order scc (fun rq => (rq_X_L rq, rq_X_D rq)) X N S kernels rowids cols Cd Ci seed rq obs rows SP SO IM RO ER ST LV draws res OC) as [A B].
  split; [|exact B]. intros c Ec. destruct (A c Ec) as (X' & -> & SD & G'). exists X'. split; [reflexivity|]. split; [exact SD|].
  exact (grouped_same X X' rows _ _ (proj1 IM) (proj1 SD) RO ST GR G').
Qed.
Print Assumptions C43_roundtrip.

Example C43_roundtrip_case : set_order by_size /\ importable demo_numbers /\ sensible demo_numbers (Some 1) None None None [] [].
Proof.
  split; [exact by_size_ok|]. split; [exact demo_importable|]. split; [left; discriminate|]. split; [intros l o; discriminate|]. split; [intros l r; discriminate|].
  split; [intros b o []|intros o b []].
Qed.

(** ** C44 *)

(** With neither a number of steps nor a time, the call raises, on any model. *)
Theorem C44_neither : forall srt order scc engine c kernels rowids cols Cd Ci seed,
  transition_cpp srt order scc engine c None None kernels rowids cols Cd Ci seed = Ret (Err AssertionError).
Proof. reflexivity. Qed.
Print Assumptions C44_neither.

(** Otherwise only requests with the documented step count and time, and the given or default
    seed and kernels, reach the engine: engines that agree on these give the same result. *)
Theorem C44_passed : forall srt order scc engine engine' c N S kernels rowids cols Cd Ci seed (n : Z) (t : Qc),
  (N = Some n /\ S = None /\ t = qz (-1)) \/ (N = None /\ S = Some t /\ n = 150000) \/ (N = Some n /\ S = Some t) ->
  (forall rq, rq_steps rq = n -> rq_time rq = t -> rq_seed rq = match seed with Some s => s | None => 1 end ->
     rq_kernels rq = match kernels with Some k => k | None => [] end -> engine rq = engine' rq) ->
  transition_cpp srt order scc engine c N S kernels rowids cols Cd Ci seed = transition_cpp srt order scc engine' c N S kernels rowids cols Cd Ci seed.
Proof.
  intros srt order scc engine engine' c N S kernels rowids cols Cd Ci seed n t H A. unfold transition_cpp.
  destruct (cpp_request srt scc c N S kernels rowids cols Cd Ci seed) as [[[rq obs]|]|e] eqn:E; auto. rewrite (A rq); auto.
  all: assert (ES : steps_and_time N S = Ok (n, t)) by (destruct H as [(-> & -> & ->)|[(-> & -> & ->)|(-> & ->)]]; reflexivity);
    unfold cpp_request in E; rewrite ES in E; cbn [obind] in E;
    repeat match type of E with
    | obind ?x _ = _ => destruct x eqn:?; [|discriminate]; cbn [obind] in E
    | match ?x with [] => _ | _ => _ end = _ => destruct x; [discriminate|]
    end; assert (Y : Some rq = Some rq) by reflexivity; revert Y; injection E as <- _; intros _; reflexivity.
Qed.
Print Assumptions C44_passed.

(** With a time budget the demo model is sent with 150000 steps, the seed 1 and no kernels. *)
Example C44_passed_case : exists rq obs, cpp_request (fun l => l) (fun _ => []) (CProd demo_numbers) None (Some half) None None None [] [] None = Ok (Some (rq, obs)) /\
  rq_steps rq = 150000 /\ rq_time rq = half /\ rq_seed rq = 1 /\ rq_kernels rq = [].
Proof. eexists. eexists. split; [vm_compute; reflexivity|]. repeat split; vm_compute; reflexivity. Qed.

(** ** C45 *)

(** The values of a column, of which all that are not missing are categories: code_to_value
    maps the categories in the data one-to-one onto 0..K-1, and value_to_code is its inverse. *)
Theorem C45_bijection : forall srt data s, (forall l, Permutation (srt l) l) ->
  (forall q, In (VQ q) data -> exists z, q = qz z /\ 0 <= z < cat_k s) ->
  exists v2c c2v K, create_metadata srt data (DCat s) = Ok (MSymbols v2c c2v) /\
    (forall z, (exists i, lookup z c2v = Some i) <-> In (vz z) data) /\
    (forall i, (exists z, lookup z c2v = Some i) <-> 0 <= i < K) /\
    (forall z z' i, lookup z c2v = Some i -> lookup z' c2v = Some i -> z = z') /\
    (forall z i, lookup i v2c = Some z <-> lookup z c2v = Some i).
Proof.
  intros srt data s SP HD. destruct (metadata_ok srt data s SP HD) as (v2c & c2v & E & C1 & C2 & C3). exists v2c, c2v, (Z.of_nat (List.length c2v)).
  split; [exact E|]. split; [|split; [|split]].
  - intros z. rewrite <- C2. split; [intros [i Ei]; apply lookup_In in Ei; apply in_map_iff; exists (z, i); auto|apply lookup_keys].
  - intros i. rewrite <- C3. split.
    + intros [z Ez]. apply C1 in Ez. apply lookup_In in Ez. apply in_map_iff. exists (i, z). auto.
    + intros Hi. apply lookup_keys in Hi. destruct Hi as [z Ez]. exists z. apply C1. exact Ez.
  - intros z z' i E1 E2. apply C1 in E1, E2. congruence.
  - intros z i. symmetry. apply C1.
Qed.
Print Assumptions C45_bijection.

Example C45_bijection_case : (forall q, In (VQ q) [vz 4; VNan; vz 1; vz 4] -> exists z, q = qz z /\ 0 <= z < 6) /\
  create_metadata (fun l => l) [vz 4; VNan; vz 1; vz 4] (DCat (cat_new 0 6 half)) = Ok (MSymbols [(0, 1); (1, 4)] [(1, 0); (4, 1)]).
Proof.
  split; [|vm_compute; reflexivity]. intros q [E|[E|[E|[E|[]]]]]; try discriminate; unfold vz in E;
    [exists 4|exists 1|exists 4]; split; try lia; congruence.
Qed.

(** Looking up the code of a value in column [col]: missing values stay missing; with the
    metadata of a Categorical column made from data containing it, the code found stands for
    the value; with those of a Normal column the value stays as it is. *)
Theorem C45_lookup : forall srt data base M col x m, (forall l, Permutation (srt l) l) ->
  create_metadata srt data base = Ok m -> nth_error (column_metadata M) col = Some m -> In x data ->
  match x, base with
  | VNan, _ => crosscat_value_to_code M x col = Ok VNan
  | VQ q, DCat s => (forall q, In (VQ q) data -> exists z, q = qz z /\ 0 <= z < cat_k s) ->
      exists i v2c c2v, crosscat_value_to_code M x col = Ok (vz i) /\ m = MSymbols v2c c2v /\ omap qz (dget i v2c) = Ok q
  | VQ q, _ => crosscat_value_to_code M x col = Ok x
  end.
Proof.
  intros srt data base M col x m SP EM EN Hx. destruct x as [|q]; [reflexivity|].
  destruct base as [|s| | | |]; try discriminate.
  - intros HD. destruct (metadata_ok srt data s SP HD) as (v2c & c2v & E & C1 & C2 & C3). assert (m = MSymbols v2c c2v) as -> by congruence.
    destruct (HD q Hx) as (z & -> & _). assert (Hz := proj2 (C2 z) Hx). apply lookup_keys in Hz. destruct Hz as [i Ei]. exists i, v2c, c2v.
    unfold crosscat_value_to_code, item. rewrite EN. cbn [obind code_to_value]. destruct c2v as [|p c2v]; [discriminate|]. rewrite trunc_qz. unfold dmem, dget. rewrite Ei.
    apply C1 in Ei. rewrite Ei. split; [reflexivity|]. split; reflexivity.
  - cbn in EM. assert (m = MNormal) as -> by congruence. unfold crosscat_value_to_code, item. rewrite EN. reflexivity.
Qed.
Print Assumptions C45_lookup.

Example C45_lookup_case : exists m, create_metadata (fun l => l) [vz 4; VNan; vz 1; vz 4] (DCat (cat_new 0 6 half)) = Ok m /\ In (vz 4) [vz 4; VNan; vz 1; vz 4] /\
  crosscat_value_to_code (mkMetas [] [m]) (vz 4) 0 = Ok (vz 1).
Proof. eexists. split; [vm_compute; reflexivity|]. split; [now left|]. vm_compute. reflexivity. Qed.

(** ** C46 *)

(** The blocks of an assignment, for any values and any order in which the set of values is
    listed. *)
Theorem C46_blocks : forall {A} `{EqDec A} (order : list A -> list A) (l : list A),
  NoDup (order l) -> (forall u, In u (order l) <-> In u l) ->
  let blocks := partition_assignments_to_blocks order l in
  (forall b, In b blocks -> b <> []) /\
  (forall i, (exists b, In b blocks /\ In i b) <-> (i < List.length l)%nat) /\
  (forall i j, (i < List.length l)%nat -> (j < List.length l)%nat -> ((exists b, In b blocks /\ In i b /\ In j b) <-> nth_error l i = nth_error l j)) /\
  NoDup (List.concat blocks).
Proof.
  intros A D order l ND HI blocks. unfold blocks, partition_assignments_to_blocks. clear blocks.
  assert (BI : forall b i, In b (map (fun u => block_of u l) (order l)) -> In i b -> exists u, In u l /\ b = block_of u l /\ nth_error l i = Some u).
  { intros b i Hb Hi. apply in_map_iff in Hb. destruct Hb as (u & <- & Hu). exists u. split; [apply HI; exact Hu|]. split; [reflexivity|]. apply block_of_In. exact Hi. }
  assert (IB : forall i u, nth_error l i = Some u -> In (block_of u l) (map (fun u => block_of u l) (order l)) /\ In i (block_of u l)).
  { intros i u E. split; [apply in_map_iff; exists u; split; [reflexivity|apply HI; apply nth_error_In in E; exact E]|apply block_of_In; exact E]. }
  split; [|split; [|split]].
  - intros b Hb E. apply in_map_iff in Hb. destruct Hb as (u & Eu & Hu). apply HI in Hu. apply In_nth_error in Hu. destruct Hu as [i Ei]. destruct (IB i u Ei) as [_ Y].
    rewrite Eu, E in Y. destruct Y.
  - intros i. split.
    + intros (b & Hb & Hi). destruct (BI b i Hb Hi) as (u & _ & _ & E). apply nth_error_Some. congruence.
    + intros Hi. destruct (nth_error l i) as [u|] eqn:E; [|apply nth_error_None in E; lia]. exists (block_of u l). apply IB. exact E.
  - intros i j Hi Hj. split.
    + intros (b & Hb & H1 & H2). apply in_map_iff in Hb. destruct Hb as (u & <- & _). apply block_of_In in H1, H2. congruence.
    + intros E. destruct (nth_error l i) as [u|] eqn:Ei; [|apply nth_error_None in Ei; lia]. exists (block_of u l). split; [apply (IB i u Ei)|]. split; [apply (IB i u Ei)|apply (IB j u)]. congruence.
  - rewrite <- flat_map_concat_map. apply NoDup_flat_map; [exact ND|intros u _; apply block_of_NoDup|].
    intros u v i _ _ Hu Hv. apply block_of_In in Hu, Hv. congruence.
Qed.
Print Assumptions C46_blocks.

Example C46_blocks_case : NoDup (by_size [2; 0; 2; 5]) /\ (forall u, In u (by_size [2; 0; 2; 5]) <-> In u [2; 0; 2; 5]) /\
  partition_assignments_to_blocks by_size [2; 0; 2; 5] = [[1%nat]; [0%nat; 2%nat]; [3%nat]].
Proof. split; [apply by_size_ok|]. split; [apply by_size_ok|]. vm_compute. reflexivity. Qed.
