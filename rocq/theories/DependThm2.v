(** Proofs about dependence constraints: the constructor, and what the engine is sent. *)
From Coq Require Import List ZArith QArith Qcanon Reals Bool String Permutation Lia Sorted.
From Verif Require Import Base Xr Samp Lgamma Prims Cgpm Lib SpecPrims PrimsInv SpecComp CompInv CompDens CompThm SimShape
  SpecTable SpecHist Table Gibbs Hist Walks SpecWalks WalksThm Trans Views ViewsThm ViewsThm2 ViewsThm3 ViewsThm4 ViewsThm5
  Hypers SpecHypers HypersThm Progress SpecProgress Crosscat HypersThm2 PropHypers CrosscatThm CrosscatThm2 CrosscatThm3.
From Verif Require Import Meta MetaThm Cpp SpecCpp CppThm CppThm2 CppThm3 EnsembleThm DependThm.
From Verif Require Import SpecViews SpecCrosscat Depend SpecDepend.
Import ListNotations.
Local Open Scope Z_scope.

Lemma view_numbers_ok : forall X o i, crosscat X -> (lookup o (view_numbers (CProd X)) = Some i <-> exists m, nth_error X i = Some m /\ In o (outputs m)).
Proof.
  intros X o i C. unfold view_numbers. cbn [views_of].
  assert (ND : NoDup (keys (flat_map (fun p : nat * cgpm => map (fun o => (o, fst p)) (outputs (snd p))) (enum_from 0 X)))) by (unfold keys; rewrite index_keys; apply C).
  rewrite dict_of_NoDup by exact ND. split.
  - intros L. apply lookup_In in L. apply in_flat_map in L. destruct L as ([n m] & Hp & L). apply in_map_iff in L. destruct L as (o' & E & Ho). cbn [fst snd] in *.
    apply enum_from_In in Hp. destruct Hp as (j & -> & N). assert (o' = o) as -> by congruence. assert (i = j) as -> by (cbn in E; congruence). eauto.
  - intros (m & N & Ho). apply In_lookup; [exact ND|]. apply in_flat_map. exists (i, m). split; [apply enum_from_In; exists i; auto|]. apply in_map_iff. exists o. auto.
Qed.

Lemma one_index : forall X i j m m' o, crosscat X -> nth_error X i = Some m -> nth_error X j = Some m' -> In o (outputs m) -> In o (outputs m') -> i = j.
Proof.
  intros X i j m m' o C Ei Ej Ho Ho'. assert (A := proj2 (view_numbers_ok X o i C) (ex_intro _ m (conj Ei Ho))).
  assert (B := proj2 (view_numbers_ok X o j C) (ex_intro _ m' (conj Ej Ho'))). congruence.
Qed.

Lemma met_obeys : forall X Cd Ci, crosscat X -> (forall b v, In b Cd \/ In b Ci -> In v b -> In v (flat_map columns_of X)) ->
  (met (view_numbers (CProd X)) Cd Ci <-> obeys X Cd Ci).
Proof.
  intros X Cd Ci C WN. assert (OUT : forall m v, In m X -> In v (columns_of m) -> In v (outputs m)) by (intros m v Hm; apply column_output; apply (crosscat_views X m C Hm)).
  assert (AT : forall v, In v (flat_map columns_of X) -> exists i m, nth_error X i = Some m /\ In v (columns_of m) /\ In m X /\ lookup v (view_numbers (CProd X)) = Some i).
  { intros v Hv. apply in_flat_map in Hv. destruct Hv as (m & Hm & Hv). destruct (In_nth_error _ _ Hm) as (i & N). exists i, m. split; [exact N|]. split; [exact Hv|]. split; [exact Hm|].
    apply view_numbers_ok; [exact C|]. exists m. auto. }
  assert (TG : forall v w, In v (flat_map columns_of X) -> In w (flat_map columns_of X) -> (together X v w <-> lookup v (view_numbers (CProd X)) = lookup w (view_numbers (CProd X)))).
  { intros v w Hv Hw. destruct (AT v Hv) as (i & m & Ni & Hvm & Hm & Lv), (AT w Hw) as (j & m' & Nj & Hwm & Hm' & Lw). rewrite Lv, Lw. split.
    - intros (x & Hx & H1 & H2). destruct (In_nth_error _ _ Hx) as (k & Nk).
      rewrite (one_index X i k m x v C Ni Nk) by auto. rewrite (one_index X j k m' x w C Nj Nk) by auto. reflexivity.
    - intros [= ->]. assert (m' = m) as -> by congruence. exists m. auto. }
  split.
  - intros [M1 M2]. split.
    + intros b v w Hb Hv Hw. destruct (M1 b v w Hb Hv Hw) as (i & Lv & Lw). apply TG; [eapply WN; eauto|eapply WN; eauto|congruence].
    + intros v w Hp T. destruct (M2 v w Hp) as (i & j & Lv & Lw & N). apply TG in T; [congruence| |]; (apply (WN [v; w]); [now right|cbn; auto]).
  - intros [O1 O2]. split.
    + intros b v w Hb Hv Hw. assert (T := O1 b v w Hb Hv Hw). assert (Kv : In v (flat_map columns_of X)) by (eapply WN; eauto). assert (Kw : In w (flat_map columns_of X)) by (eapply WN; eauto).
      apply (TG v w Kv Kw) in T. destruct (AT v Kv) as (i & _ & _ & _ & _ & L). exists i. split; [exact L|congruence].
    + intros v w Hp. assert (Kv : In v (flat_map columns_of X)) by (apply (WN [v; w]); [now right|cbn; auto]). assert (Kw : In w (flat_map columns_of X)) by (apply (WN [v; w]); [now right|cbn; auto]).
      destruct (AT v Kv) as (i & _ & _ & _ & _ & L), (AT w Kw) as (j & _ & _ & _ & _ & L'). exists i, j. split; [exact L|]. split; [exact L'|]. intros ->.
      apply (O2 v w Hp). apply TG; [exact Kv|exact Kw|congruence].
Qed.

Lemma numbered_range : forall l, zsort l = zrange (List.length (zsort l)) <-> Permutation l (zrange (List.length l)).
Proof.
  intros l. assert (LS : List.length (zsort l) = List.length l) by (apply Permutation_length, zsort_perm). rewrite LS. split.
  - intros E. rewrite <- E. apply Permutation_sym, zsort_perm.
  - intros P. apply sorted_perm_eq; [apply zsort_sorted| |rewrite zsort_perm; exact P]. unfold zrange. generalize (List.length l). clear. intros n.
    generalize 0%nat. induction n as [|n IH]; intros i; cbn [seq map]; constructor; [apply IH|].
    apply Forall_forall. intros z Hz. apply in_map_iff in Hz. destruct Hz as (j & <- & Hj). apply in_seq in Hj. lia.
Qed.

Definition in_columns (X : list cgpm) (Cd Ci : list (list Z)) : Prop := forall b v, In b Cd \/ In b Ci -> In v b -> In v (flat_map columns_of X).

Lemma validate_ok : forall legal respects X Cd Ci, some_constraint Cd Ci = true -> crosscat X ->
  validate_crosscat_dependencies legal respects (CProd X) Cd Ci =
    if list_eq_dec Z.eq_dec (zsort (flat_map columns_of X)) (zrange (List.length (zsort (flat_map columns_of X)))) then
      do _ <- legal (List.length (flat_map columns_of X)) Cd Ci; do b <- respects (view_numbers (CProd X)) Cd Ci; oassert b
    else Err AssertionError.
Proof.
  intros legal respects X Cd Ci SC C. unfold validate_crosscat_dependencies. rewrite distribution_outputs by exact C. rewrite (Permutation_length (zsort_perm (flat_map columns_of X))).
  destruct Cd, Ci; [discriminate| | |]; (destruct (list_eq_dec _ _ _); reflexivity).
Qed.

Lemma constructor_accepts : forall legal respects logspace X Cd Ci g, partition_check respects -> crosscat X -> well_named X Cd Ci ->
  new_gibbs legal respects logspace Cd Ci (CProd X) = Ok g ->
  gibbs_Cd g = Cd /\ gibbs_Ci g = Ci /\ (constrained (gibbs_sampler g) = true <-> Cd <> [] \/ Ci <> []) /\ obeys X Cd Ci /\
  (Cd <> [] \/ Ci <> [] -> Permutation (flat_map columns_of X) (zrange (List.length (flat_map columns_of X)))).
Proof.
  intros legal respects logspace X Cd Ci g PC C WN E. unfold new_gibbs in E. rewrite sheet_validated in E by exact C. cbn [obind] in E.
  destruct (validate_crosscat_dependencies legal respects (CProd X) Cd Ci) as [u|e] eqn:EV; [|discriminate]. cbn [obind] in E.
  destruct (new_sampler logspace (some_constraint Cd Ci) (CProd X)) as [s|e] eqn:ES; [|discriminate]. cbn [obind] in E. injection E as <-. cbn [gibbs_Cd gibbs_Ci gibbs_sampler].
  assert (EC : constrained s = some_constraint Cd Ci).
  { unfold new_sampler in ES. repeat match type of ES with obind ?t _ = _ => destruct t; [|discriminate]; cbn [obind] in ES end. injection ES as <-. reflexivity. }
  assert (SC : some_constraint Cd Ci = true <-> Cd <> [] \/ Ci <> []).
  { destruct Cd, Ci; cbn; (split; [intros Y; try discriminate Y; first [left; discriminate|right; discriminate]|intros [Y|Y]; try reflexivity; congruence]). }
  split; [reflexivity|]. split; [reflexivity|]. rewrite EC. split; [exact SC|].
  destruct (some_constraint Cd Ci) eqn:ESC.
  - rewrite validate_ok in EV by assumption. destruct (list_eq_dec _ _ _) as [R|]; [|discriminate].
    destruct (legal (List.length (flat_map columns_of X)) Cd Ci); [|discriminate]. cbn [obind] in EV. destruct (respects (view_numbers (CProd X)) Cd Ci) as [b|] eqn:ER; [|discriminate].
    cbn [obind] in EV. destruct b; [|discriminate]. split.
    + apply met_obeys; [exact C|apply WN|]. apply PC. exact ER.
    + intros _. apply numbered_range. exact R.
  - split; [|intros Y; apply SC in Y; discriminate]. destruct Cd, Ci; try discriminate. split; [intros b v w []|intros v w []].
Qed.

Lemma constructor_decides : forall legal respects logspace X Cd Ci, partition_check respects -> spaced logspace -> crosscat X -> X <> [] -> no_normal_uc X -> well_named X Cd Ci ->
  Cd <> [] \/ Ci <> [] -> Permutation (flat_map columns_of X) (zrange (List.length (flat_map columns_of X))) -> legal (List.length (flat_map columns_of X)) Cd Ci = Ok tt ->
  (obeys X Cd Ci -> exists g, new_gibbs legal respects logspace Cd Ci (CProd X) = Ok g) /\
  (~ obeys X Cd Ci -> new_gibbs legal respects logspace Cd Ci (CProd X) = Err AssertionError).
Proof.
  intros legal respects logspace X Cd Ci PC SP C NE NU [WN WP] SC P EL.
  assert (ESC : some_constraint Cd Ci = true) by (destruct Cd, Ci; try reflexivity; destruct SC; congruence).
  unfold new_gibbs. rewrite sheet_validated by exact C. cbn [obind]. rewrite validate_ok by assumption.
  destruct (list_eq_dec _ _ _) as [R|R]; [|exfalso; apply R; apply numbered_range; exact P]. rewrite EL. cbn [obind].
  destruct (proj2 (PC (view_numbers (CProd X)) Cd Ci)) as (b & -> & Hb); [|exact WP|].
  { intros b v Hb Hv. assert (K := WN b v Hb Hv). apply in_flat_map in K. destruct K as (m & Hm & Hvm). destruct (In_nth_error _ _ Hm) as (i & N).
    assert (L := proj2 (view_numbers_ok X v i C) (ex_intro _ m (conj N (column_output m v (proj1 (proj2 (crosscat_views X m C Hm))) Hvm)))).
    apply lookup_In in L. apply in_map_iff. exists (v, i). auto. }
  rewrite (met_obeys X Cd Ci C WN) in Hb. cbn [obind]. split.
  - intros OB. apply Hb in OB. rewrite OB. cbn [oassert obind]. rewrite ESC. destruct (new_sampler_ok logspace true X SP C NE NU) as (g & -> & _). cbn [obind]. eauto.
  - intros NO. destruct b; [exfalso; apply NO, Hb; reflexivity|reflexivity].
Qed.

Lemma constructor_gaps : forall legal respects logspace X Cd Ci, crosscat X -> Cd <> [] \/ Ci <> [] ->
  ~ Permutation (flat_map columns_of X) (zrange (List.length (flat_map columns_of X))) -> new_gibbs legal respects logspace Cd Ci (CProd X) = Err AssertionError.
Proof.
  intros legal respects logspace X Cd Ci C SC NP.
  assert (ESC : some_constraint Cd Ci = true) by (destruct Cd, Ci; try reflexivity; destruct SC; congruence).
  unfold new_gibbs. rewrite sheet_validated by exact C. cbn [obind]. rewrite validate_ok by assumption.
  destruct (list_eq_dec _ _ _) as [R|R]; [exfalso; apply NP, numbered_range; exact R|reflexivity].
Qed.

(** ** What the engine is sent *)

Lemma X_L_constraints : forall scc c M XD Cd Ci xl, get_crosscat_X_L scc c M XD Cd Ci = Ok xl ->
  let inverse := dict_zip (get_distribution_outputs c) (seq 0 (List.length (get_distribution_outputs c))) in
  match Cd with [] => dependent xl = None | _ => exists d, ensure inverse (flat_map (fun b => map (fun col => (col, b)) b) Cd) = Ok d /\ dependent xl = Some d end /\
  match Ci with [] => independent xl = None | _ => exists d, ensure inverse (scc Ci) = Ok d /\ independent xl = Some d end.
Proof.
  intros scc c M XD Cd Ci xl E. cbv zeta. unfold get_crosscat_X_L in E.
  do 5 match type of E with obind ?t _ = _ => destruct t; [|discriminate]; cbn [obind] in E end.
  destruct Cd as [|b Cd], Ci as [|p Ci].
  - cbn [obind] in E. injection E as <-. split; reflexivity.
  - cbn [obind] in E. destruct (ensure _ (scc (p :: Ci))) as [d|] eqn:ED; [|discriminate]. cbn [omap obind] in E. injection E as <-. split; [reflexivity|]. exists d. auto.
  - destruct (ensure _ (flat_map _ (b :: Cd))) as [d|] eqn:ED; [|discriminate]. cbn [omap obind] in E. injection E as <-. split; [|reflexivity]. exists d. auto.
  - destruct (ensure _ (flat_map _ (b :: Cd))) as [d|] eqn:ED; [|discriminate]. cbn [omap obind] in E.
    destruct (ensure _ (scc (p :: Ci))) as [d'|] eqn:ED'; [|discriminate]. cbn [omap obind] in E. injection E as <-. split; [exists d; auto|exists d'; auto].
Qed.

Lemma request_constraints : forall srt scc X N S kernels rowids cols Cd Ci seed rq obs, crosscat X -> cpp_request srt scc (CProd X) N S kernels rowids cols Cd Ci seed = Ok (Some (rq, obs)) ->
  let inverse := dict_zip (flat_map columns_of X) (seq 0 (List.length (flat_map columns_of X))) in
  match Cd with [] => dependent (rq_X_L rq) = None | _ => exists d, ensure inverse (flat_map (fun b => map (fun col => (col, b)) b) Cd) = Ok d /\ dependent (rq_X_L rq) = Some d end /\
  match Ci with [] => independent (rq_X_L rq) = None | _ => exists d, ensure inverse (scc Ci) = Ok d /\ independent (rq_X_L rq) = Some d end.
Proof.
  intros srt scc X N S kernels rowids cols Cd Ci seed rq obs C E. cbv zeta. unfold cpp_request in E.
  do 3 match type of E with obind ?t _ = _ => destruct t; [|discriminate]; cbn [obind] in E end.
  match type of E with match ?t with [] => _ | _ => _ end = _ => destruct t; [discriminate|] end.
  do 4 match type of E with obind ?t _ = _ => destruct t; [|discriminate]; cbn [obind] in E end.
  match type of E with obind ?t _ = _ => destruct t as [xl|] eqn:EX; [|discriminate]; cbn [obind] in E end. injection E as <- _. cbn [rq_X_L].
  apply X_L_constraints in EX. cbv zeta in EX. rewrite distribution_outputs in EX by exact C. exact EX.
Qed.

Lemma ensure_tells : forall (names : list Z) l d, NoDup names -> NoDup (map fst l) -> ensure (dict_zip names (seq 0 (List.length names))) l = Ok d -> tells names l d.
Proof.
  intros names l d ND NL E. unfold ensure in E.
  match type of E with obind ?t _ = _ => destruct t as [es|] eqn:EE; [|discriminate] end. cbn [obind] in E. injection E as <-.
  assert (IX : forall o i, dget o (dict_zip names (seq 0 (List.length names))) = Ok i -> nth_error names i = Some o).
  { intros o i Ei. destruct (in_dec Z.eq_dec o names) as [Ho|Ho]; [destruct (index_dict names o ND Ho) as (j & Ej & N); assert (i = j) as -> by congruence; exact N|].
    exfalso. unfold dget in Ei. destruct (lookup o (dict_zip names (seq 0 (List.length names)))) as [j|] eqn:L; [|discriminate]. apply lookup_In in L.
    apply Ho. rewrite <- (dict_zip_keys names (seq 0 (List.length names)) ND) by (now rewrite seq_length). apply in_map_iff. exists (o, j). auto. }
  assert (F : Forall2 (fun (p : Z * list Z) (e : nat * list nat) => nth_error names (fst e) = Some (fst p) /\ positions names (snd p) (snd e)) l es).
  { clear NL. revert es EE. induction l as [|[v b] l IH]; intros es EE; cbn [map oseq] in EE; [injection EE as <-; constructor|]. cbn [fst snd] in EE.
    destruct (dget v (dict_zip names (seq 0 (List.length names)))) as [i|] eqn:Ei; [|discriminate]. cbn [obind] in EE.
    destruct (oseq (map (fun c => dget c (dict_zip names (seq 0 (List.length names)))) b)) as [js|] eqn:Ej; [|discriminate]. cbn [obind] in EE.
    match type of EE with match ?t with Ok _ => _ | Err _ => _ end = _ => destruct t as [es'|] eqn:E'; [|discriminate] end. injection EE as <-. constructor; [|apply IH; reflexivity].
    cbn [fst snd]. split; [apply IX; exact Ei|]. clear - Ej IX. revert js Ej. induction b as [|w b IH]; intros js Ej; cbn [map oseq] in Ej; [injection Ej as <-; constructor|].
    destruct (dget w (dict_zip names (seq 0 (List.length names)))) as [i|] eqn:Ei; [|discriminate]. cbn [obind] in Ej.
    destruct (oseq (map (fun c => dget c (dict_zip names (seq 0 (List.length names)))) b)) as [js'|] eqn:E'; [|discriminate]. cbn [obind] in Ej. injection Ej as <-.
    constructor; [apply IX; exact Ei|apply IH; reflexivity]. }
  assert (NK : NoDup (keys es)).
  { clear EE. unfold keys. revert NL. induction F as [|[v b] [i js] l es [H1 _] F IH]; intros NL; cbn [map fst] in *; constructor; inversion NL; subst; [|apply IH; assumption].
    intros Hi. apply H2. apply in_map_iff in Hi. destruct Hi as ([i' js'] & E & Hi). cbn [fst] in E. subst i'. clear - F Hi H1. induction F as [|[v' b'] [i'' js''] l es [H2 _] F IH]; [destruct Hi|].
    cbn [fst map] in *. destruct Hi as [E|Hi]; [|right; apply IH; exact Hi]. left. assert (i'' = i) by congruence. congruence. }
  rewrite dict_of_NoDup by exact NK. intros i js. split.
  - intros L. apply lookup_In in L. clear - F L. induction F as [|[v b] [i' js'] l es [H1 H2] F IH]; [destruct L|]. cbn [fst snd] in *. destruct L as [E|L].
    + assert (i' = i) as -> by congruence. assert (js' = js) as -> by congruence. exists v, b. split; [now left|auto].
    + destruct (IH L) as (v' & b' & A & B). exists v', b'. split; [now right|exact B].
  - intros (v & b & Hp & N & PB). apply In_lookup; [exact NK|].
    assert (K : exists i' js', In (i', js') es /\ nth_error names i' = Some v /\ positions names b js').
    { clear - F Hp. induction F as [|[v' b'] [i' js'] l es [H1 H2] F IH]; [destruct Hp|]. cbn [fst snd] in *. destruct Hp as [E|Hp].
      - assert (v' = v) as -> by congruence. assert (b' = b) as -> by congruence. exists i', js'. split; [now left|auto].
      - destruct (IH Hp) as (i2 & j2 & A & B). exists i2, j2. split; [now right|exact B]. }
    destruct K as (i' & js' & He & N' & PB').
    assert (AT : forall a b o, nth_error names a = Some o -> nth_error names b = Some o -> a = b).
    { intros a1 a2 o E1 E2. apply (proj1 (NoDup_nth_error names) ND); [apply nth_error_Some; congruence|congruence]. }
    assert (i' = i) as <- by (eapply AT; eauto). assert (js' = js) as <-; [|exact He].
    clear - PB PB' AT. unfold positions in *. revert js PB. induction PB' as [|w j b js' H F IH]; intros js PB; inversion PB; subst; [reflexivity|]. f_equal; [eapply AT; eauto|apply IH; assumption].
Qed.

Lemma blocks_names : forall (Cd : list (list Z)), map fst (flat_map (fun b => map (fun col => (col, b)) b) Cd) = List.concat Cd.
Proof. induction Cd as [|b Cd IH]; [reflexivity|]. cbn [flat_map List.concat]. rewrite map_app, IH, map_map. cbn [fst]. now rewrite map_id. Qed.

Lemma engine_obeys : forall srt order scc engine X N S kernels rowids cols Cd Ci seed rq obs rows, (forall l, Permutation (srt l) l) -> set_order order -> importable X -> rows_of X rows ->
  well_named X Cd Ci -> NoDup (List.concat Cd) -> NoDup (map fst (scc Ci)) -> (forall v w, In [v; w] Ci -> exists b, In (v, b) (scc Ci) /\ In w b) ->
  cpp_request srt scc (CProd X) N S kernels rowids cols Cd Ci seed = Ok (Some (rq, obs)) ->
  structure (List.length (flat_map columns_of X)) (List.length rows) (assignments (fst (engine rq))) (snd (engine rq)) ->
  List.length (view_states (fst (engine rq))) = List.length (snd (engine rq)) ->
  obedient rq (assignments (fst (engine rq))) ->
  forall draws c, outcome (transition_cpp srt order scc engine (CProd X) N S kernels rowids cols Cd Ci seed) draws (Ok c) ->
    exists X', c = CProd X' /\ same_data X X' /\ obeys X' Cd Ci.
Proof.
  intros srt order scc engine X N S kernels rowids cols Cd Ci seed rq obs rows SP SO IM RO WN ND NS HS ER ST LV [OB1 OB2] draws c OC.
  destruct (import_ok srt order scc engine X N S kernels rowids cols Cd Ci seed rq obs rows SP SO IM RO ER ST LV draws (Ok c) OC) as [A _].
  destruct (A c eq_refl) as (X' & -> & SD & [G _]). exists X'. split; [reflexivity|]. split; [exact SD|]. assert (C := proj1 IM). assert (NC := cols_NoDup X C).
  destruct (request_constraints srt scc X N S kernels rowids cols Cd Ci seed rq obs C ER) as [RD RI]. cbv zeta in RD, RI.
  set (names := flat_map columns_of X) in *. set (views := assignments (fst (engine rq))) in *.
  assert (LN : List.length views = List.length names) by apply ST.
  assert (VW : forall i v, nth_error names i = Some v -> exists a, nth_error views i = Some a /\ In (v, a) (combine names views)).
  { intros i v Ei. destruct (nth_error views i) as [a|] eqn:Ea.
    - exists a. split; [reflexivity|]. apply (nth_error_combine _ _ i); assumption.
    - apply nth_error_None in Ea. assert (i < List.length names)%nat by (apply nth_error_Some; congruence). lia. }
  assert (IXN : forall v, In v names -> exists i, nth_error names i = Some v) by (intros v Hv; apply In_nth_error in Hv; exact Hv).
  assert (PSX : forall b, (forall w, In w b -> In w names) -> exists js, positions names b js).
  { intros b Hb. induction b as [|w b IH]; [exists []; constructor|]. destruct (IXN w (Hb w (or_introl eq_refl))) as (i & Ei). destruct IH as (js & F); [intros; apply Hb; now right|]. exists (i :: js). constructor; assumption. }
  assert (PIN : forall b js w, positions names b js -> In w b -> exists j, In j js /\ nth_error names j = Some w).
  { intros b js w F Hw. induction F as [|w' j b js E F IH]; [destruct Hw|]. destruct Hw as [->|Hw]; [exists j; split; [now left|exact E]|]. destruct (IH Hw) as (j' & J1 & J2). exists j'. split; [now right|exact J2]. }
  split.
  - intros b v w Hb Hv Hw. destruct Cd as [|b0 Cd]; [destruct Hb|]. destruct RD as (d & ED & EQ).
    assert (TD := ensure_tells names _ d NC ltac:(rewrite blocks_names; exact ND) ED).
    assert (Nv : In v names) by (apply (proj1 WN b v); auto). destruct (IXN v Nv) as (i & Ei).
    destruct (PSX b) as (js & PB); [intros u Hu; apply (proj1 WN b u); auto|]. destruct (PIN b js w PB Hw) as (j & Hj & Ej).
    assert (L : lookup i d = Some js). { apply TD. exists v, b. split; [|auto]. apply in_flat_map. exists b. split; [exact Hb|]. apply in_map_iff. exists v. auto. }
    assert (E := OB1 d i js j EQ L Hj). destruct (VW i v Ei) as (a & Ea & Ia), (VW j w Ej) as (a' & Ea' & Ia'). apply (G v a w a' Ia Ia'). congruence.
  - intros v w Hp T. destruct Ci as [|b0 Ci]; [destruct Hp|]. destruct RI as (d & ED & EQ). assert (TD := ensure_tells names _ d NC NS ED).
    destruct (HS v w Hp) as (b & Hb & Hw). assert (Nv : In v names) by (apply (proj1 WN [v; w] v); cbn; auto). destruct (IXN v Nv) as (i & Ei).
    assert (PB : exists js, positions names b js).
    { clear - ED Hb NC IXN. unfold ensure in ED. match type of ED with obind ?t _ = _ => destruct t as [es|] eqn:EE; [|discriminate] end. clear ED.
      revert es EE. induction (scc (b0 :: Ci)) as [|[v' b'] l IH]; intros es EE; [destruct Hb|]. cbn [map oseq fst snd] in EE.
      destruct (dget v' (dict_zip names (seq 0 (List.length names)))) as [i|]; [|discriminate]. cbn [obind] in EE.
      destruct (oseq (map (fun c => dget c (dict_zip names (seq 0 (List.length names)))) b')) as [js|] eqn:Ej; [|discriminate]. cbn [obind] in EE.
      match type of EE with match ?t with Ok _ => _ | Err _ => _ end = _ => destruct t as [es'|] eqn:E'; [|discriminate] end. destruct Hb as [E|Hb]; [|apply (IH Hb es' eq_refl)].
      assert (b' = b) as -> by congruence. exists js. clear - Ej NC. revert js Ej. induction b as [|w b IH]; intros js Ej; cbn [map oseq] in Ej; [injection Ej as <-; constructor|].
      destruct (dget w (dict_zip names (seq 0 (List.length names)))) as [i|] eqn:Ei; [|discriminate]. cbn [obind] in Ej.
      destruct (oseq (map (fun c => dget c (dict_zip names (seq 0 (List.length names)))) b)) as [js'|] eqn:E'; [|discriminate]. cbn [obind] in Ej. injection Ej as <-.
      constructor; [|apply IH; reflexivity]. unfold dget in Ei. destruct (lookup w (dict_zip names (seq 0 (List.length names)))) as [j|] eqn:L; [|discriminate].
      assert (Hw : In w names). { rewrite <- (dict_zip_keys names (seq 0 (List.length names)) NC) by (now rewrite seq_length). apply lookup_In in L. apply in_map_iff. exists (w, j). auto. }
      destruct (index_dict names w NC Hw) as (j' & Ej' & N). unfold dget in Ej'. rewrite L in Ej'. congruence. }
    destruct PB as (js & PB). destruct (PIN b js w PB Hw) as (j & Hj & Ej).
    assert (L : lookup i d = Some js) by (apply TD; exists v, b; auto).
    assert (E := OB2 d i js j EQ L Hj). destruct (VW i v Ei) as (a & Ea & Ia), (VW j w Ej) as (a' & Ea' & Ia'). apply E. apply (G v a w a' Ia Ia') in T. congruence.
Qed.
