(** Proofs about the moves left to the engine. *)
From Coq Require Import List ZArith QArith Qcanon Reals Bool String Permutation Lia Sorted.
From Coq Require Import Relations.Relation_Operators.
From Verif Require Import Base Xr Samp Lgamma Prims Cgpm Lib SpecPrims PrimsInv SpecComp CompInv CompDens CompThm SimShape
  SpecTable SpecHist Table Gibbs Hist Walks SpecWalks WalksThm Trans Views ViewsThm ViewsThm2 ViewsThm3 ViewsThm4 ViewsThm5
  Hypers SpecHypers HypersThm Progress SpecProgress Crosscat HypersThm2 PropHypers CrosscatThm CrosscatThm2 CrosscatThm3.
From Verif Require Import Meta MetaThm Cpp SpecCpp CppThm CppThm2 CppThm3 EnsembleThm DependThm DependThm2.
From Verif Require Import SpecViews SpecCrosscat Depend SpecDepend.
Import ListNotations.
Local Open Scope Z_scope.

Lemma outcome_always : forall {A} (m : samp A) (P : A -> Prop) draws a, always m P -> outcome m draws a -> P a.
Proof.
  induction m as [x|ws k IH|l k IH|n p k IH|lo hi k IH|n k IH]; intros P draws a G O; cbn [always outcome] in *.
  - destruct O as [_ ->]. exact G.
  - destruct O as (i & H1 & H2 & H3). exact (IH i P draws a (G i H1 H2) H3).
  - destruct O as (q & H1 & H2). exact (IH q P draws a (G q H1) H2).
  - destruct O as (q & H2). exact (IH q P draws a (G q) H2).
  - destruct O as (z & rest & -> & H1 & H2). exact (IH z P rest a (G z H1) H2).
  - destruct O as (q & H1 & H2). exact (IH q P draws a (G q H1) H2).
Qed.

Lemma hypers_each_rts : forall c0 cols c, rts c0 c -> always (hypers_each c cols) (fun r => rts c0 (fst r)).
Proof.
  intros c0. induction cols as [|[o g] cols IH]; intros c K; cbn [hypers_each]; [exact K|].
  destruct g as [gs|e]; cbn [obind]; [|exact K]. destruct (get_cgpms_by_output_index c o) as [ds|e] eqn:E; cbn [obind]; [|exact K].
  apply always_bind. eapply always_imp; [|apply transition_hypers_adjusted]. intros r A.
  destruct (puts_all o c ds E (fst r) [] A) as (c' & P1 & P2 & _). rewrite app_nil_r in P1. rewrite P1. cbn [fst].
  assert (K' : rts c0 c') by (eapply rt_trans; [exact K|exact P2]). destruct (snd r); [apply IH; exact K'|exact K'].
Qed.

Lemma hypers_distributions_rts : forall g c outs, always (transition_hypers_distributions g c outs) (fun r => rts c (fst r)).
Proof.
  intros g c outs. unfold transition_hypers_distributions. destruct (oseq _); [|apply rt_refl]. apply any_order_always. intros os _. apply hypers_each_rts, rt_refl.
Qed.

Lemma hypers_row_divide_rts : forall g c outs, always (transition_hypers_row_divide g c outs) (fun r => rts c (fst r)).
Proof.
  intros g c outs. unfold transition_hypers_row_divide.
  match goal with |- always (match ?x with Ok _ => _ | Err _ => _ end) _ => destruct x end; [|apply rt_refl]. apply any_order_always. intros os _. apply hypers_each_rts, rt_refl.
Qed.

Lemma rts_grouped : forall X X' names rows views clusters, crosscat X -> Forall2 rts X X' -> grouped names rows views clusters X -> grouped names rows views clusters X'.
Proof.
  intros X X' names rows views clusters C F [G1 G2].
  assert (K : Forall2 (fun m m' => columns_of m' = columns_of m /\ forall r, seat m' r = seat m r) X X').
  { destruct C as [C _]. clear G1 G2. induction F as [|m m' l l' H F IH]; constructor; [|apply IH; intros; apply C; now right].
    destruct (view_rts m m' (C m (or_introl eq_refl)) H) as (_ & (_ & E & _) & S). auto. }
  assert (BK : forall m', In m' X' -> exists m, In m X /\ columns_of m' = columns_of m /\ forall r, seat m' r = seat m r) by (intros m' Hm; destruct (F2_in_r _ X X' m' K Hm) as (m & A & B); eauto).
  assert (FW : forall m, In m X -> exists m', In m' X' /\ columns_of m' = columns_of m /\ forall r, seat m' r = seat m r).
  { clear - K. induction K as [|m m' l l' H K IH]; intros x []; [subst; exists m'; split; [now left|exact H]|]. destruct (IH x H0) as (y & A & B). exists y. split; [now right|exact B]. }
  split.
  - intros o a p b Ho Hp. rewrite <- (G1 o a p b Ho Hp). split; intros (m & Hm & Hv & Hw).
    + destruct (BK m Hm) as (m0 & Hm0 & E & _). exists m0. rewrite <- E. auto.
    + destruct (FW m Hm) as (m0 & Hm0 & E & _). exists m0. rewrite E. auto.
  - intros o a part m Ho Ep Hm Hom r k r' l Hk Hl. destruct (BK m Hm) as (m0 & Hm0 & E & S). rewrite !S. rewrite E in Hom. eapply G2; eauto.
Qed.

Lemma rts_obeys : forall X X' Cd Ci, crosscat X -> Forall2 rts X X' -> obeys X Cd Ci -> obeys X' Cd Ci.
Proof.
  intros X X' Cd Ci C F [O1 O2].
  assert (SF : Forall2 still X X').
  { assert (K : forall m, In m X -> wf m /\ mixed m) by (intros m Hm; split; [apply good_wf, (crosscat_views X m C Hm)|apply (crosscat_mixed X m C Hm)]). clear - F K.
    induction F as [|m m' l l' H F IH]; constructor; [|apply IH; intros; apply K; now right]. destruct (K m (or_introl eq_refl)). apply retuned_still; assumption. }
  assert (T : forall v w, together X' v w <-> together X v w) by (intros v w; apply stays_together; [intros m Hm; apply (crosscat_mixed X m C Hm)|exact SF]).
  split; intros; rewrite T; eauto.
Qed.

Lemma refresh_ok : forall g X draws res, crosscat X -> outcome (refresh_hypers g (CProd X)) draws res ->
  (forall c, res = Ok c -> exists X', c = CProd X' /\ same_data X X' /\ Forall2 rts X X') /\
  (no_normal_uc X -> grids_for X (grids_columns (gibbs_sampler g)) (grids_dividers (gibbs_sampler g)) -> exists c, res = Ok c).
Proof.
  intros g X draws res C H. unfold refresh_hypers in H. destruct (outcome_bind _ _ _ _ H) as (d1 & d2 & p & -> & O1 & O2). clear H.
  assert (R1 := outcome_always _ _ _ _ (hypers_distributions_rts (gibbs_sampler g) (CProd X) None) O1). cbn beta in R1.
  destruct (rts_prod X (fst p) R1) as (Y & EY & FY). assert (SDY : same_data X Y).
  { destruct (crosscat_rts X (fst p) C R1) as (Y' & EY' & SD). assert (Y' = Y) as -> by congruence. exact SD. }
  destruct (snd p) as [u|e] eqn:Ep.
  - rewrite EY in O2. destruct (outcome_bind _ _ _ _ O2) as (e1 & e2 & q & -> & O3 & O4). clear O2.
    assert (R2 := outcome_always _ _ _ _ (hypers_row_divide_rts (gibbs_sampler g) (CProd Y) None) O3). cbn beta in R2.
    destruct (rts_prod Y (fst q) R2) as (W & EW & FW). assert (SDW : same_data Y W).
    { destruct (crosscat_rts Y (fst q) (proj1 SDY) R2) as (Y' & EY' & SD). assert (Y' = W) as -> by congruence. exact SD. }
    split.
    + intros c Ec. destruct (snd q) as [u'|e']; cbn [outcome] in O4; destruct O4 as [_ ->]; [|discriminate]. injection Ec as <-. exists W. split; [exact EW|].
      split; [eapply same_data_trans; eauto|]. clear - FY FW. revert W FW. induction FY as [|x y X Y T F IH]; intros W FW; inversion FW; subst; constructor; auto. eapply rt_trans; eauto.
    + intros NU GF. assert (A := outcome_always _ _ _ _ (hypers_row_divide_returns Y (gibbs_sampler g) None (proj1 SDY) (same_data_grids X Y _ _ SDY GF) ltac:(discriminate)) O3).
      cbn beta in A. rewrite A in O4. destruct O4 as [_ ->]. eauto.
  - destruct O2 as [_ ->]. split; [discriminate|]. intros NU GF.
    assert (A := outcome_always _ _ _ _ (hypers_distributions_returns X (gibbs_sampler g) None C NU GF ltac:(discriminate)) O1). cbn beta in A. congruence.
Qed.

Lemma importable_no_uc : forall X, importable X -> no_normal_uc X.
Proof. intros X (_ & _ & _ & T & _) v H. destruct (T v _ H) as [E|[n E]]; discriminate. Qed.

Lemma NoDup_app_l : forall {A} (a b : list A), NoDup (a ++ b) -> NoDup a.
Proof. intros A a b. induction a as [|x a IH]; intros H; [constructor|]. inversion H; subst. constructor; [|apply IH; assumption]. intros Y. apply H2, in_or_app. now left. Qed.

Lemma engine_move_ok : forall srt order scc engine g X N S kernels rowids cols rows, (forall l, Permutation (srt l) l) -> set_order order -> importable X -> rows_of X rows ->
  sensible X N S rowids cols (gibbs_Cd g) (scc (gibbs_Ci g)) ->
  well_named X (gibbs_Cd g) (gibbs_Ci g) -> NoDup (List.concat (gibbs_Cd g)) -> NoDup (map fst (scc (gibbs_Ci g))) ->
  (forall v w, In [v; w] (gibbs_Ci g) -> exists b, In (v, b) (scc (gibbs_Ci g)) /\ In w b) ->
  (forall seed rq obs, cpp_request srt scc (CProd X) N S kernels rowids cols (gibbs_Cd g) (gibbs_Ci g) (Some seed) = Ok (Some (rq, obs)) ->
     proper (List.length (flat_map columns_of X)) (List.length rows) rq (engine rq)) ->
  forall draws res, outcome (engine_move srt order scc engine g (CProd X) N S kernels rowids cols) draws res ->
    (forall c, res = Ok c -> exists X' seed rq obs, c = CProd X' /\ 0 <= seed < 2 ^ 32 - 1 /\
       cpp_request srt scc (CProd X) N S kernels rowids cols (gibbs_Cd g) (gibbs_Ci g) (Some seed) = Ok (Some (rq, obs)) /\
       same_data X X' /\ obeys X' (gibbs_Cd g) (gibbs_Ci g) /\
       grouped (flat_map columns_of X) rows (assignments (fst (engine rq))) (snd (engine rq)) X') /\
    (NoDup (tl draws) -> (forall z, In z (tl draws) -> ~ In z (flat_map outputs X)) ->
     grids_for X (grids_columns (gibbs_sampler g)) (grids_dividers (gibbs_sampler g)) -> exists c, res = Ok c).
Proof.
  intros srt order scc engine g X N S kernels rowids cols rows SP SO IM RO SE WN ND NS HS HE draws res H.
  unfold engine_move, with_seed in H. cbn [outcome] in H. destruct H as (seed & rest & -> & Hs & H).
  destruct (outcome_bind _ _ _ _ H) as (d1 & d2 & r & -> & O1 & O2). clear H. cbn [tl].
  destruct (request_ok srt scc X N S kernels rowids cols (gibbs_Cd g) (gibbs_Ci g) (Some seed) SP IM SE) as (rq & obs & rows' & code & ER & RO' & _).
  destruct (HE seed rq obs ER) as (ST & LV & OB).
  destruct (import_ok srt order scc engine X N S kernels rowids cols (gibbs_Cd g) (gibbs_Ci g) (Some seed) rq obs rows SP SO IM RO ER ST LV d1 r O1) as [IA IB].
  split.
  - intros c ->. destruct r as [c1|e]; [|destruct O2 as [_ O2]; discriminate]. destruct (IA c1 eq_refl) as (Y & -> & SD & GR).
    destruct (engine_obeys srt order scc engine X N S kernels rowids cols (gibbs_Cd g) (gibbs_Ci g) (Some seed) rq obs rows SP SO IM RO WN ND NS HS ER ST LV OB d1 (CProd Y) O1) as (Y' & EY & _ & OY).
    injection EY as <-. destruct (refresh_ok g Y d2 (Ok c) (proj1 SD) O2) as [RA _]. destruct (RA c eq_refl) as (X' & -> & SD' & F).
    exists X', seed, rq, obs. split; [reflexivity|]. split; [exact Hs|]. split; [exact ER|]. split; [eapply same_data_trans; eauto|].
    split; [exact (rts_obeys Y X' _ _ (proj1 SD) F OY)|exact (rts_grouped Y X' _ _ _ _ (proj1 SD) F GR)].
  - intros N1 N2 GF. destruct (IB (NoDup_app_l _ _ N1)) as (c1 & ->); [intros z Hz; apply N2, in_or_app; now left|].
    destruct (IA c1 eq_refl) as (Y & -> & SD & _). destruct (refresh_ok g Y d2 res (proj1 SD) O2) as [_ RB]. apply RB.
    + apply (same_data_typed X Y SD). apply importable_no_uc. exact IM.
    + exact (same_data_grids X Y _ _ SD GF).
Qed.

Lemma program_ok : forall legal respects logspace srt order scc engine X Cd Ci N S outs rows, partition_check respects -> spaced logspace ->
  (forall l, Permutation (srt l) l) -> set_order order -> importable X -> rows_of X rows ->
  sensible X N S None outs Cd (scc Ci) -> well_named X Cd Ci -> NoDup (List.concat Cd) -> NoDup (map fst (scc Ci)) ->
  (forall v w, In [v; w] Ci -> exists b, In (v, b) (scc Ci) /\ In w b) ->
  obeys X Cd Ci -> (Cd <> [] \/ Ci <> [] -> Permutation (flat_map columns_of X) (zrange (List.length (flat_map columns_of X))) /\ legal (List.length (flat_map columns_of X)) Cd Ci = Ok tt) ->
  (forall seed rq obs, cpp_request srt scc (CProd X) N S None None outs Cd Ci (Some seed) = Ok (Some (rq, obs)) ->
     proper (List.length (flat_map columns_of X)) (List.length rows) rq (engine rq)) ->
  forall draws res, outcome (default_program legal respects logspace srt order scc engine Cd Ci N S outs (CProd X)) draws res ->
    (forall c, res = Ok c -> exists X', c = CProd X' /\ same_data X X' /\ obeys X' Cd Ci) /\
    (NoDup (tl draws) -> (forall z, In z (tl draws) -> ~ In z (flat_map outputs X)) -> exists c, res = Ok c).
Proof.
  intros legal respects logspace srt order scc engine X Cd Ci N S outs rows PC SP SRT SO IM RO SE WN ND NS HS OB HL HE draws res H.
  assert (C := proj1 IM). assert (NE : X <> []) by apply IM. assert (NU := importable_no_uc X IM).
  assert (K : exists g, new_gibbs legal respects logspace Cd Ci (CProd X) = Ok g /\ grids_for X (grids_columns (gibbs_sampler g)) (grids_dividers (gibbs_sampler g)) /\ gibbs_Cd g = Cd /\ gibbs_Ci g = Ci).
  { assert (Z : exists g, new_gibbs legal respects logspace Cd Ci (CProd X) = Ok g).
    { destruct (some_constraint Cd Ci) eqn:SC.
      - assert (Y : Cd <> [] \/ Ci <> []) by (destruct Cd, Ci; try discriminate SC; first [left; discriminate|right; discriminate]).
        destruct (HL Y) as [P EL]. exact (proj1 (constructor_decides legal respects logspace X Cd Ci PC SP C NE NU WN Y P EL) OB).
      - destruct Cd, Ci; try discriminate. unfold new_gibbs. rewrite sheet_validated by exact C. cbn [obind validate_crosscat_dependencies].
        destruct (new_sampler_ok logspace (some_constraint [] []) X SP C NE NU) as (g & -> & _). cbn [obind]. eauto. }
    destruct Z as (g & Eg). exists g. split; [exact Eg|]. unfold new_gibbs in Eg. rewrite sheet_validated in Eg by exact C. cbn [obind] in Eg.
    destruct (validate_crosscat_dependencies legal respects (CProd X) Cd Ci); [|discriminate]. cbn [obind] in Eg.
    destruct (new_sampler_ok logspace (some_constraint Cd Ci) X SP C NE NU) as (s & Es & _ & GF). rewrite Es in Eg. cbn [obind] in Eg. injection Eg as <-. auto. }
  destruct K as (g & Eg & GF & <- & <-). unfold default_program in H. rewrite Eg in H. unfold transition_structure_cpp in H.
  destruct (engine_move_ok srt order scc engine g X N S None None outs rows SRT SO IM RO SE WN ND NS HS HE draws res H) as [A B]. split.
  - intros c Ec. destruct (A c Ec) as (X' & seed & rq & obs & -> & _ & _ & SD & OX & _). exists X'. auto.
  - intros N1 N2. exact (B N1 N2 GF).
Qed.

Lemma request_arguments : forall srt scc c N S kernels rowids cols Cd Ci seed rq obs (n : Z) (t : Qc),
  cpp_request srt scc c N S kernels rowids cols Cd Ci (Some seed) = Ok (Some (rq, obs)) -> steps_and_time N S = Ok (n, t) ->
  rq_steps rq = n /\ rq_time rq = t /\ rq_seed rq = seed /\ rq_kernels rq = match kernels with Some k => k | None => [] end.
Proof.
  intros srt scc c N S kernels rowids cols Cd Ci seed rq obs n t E ES. unfold cpp_request in E. rewrite ES in E. cbn [obind] in E.
  do 2 match type of E with obind ?x _ = _ => destruct x; [|discriminate]; cbn [obind] in E end.
  match type of E with match ?t with [] => _ | _ => _ end = _ => destruct t; [discriminate|] end.
  do 5 match type of E with obind ?x _ = _ => destruct x; [|discriminate]; cbn [obind] in E end. injection E as <- _. cbn. auto.
Qed.

Lemma rows_of_unique : forall X rows rows', rows_of X rows -> rows_of X rows' -> rows = rows'.
Proof.
  intros X rows rows' [S1 H1] [S2 H2]. apply sorted_perm_eq.
  - clear - S1. induction S1 as [|a l S1 IH F]; constructor; auto. eapply Forall_impl; [|exact F]. intros; lia.
  - clear - S2. induction S2 as [|a l S2 IH F]; constructor; auto. eapply Forall_impl; [|exact F]. intros; lia.
  - apply NoDup_Permutation.
    + clear - S1. induction S1 as [|a l S1 IH F]; constructor; auto. rewrite Forall_forall in F. intros Y. specialize (F a Y). lia.
    + clear - S2. induction S2 as [|a l S2 IH F]; constructor; auto. rewrite Forall_forall in F. intros Y. specialize (F a Y). lia.
    + intros r. rewrite H1, H2. tauto.
Qed.

Lemma engine_asked : forall srt order scc engine engine' g X N S kernels rowids cols rows n t, (forall l, Permutation (srt l) l) -> importable X -> rows_of X rows ->
  sensible X N S rowids cols (gibbs_Cd g) (scc (gibbs_Ci g)) -> NoDup (List.concat (gibbs_Cd g)) -> NoDup (map fst (scc (gibbs_Ci g))) ->
  steps_and_time N S = Ok (n, t) ->
  (forall rq, asks X rows n t (match kernels with Some k => k | None => [] end) rowids cols (gibbs_Cd g) (gibbs_Ci g) (scc (gibbs_Ci g)) rq -> engine rq = engine' rq) ->
  forall draws res, outcome (engine_move srt order scc engine g (CProd X) N S kernels rowids cols) draws res ->
    outcome (engine_move srt order scc engine' g (CProd X) N S kernels rowids cols) draws res.
Proof.
  intros srt order scc engine engine' g X N S kernels rowids cols rows n t SP IM RO SE ND NS ES HA draws res H.
  unfold engine_move, with_seed in *. cbn [outcome] in *. destruct H as (seed & rest & -> & Hs & H). exists seed, rest. split; [reflexivity|]. split; [exact Hs|].
  destruct (request_ok srt scc X N S kernels rowids cols (gibbs_Cd g) (gibbs_Ci g) (Some seed) SP IM SE) as (rq & obs & rows' & code & ER & RO' & _ & _ & _ & _ & _ & PC & PR).
  rewrite (rows_of_unique X rows' rows RO' RO) in PR.
  assert (E : engine rq = engine' rq).
  { apply HA. destruct (request_arguments _ _ _ _ _ _ _ _ _ _ _ _ _ n t ER ES) as (A1 & A2 & A3 & A4). split; [exact A1|]. split; [exact A2|]. split; [rewrite A3; exact Hs|]. split; [exact A4|].
    split; [exact PC|]. split; [exact PR|]. destruct (request_constraints _ _ _ _ _ _ _ _ _ _ _ _ _ (proj1 IM) ER) as [RD RI]. cbv zeta in RD, RI. assert (NC := cols_NoDup X (proj1 IM)). split.
    - destruct (gibbs_Cd g) as [|b Cd]; [exact RD|]. destruct RD as (d & ED & EQ). exists d. split; [exact EQ|]. apply (ensure_tells _ _ _ NC); [rewrite blocks_names; exact ND|exact ED].
    - destruct (gibbs_Ci g) as [|b Ci]; [exact RI|]. destruct RI as (d & ED & EQ). exists d. split; [exact EQ|]. apply (ensure_tells _ _ _ NC NS ED). }
  unfold transition_cpp in *. rewrite ER in *. rewrite <- E. exact H.
Qed.
