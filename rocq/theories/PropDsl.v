(** C59, C60, C61: the languages in which models are written. Statements use the model of the
    API (Dsl.v) and the specification (SpecDsl.v). *)
From Coq Require Import List ZArith QArith Qcanon Reals Bool String Permutation Lia Lra.
From Verif Require Import Base Xr Samp Lgamma Prims Cgpm Lib SpecPrims PrimsInv SpecComp CompInv CompDens CompThm PropPrims DemoComp PropComp
  SpecTable SpecHist Table Hist PropTable Walks SpecWalks WalksThm Views ViewsThm ViewsThm2 PropViews CrosscatThm PropCpp Sample Dsl
  SampleThm DslThm DslThm2 DslThm3 DslThm4 DslThm5.
From Verif Require Import SpecViews SpecSample SpecDsl.
Import ListNotations.
Local Open Scope string_scope.
Local Open Scope Z_scope.

(** ** C59 *)

(** Every AST that can be written down is written, and its text is read as the same AST: the
    same views, columns, distributions and arguments, the numbers to four decimals. *)
Theorem C59_round_trip : forall ast, ast <> [] -> (forall v, In v ast -> writable_view v) ->
  exists text ast', compile_ast_to_core_dsl ast = Ok text /\ parse_core_dsl_to_ast text = Ok ast' /\ Forall2 rounded_view ast ast'.
Proof.
  intros ast NE W. apply Forall_forall in W. exists (text_of (ast_lines ast)), (map reread_view ast). split; [|split].
  - apply ast_text, writable_hypers, W.
  - now apply parse_ast.
  - clear. induction ast as [|v ast IH]; constructor; [apply reread_view_rounded|exact IH].
Qed.
Print Assumptions C59_round_trip.

Lemma args_exact : forall d d', (forall k q, In (k, q) d -> four_decimals q) -> rounded_args d d' -> d' = d.
Proof.
  intros d d' E F. induction F as [|[k q] [k' q'] d d' [A B] F IH]; [reflexivity|]. cbn in A, B. subst k'. f_equal.
  - f_equal. apply rounded_exact; [|exact B]. apply (E k). now left.
  - apply IH. intros. eapply E. right. eassumption.
Qed.

Lemma option_exact : forall d d', exact_option d -> rounded_option d d' -> d' = d.
Proof.
  intros d d' E Rd. destruct d as [[|e l]|].
  - exfalso. now apply (proj1 (E [] eq_refl)).
  - destruct d' as [l'|]; [|destruct Rd]. destruct Rd as [_ F]. f_equal. eapply args_exact; [|exact F]. apply (E _ eq_refl).
  - destruct d'; [destruct Rd|reflexivity].
Qed.

Lemma primitive_exact : forall p p', exact_option (ast_distargs p) -> exact_option (ast_hypers p) -> rounded_primitive p p' -> p' = p.
Proof.
  intros [o n d h] [o' n' d' h'] D Hh (A & B & C & E). cbn in *. apply option_exact in C; [|exact D]. apply option_exact in E; [|exact Hh]. congruence.
Qed.

(** If all numbers have four decimals and no dict of arguments is empty, the AST read is the
    AST written. *)
Theorem C59_exact : forall ast, ast <> [] -> (forall v, In v ast -> writable_view v /\ exact_view v) ->
  exists text, compile_ast_to_core_dsl ast = Ok text /\ parse_core_dsl_to_ast text = Ok ast.
Proof.
  intros ast NE W. destruct (C59_round_trip ast NE (fun v V => proj1 (W v V))) as (text & ast' & E1 & E2 & F).
  exists text. split; [exact E1|]. rewrite E2. f_equal. clear NE E1 E2.
  induction F as [|[r ps] [r' ps'] l l' [A B] F IH]; [reflexivity|]. cbn [fst snd] in A, B. f_equal.
  - assert (X := proj2 (W (r, ps) (or_introl eq_refl))). unfold exact_view in X. cbn [fst snd] in X. f_equal.
    + apply primitive_exact; [apply X; now left|apply X; now left|exact A].
    + assert (Y : forall p, In p ps -> exact_option (ast_distargs p) /\ exact_option (ast_hypers p)) by (intros; apply X; now right).
      clear - B Y. induction B as [|p p' ps ps' C B IH]; [reflexivity|]. f_equal; [|apply IH; intros; apply Y; now right].
      apply primitive_exact; [apply Y; now left|apply Y; now left|exact C].
  - apply IH. intros. apply W. now right.
Qed.
Print Assumptions C59_exact.

(** Two views: a Categorical and a Poisson column; a Normal column with mean -1/3. *)
Definition demo_rows1 : ast_primitive := mkAst 100 "crp" None (Some [("alpha", half)]).
Definition demo_cat : ast_primitive := mkAst 1 "categorical" (Some [("k", qz 3)]) (Some [("alpha", half)]).
Definition demo_poi : ast_primitive := mkAst 2 "poisson" None (Some [("a", qz 2); ("b", half)]).
Definition demo_rows2 : ast_primitive := mkAst 101 "crp" None (Some [("alpha", qz 2)]).
Definition demo_nrm (m : Qc) : ast_primitive := mkAst 3 "normal" None (Some [("m", m); ("r", half); ("s", qz 1); ("nu", qz 2)]).
Definition minus_third : Qc := (- (1 / qz 3))%Qc.
Definition demo_ast (m : Qc) : list ast_view := [(demo_rows1, [demo_cat; demo_poi]); (demo_rows2, [demo_nrm m])].

Lemma demo_visible : visible half /\ visible (qz 1) /\ visible (qz 2).
Proof. unfold visible, qr. split; [|split]; cbn; unfold Q2R; cbn; lra. Qed.

Lemma demo_describes : forall m, describes_model (demo_ast m).
Proof.
  intros m. destruct demo_visible as (V1 & V2 & V3). split; [discriminate|]. split; [repeat constructor; cbn; intuition lia|].
  intros v [<-|[<-|[]]]; (split; [|split; [discriminate|]]).
  - exists half. split; [reflexivity|]. split; [now left|]. split; [reflexivity|exact V1].
  - intros p [<-|[<-|[]]].
    + exists (KCategory 3). eapply describes_categorical; try reflexivity; exact V1.
    + exists KCount. eapply describes_poisson; try reflexivity; [now left|exact V3|exact V1].
  - exists (qz 2). split; [reflexivity|]. split; [now left|]. split; [reflexivity|exact V3].
  - intros p [<-|[]]. exists (KReal true). eapply describes_normal; try reflexivity; [now left|exact V1|exact V2|exact V3].
Qed.

Lemma demo_writable : forall m v, In v (demo_ast m) -> writable_view v.
Proof. intros m v V. assert (X := model_writable _ (demo_describes m)). rewrite Forall_forall in X. auto. Qed.

Definition means (p : ast_primitive) : option Q := option_map this (lookup "m" (args_of (ast_hypers p))).

(** The text of the AST; the mean is written as -0.3333 and read as that. *)
Example C59_round_trip_case : demo_ast minus_third <> [] /\ (forall v, In v (demo_ast minus_third) -> writable_view v) /\
  (exists text, compile_ast_to_core_dsl (demo_ast minus_third) = Ok text /\
     split_at newline text =
       ["- view:"; "    row clustering model:"; "      - crp{id:100}:"; "          distargs:"; "          hypers:"; "            alpha: 0.5000";
        "    distribution models:";
        "      - categorical{id:1}:"; "          distargs:"; "            k: 3"; "          hypers:"; "            alpha: 0.5000";
        "      - poisson{id:2}:"; "          distargs:"; "          hypers:"; "            a: 2"; "            b: 0.5000";
        "- view:"; "    row clustering model:"; "      - crp{id:101}:"; "          distargs:"; "          hypers:"; "            alpha: 2";
        "    distribution models:";
        "      - normal{id:3}:"; "          distargs:"; "          hypers:"; "            m: -0.3333"; "            r: 0.5000"; "            s: 1"; "            nu: 2"; ""]) /\
  omap (fun ast => map means (flat_map snd ast)) (do text <- compile_ast_to_core_dsl (demo_ast minus_third); parse_core_dsl_to_ast text) =
    Ok [None; None; Some (-3333 # 10000)%Q].
Proof.
  split; [discriminate|]. split; [apply demo_writable|]. split; [|vm_compute; reflexivity].
  eexists. split; [reflexivity|]. vm_compute. reflexivity.
Qed.

Example C59_exact_case : forall v, In v (demo_ast half) -> writable_view v /\ exact_view v.
Proof.
  intros v V. split; [apply (demo_writable half), V|].
  assert (F0 : forall n, four_decimals (qz n)).
  { intros n. exists (n * 10000). apply qr_inj. rewrite qr_div by apply qz_10000. rewrite !qr_qz, mult_IZR. field. }
  assert (F1 : four_decimals half) by (exists 5000; apply Qc_is_canon; vm_compute; reflexivity).
  destruct V as [<-|[<-|[]]]; intros p P; cbn [fst snd In] in P; intuition; subst p;
    intros l; cbn; intros [= <-]; (split; [discriminate|]); cbn; intros k q Q; intuition; try congruence;
    match goal with Q : (_, _) = (_, q) |- _ => injection Q as <- <- end; (exact F1 || apply F0).
Qed.

(** More than four decimals are lost: two ASTs with the same text. *)
Theorem C59_lossy : exists m m', m <> m' /\ compile_ast_to_core_dsl (demo_ast m) = compile_ast_to_core_dsl (demo_ast m').
Proof. exists minus_third, (- (qz 3333 / qz 10000))%Qc. split; [discriminate|vm_compute; reflexivity]. Qed.
Print Assumptions C59_lossy.

(** An AST without views, and one with a view that has no columns, are written, but the text
    cannot be read: TypeError. *)
Theorem C59_empty_refuted :
  (exists text, compile_ast_to_core_dsl [] = Ok text /\ parse_core_dsl_to_ast text = Err TypeError) /\
  (exists text, compile_ast_to_core_dsl [(demo_rows1, [])] = Ok text /\ parse_core_dsl_to_ast text = Err TypeError).
Proof. split; eexists; (split; [reflexivity|vm_compute; reflexivity]). Qed.
Print Assumptions C59_empty_refuted.

(** ** C60 *)

(** Every AST that describes a model is built: a CrossCat model with one new view for every
    view of the AST, with its columns, types and hyperparameters, the numbers to four
    decimals. *)
Theorem C60_interpreted : forall ast, describes_model ast ->
  exists X, interpret_ast ast = Ok (CProd X) /\ crosscat X /\ Forall2 shows_view ast X.
Proof. exact interpret_ok. Qed.
Print Assumptions C60_interpreted.

Example C60_interpreted_case : describes_model (demo_ast minus_third) /\
  match interpret_ast (demo_ast minus_third) with
  | Ok (CProd [m1; m2]) => label_of m1 = 100 /\ columns_of m1 = [1; 2] /\ label_of m2 = 101 /\ columns_of m2 = [3] /\
      map (fun d => option_map this (lookup "m" (dist_get_hypers d))) (base_columns m2) = [Some (-3333 # 10000)%Q]
  | _ => False
  end.
Proof. split; [apply demo_describes|]. vm_compute. repeat split; reflexivity. Qed.

(** A model whose columns the languages know, converted to an AST and built from it, is the
    same model without its rows. *)
Theorem C60_reinterpreted : forall X, crosscat X -> X <> [] ->
  (forall m s, In m X -> divider m = Some s -> visible_hypers s) ->
  (forall m d, In m X -> In d (base_columns m) -> in_language d /\ visible_hypers d) ->
  exists ast X', convert_crosscat_to_ast (CProd X) = Ok ast /\ interpret_ast ast = Ok (CProd X') /\ crosscat X' /\ Forall2 emptied X X'.
Proof. exact reinterpret_ok. Qed.
Print Assumptions C60_reinterpreted.

Lemma demo_numbers_language :
  (forall m s, In m demo_numbers -> divider m = Some s -> visible_hypers s) /\
  (forall m d, In m demo_numbers -> In d (base_columns m) -> in_language d /\ visible_hypers d).
Proof.
  destruct demo_visible as (V1 & V2 & V3). change (qz 1) with 1%Qc in V2. split.
  - intros m s [<-|[<-|[]]]; [change (divider numbers2) with (Some (match numbers2 with CMix _ d _ _ => d | _ => cat1 end))|
      change (divider codes2) with (Some (match codes2 with CMix _ d _ _ => d | _ => cat1 end))]; intros [= <-] k q Q _; vm_compute in Q;
      destruct Q as [Q|[]]; injection Q as <- <-; exact V1.
  - intros m d [<-|[<-|[]]] D.
    + change (base_columns numbers2) with [cat1; nrm2] in D. destruct D as [<-|[<-|[]]].
      * split; [left; exists 3; reflexivity|]. intros k q [Q|[]] _. injection Q as <- <-. exact V1.
      * split; [right; right; reflexivity|]. intros k q Q NM. cbn in Q. intuition; match goal with Q : (_, _) = (_, q) |- _ => injection Q as <- <- end; (exact V1 || exact V2 || congruence).
    + change (base_columns codes2) with [cat3] in D. destruct D as [<-|[]].
      split; [left; exists 5; reflexivity|]. intros k q [Q|[]] _. injection Q as <- <-. exact V1.
Qed.

Example C60_reinterpreted_case : crosscat demo_numbers /\ demo_numbers <> [] /\
  (forall m s, In m demo_numbers -> divider m = Some s -> visible_hypers s) /\
  (forall m d, In m demo_numbers -> In d (base_columns m) -> in_language d /\ visible_hypers d).
Proof.
  split; [exact demo_numbers_ok|]. split; [discriminate|]. exact demo_numbers_language.
Qed.

(** Positive hyperparameters below 0.00005 are written as 0: a Poisson column with such a
    shape is not built, and a row divider with such a concentration is built with 0. *)
Definition tiny : Qc := (1 / qz 100000)%Qc.
Definition tiny_view : cgpm := new_flexmix (DCrp (crp_new 100 1%Qc)) (CProd [CDist (DPoi (mkPoi 2 [] 0 0%Qc 0%R tiny 1%Qc))]).
Definition tiny_rows : cgpm := new_flexmix (DCrp (crp_new 100 tiny)) (CProd [CDist cat1]).

Theorem C60_refuted : (0 < qr tiny)%R /\ crosscat [tiny_view] /\ crosscat [tiny_rows] /\
  (do ast <- convert_crosscat_to_ast (CProd [tiny_view]); interpret_ast ast) = Err AssertionError /\
  exists m s, (do ast <- convert_crosscat_to_ast (CProd [tiny_rows]); interpret_ast ast) = Ok (CProd [m]) /\
    divider m = Some s /\ dist_get_hypers s = [("alpha", 0%Qc)].
Proof.
  assert (T : (0 < qr tiny)%R) by (unfold qr, tiny; cbn; unfold Q2R; cbn; lra).
  assert (GV : forall m, new_view m -> NoDup (outputs m) -> crosscat [m]).
  { intros m NV ND. split; [|cbn [flat_map]; rewrite app_nil_r; exact ND].
    intros m' [<-|[]]. destruct (new_view_good _ NV) as (RE & Sh & K & _). split; [apply creachable_grown, RE|split; assumption]. }
  split; [exact T|]. split; [|split; [|split]].
  - apply GV; [|cbn; repeat constructor; cbn; intuition lia]. eexists _, [_]. split; [reflexivity|]. split; [|split; [reflexivity|split; [discriminate|]]].
    + apply (cr_flexible (DCrp (crp_new 100 1%Qc)) _ [0]).
      * exists (DCrp (crp_new 100 1%Qc)), []. split; [|reflexivity]. apply fresh_crp. exact one_pos.
      * reflexivity.
      * eapply (cr_product [CDist (DPoi (mkPoi 2 [] 0 0%Qc 0%R tiny 1%Qc))]); [|reflexivity]. intros c [<-|[]]; constructor. eexists _, []. split; [|reflexivity]. apply (fresh_poi 2 tiny 1%Qc). reflexivity.
      * cbn. intuition lia.
    + intros d [<-|[]]; split; (discriminate || reflexivity).
  - apply GV; [|cbn; repeat constructor; cbn; intuition lia]. exists (crp_new 100 tiny), [cat1]. split; [reflexivity|]. split; [|split; [reflexivity|split; [discriminate|]]].
    + apply (cr_flexible (DCrp (crp_new 100 tiny)) _ [0]).
      * exists (DCrp (crp_new 100 tiny)), []. split; [|reflexivity]. apply fresh_crp. exact T.
      * reflexivity.
      * apply (cr_product [CDist cat1]); [|reflexivity]. intros c [<-|[]]; constructor. exact cat1_reachable.
      * cbn. intuition lia.
    + intros d [<-|[]]; split; (discriminate || reflexivity).
  - vm_compute. reflexivity.
  - eexists _, _. split; [vm_compute; reflexivity|]. split; [reflexivity|]. cbn. do 2 f_equal. now apply Qc_is_canon.
Qed.
Print Assumptions C60_refuted.

(** A model with a Bernoulli column is converted to an AST, but cannot be built from it. *)
Theorem C60_bernoulli_refuted : crosscat [demo_new] /\
  exists ast, convert_crosscat_to_ast (CProd [demo_new]) = Ok ast /\ interpret_ast ast = Err KeyError.
Proof.
  split.
  - split.
    + intros m [<-|[]]. destruct (new_view_good _ demo_new_view) as (RE & Sh & K & _). split; [apply creachable_grown, RE|split; assumption].
    + cbn. repeat constructor; cbn; intuition lia.
  - eexists. split; [reflexivity|vm_compute; reflexivity].
Qed.
Print Assumptions C60_bernoulli_refuted.

(** ** C61 *)

(** Whatever is drawn: a random AST has the columns 0, 1, .. with the given distributions,
    each in exactly one view, row dividers numbered in order, and for every distribution all
    its hyperparameters, none negative. *)
Theorem C61_random : forall first distributions, (forall d, In d distributions -> known_distribution d) ->
  first + Z.of_nat (List.length distributions) <= 1000000 ->
  always (generate_random_ast first distributions) (fun r => exists ast, r = Ok ast /\ random_ast first distributions ast).
Proof. intros first ds K. apply random_ast_ok. now apply Forall_forall. Qed.
Print Assumptions C61_random.

Definition demo_distributions : list (string * option (dict string Qc)) :=
  [("normal", None); ("categorical", Some [("k", qz 3)]); ("poisson", None)].


Example C61_random_case : (forall d, In d demo_distributions -> known_distribution d) /\
  100000 + Z.of_nat (List.length demo_distributions) <= 1000000.
Proof. split; [intros d [<-|[<-|[<-|[]]]]; unfold known_distribution; cbn; auto|cbn; lia]. Qed.

(** [a] is an outcome of [m], the random numbers drawn being [draws]. *)
Fixpoint fed {A} (m : samp A) (draws : list Qc) (a : A) : Prop :=
  match m with
  | Ret b => draws = [] /\ a = b
  | Flip ws k => exists i, (i < List.length ws)%nat /\ (0 < nth i ws 0)%R /\ fed (k i) draws a
  | DrawQ l k => exists q rest, draws = q :: rest /\ law_ok l q /\ fed (k q) rest a
  | DrawNat _ _ k => exists n, fed (k n) draws a
  | DrawInt lo hi k => exists z, lo <= z < hi /\ fed (k z) draws a
  | DrawPerm n k => exists l, Permutation (seq 0 n) l /\ fed (k l) draws a
  end.

(** A number drawn and what is written for it: a multiple of 1/1000000 no further away than
    half of that. *)
Definition written6 (q h : Qc) : Prop :=
  (exists z, qr h = IZR z / 1000000)%R /\ (Rabs (qr h - qr q) <= 1 / 2000000)%R.

Lemma round6_written : forall q, written6 q (round6 q).
Proof.
  intros q. unfold written6, round6. rewrite (qr_parts q).
  set (n := Qnum (this q)). set (d := Zpos (Qden (this q))). assert (D : 0 < d) by (unfold d; lia).
  assert (Z0 : qz 1000000 <> 0%Qc) by (intros X; apply (f_equal qr) in X; rewrite qr_qz, qr_0 in X; lra).
  rewrite qr_div by exact Z0. rewrite !qr_qz. set (k := (2 * (n * 1000000) + d) / (2 * d)).
  split; [exists k; reflexivity|].
  assert (B : 2 * d * k <= 2 * (n * 1000000) + d < 2 * d * k + 2 * d).
  { unfold k. assert (X := Z.mul_div_le (2 * (n * 1000000) + d) (2 * d) ltac:(lia)).
    assert (Y := Z.mod_pos_bound (2 * (n * 1000000) + d) (2 * d) ltac:(lia)).
    assert (W := Z.div_mod (2 * (n * 1000000) + d) (2 * d) ltac:(lia)). lia. }
  destruct B as [B1 B2]. apply IZR_le in B1. apply IZR_lt in B2, D.
  do 4 rewrite ?plus_IZR, ?mult_IZR in B1. do 4 rewrite ?plus_IZR, ?mult_IZR in B2.
  assert (E : (IZR k / 1000000 - IZR n / IZR d = (IZR k * IZR d - 1000000 * IZR n) / (1000000 * IZR d))%R) by (field; lra).
  rewrite E. apply Rabs_le. split.
  - apply Rmult_le_reg_r with (1000000 * IZR d)%R; [lra|]. unfold Rdiv at 2. rewrite Rmult_assoc, Rinv_l by lra. lra.
  - apply Rmult_le_reg_r with (1000000 * IZR d)%R; [lra|]. unfold Rdiv at 1. rewrite Rmult_assoc, Rinv_l by lra. lra.
Qed.

Lemma fed_bind : forall {A B} (m : samp A) (f : A -> samp B) draws b, fed (sbind m f) draws b ->
  exists d1 d2 a, draws = (d1 ++ d2)%list /\ fed m d1 a /\ fed (f a) d2 b.
Proof.
  intros A B m f. induction m as [a|ws k IH|l k IH|g h k IH|lo hi k IH|n k IH]; cbn [sbind fed]; intros draws b.
  - intros H. exists [], draws, a. auto.
  - intros (i & L & W & X). destruct (IH _ _ _ X) as (d1 & d2 & a & -> & F1 & F2). exists d1, d2, a. split; [reflexivity|]. split; [eauto|exact F2].
  - intros (q & rest & -> & L & X). destruct (IH _ _ _ X) as (d1 & d2 & a & -> & F1 & F2). exists (q :: d1), d2, a. split; [reflexivity|]. split; [eauto 6|exact F2].
  - intros (i & X). destruct (IH _ _ _ X) as (d1 & d2 & a & -> & F1 & F2). exists d1, d2, a. split; [reflexivity|]. split; [eauto|exact F2].
  - intros (i & L & X). destruct (IH _ _ _ X) as (d1 & d2 & a & -> & F1 & F2). exists d1, d2, a. split; [reflexivity|]. split; [eauto|exact F2].
  - intros (i & L & X). destruct (IH _ _ _ X) as (d1 & d2 & a & -> & F1 & F2). exists d1, d2, a. split; [reflexivity|]. split; [eauto|exact F2].
Qed.

Lemma fed_hypers : forall names draws h, fed (sample_hyperparameters names) draws h -> Forall2 written6 draws (map snd h) /\ keys h = names.
Proof.
  induction names as [|k names IH]; intros draws h F; cbn [sample_hyperparameters] in F.
  - destruct F as [-> ->]. split; [constructor|reflexivity].
  - apply fed_bind in F. destruct F as (d1 & d2 & q & -> & F1 & F). apply fed_bind in F.
    destruct F as (d3 & d4 & h' & -> & F2 & F3). destruct F3 as [-> ->]. destruct (IH _ _ F2) as [G1 G2].
    cbn in F1. destruct F1 as (q0 & rest & -> & _ & -> & ->). rewrite app_nil_r. cbn [app map snd keys fst]. split.
    + constructor; [apply round6_written|exact G1].
    + f_equal. exact G2.
Qed.

(** The hyperparameters of a random distribution are the numbers drawn, in order, written with
    six decimals. *)
Theorem C61_written : forall name draws h, fed (generate_random_hyperparameters name) draws (Ok h) ->
  Forall2 written6 draws (map snd h) /\ keys h = hyper_names name.
Proof.
  intros name draws h F. unfold generate_random_hyperparameters in F.
  repeat match type of F with fed (if String.eqb name ?x then _ else _) _ _ => destruct (String.eqb_spec name x) as [->|_] end;
    try (apply fed_bind in F; destruct F as (d1 & d2 & h' & -> & F1 & -> & [= ->]); rewrite app_nil_r; apply fed_hypers; exact F1).
  destruct F as [_ F]. discriminate.
Qed.
Print Assumptions C61_written.

Example C61_written_case : fed (generate_random_hyperparameters "poisson") [(1 / qz 3)%Qc; qz 2] (Ok [("a", (qz 333333 / qz 1000000)%Qc); ("b", qz 2)]).
Proof.
  assert (P2 : (0 < qr (qz 2))%R) by (rewrite qr_qz; lra).
  assert (P3 : (0 < qr (1 / qz 3)%Qc)%R) by (unfold qr; cbn; unfold Q2R; cbn; lra).
  cbn. exists (1 / qz 3)%Qc. eexists. split; [reflexivity|]. split; [exact P3|].
  exists (qz 2). eexists. split; [reflexivity|]. split; [exact P2|]. split; [reflexivity|].
  assert (E1 : round6 (1 / qz 3)%Qc = (qz 333333 / qz 1000000)%Qc) by (apply Qc_is_canon; vm_compute; reflexivity).
  assert (E2 : round6 (qz 2) = qz 2) by (apply Qc_is_canon; vm_compute; reflexivity).
  rewrite E1, E2. reflexivity.
Qed.

(** A random AST whose hyperparameters are all large enough to be written is built: a
    CrossCat model as it describes. *)
Theorem C61_interpreted : forall first distributions, distributions <> [] -> (forall d, In d distributions -> column_distribution d) ->
  Z.of_nat (List.length distributions) <= first -> first + Z.of_nat (List.length distributions) <= 1000000 ->
  always (generate_random_ast first distributions) (fun r => exists ast, r = Ok ast /\
    ((forall v p h k q, In v ast -> In p (fst v :: snd v) -> ast_hypers p = Some h -> In (k, q) h -> k <> "m" -> visible q) ->
     exists X, interpret_ast ast = Ok (CProd X) /\ crosscat X /\ Forall2 shows_view ast X)).
Proof.
  intros first ds NE C L1 L2. eapply always_imp; [|apply C61_random; [|exact L2]].
  - intros r (ast & -> & RA). exists ast. split; [reflexivity|]. intros V. apply interpret_ok.
    apply (random_ast_describes first ds); auto. now apply Forall_forall.
  - intros d D. unfold known_distribution. destruct (C d D) as [(E & _)|([E|[E|[]]] & _)]; rewrite <- E; cbn; auto.
Qed.
Print Assumptions C61_interpreted.

Example C61_interpreted_case : demo_distributions <> [] /\ (forall d, In d demo_distributions -> column_distribution d) /\
  Z.of_nat (List.length demo_distributions) <= 100000 /\ 100000 + Z.of_nat (List.length demo_distributions) <= 1000000.
Proof.
  split; [discriminate|]. split; [|cbn; lia]. intros d [<-|[<-|[<-|[]]]]; unfold column_distribution, no_args; cbn; auto.
  left. split; [reflexivity|]. exists 3. split; [lia|reflexivity].
Qed.

Lemma possible_also : forall {A} (m : samp A) (P Q : A -> Prop), always m P -> possible m Q -> possible m (fun a => P a /\ Q a).
Proof.
  intros A m P Q. induction m as [a|ws k IH|l k IH|f g k IH|lo hi k IH|n k IH]; cbn [always possible].
  - auto.
  - intros F (i & L & W & X). exists i. auto.
  - intros F (q & L & X). exists q. auto.
  - intros F (n & X). exists n. auto.
  - intros F (z & L & X). exists z. auto.
  - intros F (p & L & X). exists p. auto.
Qed.

(** A positive draw can be rounded to 0: then the random AST cannot be built. *)
Theorem C61_refuted : possible (generate_random_ast 100000 [("poisson", None)]) (fun r => exists ast, r = Ok ast /\
  random_ast 100000 [("poisson", None)] ast /\ interpret_ast ast = Err AssertionError).
Proof.
  assert (T : law_ok (Gamma 1 1) (1 / qz 10000000)%Qc) by (cbn; unfold qr; cbn; unfold Q2R; cbn; lra).
  assert (X : possible (generate_random_ast 100000 [("poisson", None)]) (fun r => exists ast, r = Ok ast /\ interpret_ast ast = Err AssertionError)).
  { cbn. exists 1%Qc. split; [exact one_pos|]. rewrite (seat_customer_eq 1%Qc [] 0 one_pos). cbn.
    exists 0%nat. split; [lia|]. split; [unfold qr; cbn; unfold Q2R; cbn; lra|]. cbn.
    exists 1%Qc. split; [exact one_pos|]. exists (1 / qz 10000000)%Qc. split; [exact T|]. exists 1%Qc. split; [exact one_pos|].
    eexists. split; [reflexivity|]. vm_compute. reflexivity. }
  assert (Y : always (generate_random_ast 100000 [("poisson", None)]) (fun r => exists ast, r = Ok ast /\ random_ast 100000 [("poisson", None)] ast)).
  { apply C61_random; [intros d [<-|[]]; unfold known_distribution; cbn; auto|cbn; lia]. }
  eapply possible_imp; [|exact (possible_also _ _ _ Y X)]. intros r ((ast & -> & RA) & (ast' & [= <-] & E)). exists ast. auto.
Qed.
Print Assumptions C61_refuted.
