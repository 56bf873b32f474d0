(** C62, C63: traces rendered in the embedded DSL and for VentureScript. Statements use the
    model of the API (Dsl.v) and the specification (SpecDsl.v). *)
From Coq Require Import List ZArith QArith Qcanon Reals Bool String Permutation Sorted Lia Lra.
From Verif Require Import Base Xr Samp Lgamma Prims Cgpm Lib SpecPrims PrimsInv SpecComp CompInv CompDens CompThm SimShape PropPrims DemoComp PropComp
  SpecTable SpecHist Table Gibbs Hist PropTable Walks SpecWalks WalksThm Views ViewsThm ViewsThm2 PropViews CrosscatThm PropCpp Sample Dsl
  SampleThm PropSample DslThm DslThm2 DslThm4 DslThm5 DslThm6 DslThm7 PropDsl.
From Verif Require Import SpecViews SpecSample SpecDsl.
Import ListNotations.
Local Open Scope string_scope.
Local Open Scope Z_scope.

(** ** C62 *)

(** A model with rows, recorded in the order of their clusters, is rendered as a program;
    the program runs without a random choice and builds a model with the same table: the same
    columns, cells and clusters. *)
Theorem C62_trace : forall X, crosscat X -> X <> [] ->
  (forall m s, In m X -> divider m = Some s -> visible_hypers s) ->
  (forall m d, In m X -> In d (base_columns m) -> in_language d /\ visible_hypers d) ->
  (forall m, In m X -> in_cluster_order m /\ no_empty_rows m) ->
  exists program X', render_trace_in_embedded_dsl (CProd X) = Ok program /\ execute_trace program = Ret (Ok (CProd X')) /\
    crosscat X' /\ Forall2 replayed X X'.
Proof. exact trace_ok. Qed.
Print Assumptions C62_trace.

Definition numbers_rows : list (Z * Z) := [(4, 0); (6, 1)].
Definition codes_rows : list (Z * Z) := [(6, 0); (4, 0)].

Lemma rows_at : forall m l o, consistent m -> recorded_rows m l ->
  forallb (fun p => match cell m (fst p) o with Some _ => true | None => false end) l = true -> no_empty_rows m.
Proof.
  intros m l o K R F r E. rewrite (seats_are m l r K R) in E. destruct (lookup r l) as [t|] eqn:L; [|contradiction E; reflexivity].
  apply lookup_In in L. rewrite forallb_forall in F. specialize (F _ L). cbn [fst] in F. exists o. destruct (cell m r o) as [x|]; [eauto|discriminate].
Qed.

Lemma numbers_recorded : recorded_rows numbers2 numbers_rows.
Proof. eexists. split; vm_compute; reflexivity. Qed.
Lemma codes_recorded : recorded_rows codes2 codes_rows.
Proof. eexists. split; vm_compute; reflexivity. Qed.

Example C62_trace_case : crosscat demo_numbers /\ demo_numbers <> [] /\
  (forall m s, In m demo_numbers -> divider m = Some s -> visible_hypers s) /\
  (forall m d, In m demo_numbers -> In d (base_columns m) -> in_language d /\ visible_hypers d) /\
  (forall m, In m demo_numbers -> in_cluster_order m /\ no_empty_rows m) /\
  omap snd (render_trace_in_embedded_dsl (CProd demo_numbers)) =
    Ok [(4, [(9, vz 0); (1, vz 2); (2, VQ half)]); (6, [(9, vz 1); (1, VNan); (2, vz 1)]); (6, [(19, vz 0); (3, vz 3)]); (4, [(19, vz 0); (3, vz 1)])].
Proof.
  split; [exact demo_numbers_ok|]. split; [discriminate|]. split; [exact (proj1 demo_numbers_language)|]. split; [exact (proj2 demo_numbers_language)|]. split.
  - intros m [<-|[<-|[]]].
    + split; [exists numbers_rows; split; [exact numbers_recorded|split; [discriminate|]]; repeat constructor; cbn; lia|].
      apply (rows_at _ numbers_rows 2); [exact (proj2 (proj2 numbers_good))|exact numbers_recorded|vm_compute; reflexivity].
    + split; [exists codes_rows; split; [exact codes_recorded|split; [discriminate|]]; repeat constructor; cbn; lia|].
      apply (rows_at _ codes_rows 3); [exact (proj2 (proj2 codes_good))|exact codes_recorded|vm_compute; reflexivity].
  - vm_compute. reflexivity.
Qed.

(** In general the clusters are not kept: rows 0, 1, 2, 3 were recorded in clusters 0, 0, 1, 0;
    in the model built from the rendered trace, row 2 is with rows 0 and 1 and row 3 is
    alone. *)
Definition apart0 : cgpm := new_flexmix (DCrp (crp_new 9 half)) (CProd [CDist cat1]).
Definition apart1 : cgpm := state_of (observe apart0 0 [(9, vz 0); (1, vz 0)] []).
Definition apart2 : cgpm := state_of (observe apart1 1 [(9, vz 0); (1, vz 1)] []).
Definition apart3 : cgpm := state_of (observe apart2 2 [(9, vz 1); (1, vz 2)] []).
Definition apart4 : cgpm := state_of (observe apart3 3 [(9, vz 0); (1, vz 1)] []).
Definition apart_rows : list (Z * Z) := [(0, 0); (1, 0); (2, 1); (3, 0)].

Lemma apart_new : new_view apart0.
Proof.
  exists (crp_new 9 half), [cat1]. split; [reflexivity|]. split; [|split; [reflexivity|split; [discriminate|]]].
  - apply (cr_flexible (DCrp (crp_new 9 half)) _ [0]).
    + exists (DCrp (crp_new 9 half)), []. split; [|reflexivity]. apply fresh_crp. exact half_pos.
    + reflexivity.
    + apply (cr_product [CDist cat1]); [|reflexivity]. intros c [<-|[]]; constructor. exact cat1_reachable.
    + cbn. intuition lia.
  - intros d [<-|[]]; split; (discriminate || reflexivity).
Qed.

Lemma apart_good : good apart4 /\ good apart2.
Proof.
  assert (H1 : history apart0 [EObserve 0 [(9, vz 0); (1, vz 0)]] apart1).
  { apply (h_step apart0 [] apart0); [constructor|]. apply observe_happens; [repeat constructor; cbn; intuition lia|intros y [= <-]; eexists; reflexivity|vm_compute; reflexivity]. }
  assert (H2 := fun H => h_step apart0 _ apart1 (EObserve 1 [(9, vz 0); (1, vz 1)]) apart2 H1 H). cbn [app] in H2.
  assert (H2' : history apart0 [EObserve 0 [(9, vz 0); (1, vz 0)]; EObserve 1 [(9, vz 0); (1, vz 1)]] apart2).
  { apply H2. apply observe_happens; [repeat constructor; cbn; intuition lia|intros y [= <-]; eexists; reflexivity|vm_compute; reflexivity]. }
  assert (H3 := fun H => h_step apart0 _ apart2 (EObserve 2 [(9, vz 1); (1, vz 2)]) apart3 H2' H). cbn [app] in H3.
  assert (H3' := H3 ltac:(apply observe_happens; [repeat constructor; cbn; intuition lia|intros y [= <-]; eexists; reflexivity|vm_compute; reflexivity])).
  assert (H4 := fun H => h_step apart0 _ apart3 (EObserve 3 [(9, vz 0); (1, vz 1)]) apart4 H3' H). cbn [app] in H4.
  assert (H4' := H4 ltac:(apply observe_happens; [repeat constructor; cbn; intuition lia|intros y [= <-]; eexists; reflexivity|vm_compute; reflexivity])).
  split; [exact (history_view _ _ _ apart_new H4')|exact (history_view _ _ _ apart_new H2')].
Qed.

Lemma single : forall m, good m -> NoDup (outputs m) -> crosscat [m].
Proof. intros m G ND. split; [intros m' [<-|[]]; exact G|cbn [flat_map]; rewrite app_nil_r; exact ND]. Qed.

Lemma apart_language : (forall s, divider apart4 = Some s -> visible_hypers s) /\
  forall d, In d (base_columns apart4) -> in_language d /\ visible_hypers d.
Proof.
  destruct demo_visible as (V1 & _). split.
  - intros s E. change (divider apart4) with (Some (match apart4 with CMix _ d _ _ => d | _ => cat1 end)) in E. injection E as <-.
    intros k q Q _; vm_compute in Q; destruct Q as [Q|[]]; injection Q as <- <-; exact V1.
  - intros d D. change (base_columns apart4) with [cat1] in D. destruct D as [<-|[]]. split; [left; exists 3; reflexivity|]. intros k q [Q|[]] _. injection Q as <- <-. exact V1.
Qed.

Theorem C62_refuted : crosscat [apart4] /\ (forall s, divider apart4 = Some s -> visible_hypers s) /\
  (forall d, In d (base_columns apart4) -> in_language d /\ visible_hypers d) /\ no_empty_rows apart4 /\
  seat apart4 3 = seat apart4 0 /\ seat apart4 2 <> seat apart4 0 /\
  exists program m, render_trace_in_embedded_dsl (CProd [apart4]) = Ok program /\ execute_trace program = Ret (Ok (CProd [m])) /\
    seat m 3 <> seat m 0 /\ seat m 2 = seat m 0 /\ ~ replayed apart4 m.
Proof.
  destruct apart_good as [G _]. split; [apply single; [exact G|vm_compute; repeat constructor; cbn; intuition lia]|].
  split; [apply apart_language|]. split; [apply apart_language|].
  assert (RR : recorded_rows apart4 apart_rows) by (eexists; split; vm_compute; reflexivity).
  split; [apply (rows_at _ apart_rows 1); [apply G|exact RR|vm_compute; reflexivity]|].
  assert (S0 : seat apart4 3 = seat apart4 0) by (vm_compute; reflexivity). assert (S2 : seat apart4 2 <> seat apart4 0) by (vm_compute; discriminate).
  split; [exact S0|]. split; [exact S2|].
  eexists _, _. split; [vm_compute; reflexivity|]. split; [vm_compute; reflexivity|].
  split; [cbn; discriminate|]. split; [reflexivity|].
  intros (_ & _ & _ & _ & _ & Hs & _). apply S2. apply (Hs 2 0); [vm_compute; discriminate|vm_compute; discriminate|reflexivity].
Qed.
Print Assumptions C62_refuted.

(** A view in which no row is recorded is not rendered. *)
Theorem C62_empty_refuted : forall X m, crosscat X -> In m X -> recorded_rows m [] ->
  exists e, render_trace_in_embedded_dsl (CProd X) = Err e.
Proof.
  intros X m C Hm R. unfold render_trace_in_embedded_dsl. destruct (convert_crosscat_to_embedded_dsl_model (CProd X)) as [model|e]; [|exists e; reflexivity].
  cbn [obind]. assert (E : exists e, get_crosscat_observes X = Err e); [|destruct E as [e E]; rewrite E; exists e; reflexivity].
  destruct (crosscat_views X m C Hm) as (GR & Sh & K). assert (EM := C53_empty m GR Sh K R).
  unfold get_crosscat_observes. clear C. induction X as [|m' X IH]; [destruct Hm|]. cbn [map oseq]. destruct Hm as [->|Hm].
  - rewrite EM. exists IndexError. reflexivity.
  - destruct (get_view_observes m') as [v|e]; [|exists e; reflexivity]. destruct (IH Hm) as [e E]. exists e. cbn [obind]. rewrite E. reflexivity.
Qed.
Print Assumptions C62_empty_refuted.

Example C62_empty_refuted_case : crosscat [apart0] /\ recorded_rows apart0 [] /\ render_trace_in_embedded_dsl (CProd [apart0]) = Err IndexError.
Proof.
  split; [|split; [eexists; split; vm_compute; reflexivity|vm_compute; reflexivity]].
  apply single; [|vm_compute; repeat constructor; cbn; intuition lia]. destruct (new_view_good _ apart_new) as (RE & Sh & K & _). split; [apply creachable_grown, RE|split; assumption].
Qed.

(** ** C63 *)

(** A model with rows is rendered for VentureScript: of every view the clusters in use with
    their shares of the rows, the distribution of every column in each of these clusters, and
    the cluster of every row; and the view of every column. *)
Theorem C63_trace : forall X, crosscat X ->
  (forall m, In m X -> (exists r, seat m r <> None) /\ no_empty_rows m /\ forall d, In d (base_columns m) -> in_language d) ->
  exists vs a, convert_trace_to_venturescript_ast (CProd X) = Ok (vs, a) /\ Forall2 vs_shows X vs /\ assigns X a.
Proof. exact trace_shown. Qed.
Print Assumptions C63_trace.

Example C63_trace_case : crosscat demo_numbers /\
  (forall m, In m demo_numbers -> (exists r, seat m r <> None) /\ no_empty_rows m /\ forall d, In d (base_columns m) -> in_language d) /\
  (do va <- convert_trace_to_venturescript_ast (CProd demo_numbers);
   Ok (map (fun v => (map this (vs_weights v), map (map snd) (vs_distributions v), vs_observes_crp v)) (fst va), snd va)) =
  Ok ([([1 # 2; 1 # 2]%Q, [["make_symm_dirichlet_categorical(3, 0.5000)"; "make_symm_dirichlet_categorical(3, 0.5000)"];
                           ["make_nig_normal(0.0000, 1.0000, 0.5000, 1.0000)"; "make_nig_normal(0.0000, 1.0000, 0.5000, 1.0000)"]], [(4, 0); (6, 1)]);
       ([1]%Q, [["make_symm_dirichlet_categorical(5, 0.5000)"]], [(6, 0); (4, 0)])],
      [("var-1", 0%nat); ("var-2", 0%nat); ("var-3", 1%nat)]).
Proof.
  split; [exact demo_numbers_ok|]. split.
  - intros m Hm. split; [|split; [apply C62_trace_case; exact Hm|intros d D; exact (proj1 (proj2 demo_numbers_language m d Hm D))]].
    exists 4. destruct Hm as [<-|[<-|[]]]; vm_compute; discriminate.
  - vm_compute. reflexivity.
Qed.

(** The name of a column is looked up in the schema. *)
Theorem C63_name : forall o schema name, 0 <= o -> nth_error schema (Z.to_nat o) = Some name ->
  convert_variable_name (get_variable_name o) schema = Ok name.
Proof. exact name_ok. Qed.
Print Assumptions C63_name.

Example C63_name_case : 0 <= 12 /\ nth_error (repeat "x" 12 ++ ["orbit"])%list (Z.to_nat 12) = Some "orbit".
Proof. split; [lia|reflexivity]. Qed.

(** Not so for a negative output. *)
Theorem C63_name_refuted : convert_variable_name (get_variable_name (-1)) ["a"; "b"] = Err ValueError.
Proof. reflexivity. Qed.
Print Assumptions C63_name_refuted.

(** A view whose rows were all unobserved is not rendered. *)
Definition gone1 : cgpm := fst (unobserve apart1 0).

Theorem C63_emptied_refuted : crosscat [gone1] /\ (forall d, In d (base_columns gone1) -> in_language d) /\
  convert_trace_to_venturescript_ast (CProd [gone1]) = Err TypeError.
Proof.
  assert (H1 : history apart0 [EObserve 0 [(9, vz 0); (1, vz 0)]] apart1).
  { apply (h_step apart0 [] apart0); [constructor|]. apply observe_happens; [repeat constructor; cbn; intuition lia|intros y [= <-]; eexists; reflexivity|vm_compute; reflexivity]. }
  assert (H2 : history apart0 [EObserve 0 [(9, vz 0); (1, vz 0)]; EUnobserve 0 [(9, vz 0); (1, vz 0)]] gone1).
  { apply (h_step apart0 [EObserve 0 [(9, vz 0); (1, vz 0)]] apart1); [exact H1|]. exists []. vm_compute. reflexivity. }
  split; [apply single; [exact (history_view _ _ _ apart_new H2)|vm_compute; repeat constructor; cbn; intuition lia]|].
  split; [|vm_compute; reflexivity]. intros d D. change (base_columns gone1) with [cat1] in D. destruct D as [<-|[]]. left; exists 3; reflexivity.
Qed.
Print Assumptions C63_emptied_refuted.

(** A model with a Bernoulli column is not rendered. *)
Theorem C63_bernoulli_refuted : crosscat [demo_view] /\ no_empty_rows demo_view /\
  convert_trace_to_venturescript_ast (CProd [demo_view]) = Err AssertionError.
Proof.
  split; [apply single; [exact demo_view_good|vm_compute; repeat constructor; cbn; intuition lia]|]. split; [exact demo_view_full|]. vm_compute. reflexivity.
Qed.
Print Assumptions C63_bernoulli_refuted.

(** The shares are written with four decimals; what is written need not sum to 1, though
    VentureScript's simplex requires it: three rows in three clusters. *)
Definition thirds2 : cgpm := state_of (observe apart1 1 [(9, vz 1); (1, vz 1)] []).
Definition thirds3 : cgpm := state_of (observe thirds2 2 [(9, vz 2); (1, vz 2)] []).

Theorem C63_simplex_refuted : crosscat [thirds3] /\
  exists v a, convert_trace_to_venturescript_ast (CProd [thirds3]) = Ok ([v], a) /\ rsum (map qr (vs_weights v)) = 1%R /\
    simplex_text (vs_weights v) = "simplex(0.3333,0.3333,0.3333)".
Proof.
  assert (G : good thirds3).
  { apply (history_view apart0 [EObserve 0 [(9, vz 0); (1, vz 0)]; EObserve 1 [(9, vz 1); (1, vz 1)]; EObserve 2 [(9, vz 2); (1, vz 2)]] thirds3 apart_new).
    apply (h_step apart0 [EObserve 0 [(9, vz 0); (1, vz 0)]; EObserve 1 [(9, vz 1); (1, vz 1)]] thirds2).
    - apply (h_step apart0 [EObserve 0 [(9, vz 0); (1, vz 0)]] apart1).
      + apply (h_step apart0 [] apart0); [constructor|]. apply observe_happens; [repeat constructor; cbn; intuition lia|intros y [= <-]; eexists; reflexivity|vm_compute; reflexivity].
      + apply observe_happens; [repeat constructor; cbn; intuition lia|intros y [= <-]; eexists; reflexivity|vm_compute; reflexivity].
    - apply observe_happens; [repeat constructor; cbn; intuition lia|intros y [= <-]; eexists; reflexivity|vm_compute; reflexivity]. }
  split; [apply single; [exact G|vm_compute; repeat constructor; cbn; intuition lia]|].
  eexists _, _. split; [vm_compute; reflexivity|]. split; [|vm_compute; reflexivity].
  cbn [map rsum fold_right vs_weights]. unfold qr, Q2R. cbn. lra.
Qed.
Print Assumptions C63_simplex_refuted.
