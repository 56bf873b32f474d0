(** Text of the Core DSL: what is written is read back. *)
From Coq Require Import List ZArith QArith Qcanon Reals Bool String Ascii DecimalString DecimalZ Lia Lra.
From Verif Require Import Base Xr Samp Lgamma Prims Cgpm Trans Views Crosscat Sample Lib Dsl SpecDsl DslThm DslThm2.
Import ListNotations.
Local Open Scope string_scope.
Local Open Scope Z_scope.

(** ** The lines that are written *)

Definition some_args (d : option (dict string Qc)) : dict string Qc := match d with Some d => d | None => [] end.
Definition args_lines (i : nat) (d : dict string Qc) : list (nat * string) :=
  map (fun e : string * Qc => (i, fst e ++ ": " ++ number_text (snd e))) d.
Definition primitive_lines (i : nat) (p : ast_primitive) : list (nat * string) :=
  ((i, ("- " ++ primitive_key p ++ ":")%string) :: ((i + 4)%nat, "distargs:") :: args_lines (i + 6) (some_args (ast_distargs p)) ++
  ((i + 4)%nat, "hypers:") :: args_lines (i + 6) (some_args (ast_hypers p)))%list.
Definition primitives_lines (i : nat) (ps : list ast_primitive) := flat_map (primitive_lines i) ps.
Definition view_lines (v : ast_view) : list (nat * string) :=
  ((0%nat, "- view:") :: (4%nat, "row clustering model:") :: primitive_lines 6 (fst v) ++
  (4%nat, "distribution models:") :: primitives_lines 6 (snd v))%list.
Definition ast_lines (ast : list ast_view) := flat_map view_lines ast.

Lemma args_text : forall i d, write_all (map (fun e : string * Qc => core_compile_key_val i (fst e) (snd e)) d) = text_of (args_lines i d).
Proof.
  intros i d. unfold text_of, args_lines. rewrite map_map. f_equal. apply map_ext. intros [k q].
  unfold core_compile_key_val, line. cbn [fst snd]. now rewrite !app_assoc_s.
Qed.

Lemma primitive_text : forall i p, ast_hypers p <> None -> core_compile_distribution i p = Ok (text_of (primitive_lines i p)).
Proof.
  intros i p Hy. unfold core_compile_distribution, core_compile_hypers, core_compile_distargs.
  destruct (ast_hypers p) as [h|] eqn:Eh; [|congruence]. cbn [obind].
  rewrite args_text. unfold primitive_lines. rewrite Eh. cbn [some_args].
  rewrite text_of_cons, text_of_cons, text_of_app, text_of_cons. cbn [fst snd].
  replace (i + 4 + 2)%nat with (i + 6)%nat by lia.
  unfold core_compile_key_list, core_compile_key.
  replace (match ast_distargs p with Some d => write_all (map (fun e : string * Qc => core_compile_key_val (i + 6) (fst e) (snd e)) d) | None => "" end)
    with (text_of (args_lines (i + 6) (some_args (ast_distargs p)))).
  2: { destruct (ast_distargs p) as [d|]; [|reflexivity]. now rewrite args_text. }
  rewrite !app_assoc_s. reflexivity.
Qed.

Lemma oseq_map_texts : forall {A} (f : A -> out string) (g : A -> list (nat * string)) l,
  (forall a, In a l -> f a = Ok (text_of (g a))) -> omap write_all (oseq (map f l)) = Ok (text_of (flat_map g l)).
Proof.
  intros A f g l. induction l as [|a l IH]; intros F; [reflexivity|].
  cbn [map oseq flat_map]. rewrite F by now left. specialize (IH (fun b B => F b (or_intror B))).
  cbn [obind]. destruct (oseq (map f l)) as [ts|e]; cbn in IH |- *; [|discriminate].
  injection IH as IH. rewrite text_of_app. unfold write_all in *. cbn [fold_right]. now rewrite IH.
Qed.

Lemma primitives_text : forall i ps, (forall p, In p ps -> ast_hypers p <> None) ->
  core_compile_distributions i ps = Ok (text_of ((i, "distribution models:") :: primitives_lines (i + 2) ps)).
Proof.
  intros i ps F. unfold core_compile_distributions.
  assert (X := oseq_map_texts (core_compile_distribution (i + 2)) (primitive_lines (i + 2)) ps
                 (fun p P => primitive_text _ p (F p P))).
  destruct (oseq _) as [l|e]; cbn [omap obind] in X |- *; [|discriminate]. injection X as X. rewrite X, text_of_cons. cbn [fst snd].
  unfold core_compile_key, primitives_lines. now rewrite !app_assoc_s.
Qed.

Lemma view_text : forall v, (forall p, In p (fst v :: snd v) -> ast_hypers p <> None) -> core_compile_view 0 v = Ok (text_of (view_lines v)).
Proof.
  intros v F. unfold core_compile_view, core_compile_row_clustering.
  rewrite primitive_text by (apply F; now left). cbn [obind].
  rewrite primitives_text by (intros p P; apply F; now right). cbn [obind].
  unfold view_lines. rewrite !text_of_cons, text_of_app, !text_of_cons. cbn [fst snd].
  unfold core_compile_key_list, core_compile_key. rewrite !app_assoc_s. reflexivity.
Qed.

Lemma ast_text : forall ast, (forall v p, In v ast -> In p (fst v :: snd v) -> ast_hypers p <> None) ->
  compile_ast_to_core_dsl ast = Ok (text_of (ast_lines ast)).
Proof.
  intros ast F. unfold compile_ast_to_core_dsl.
  assert (X := oseq_map_texts (core_compile_view 0) view_lines ast (fun v V => view_text v (fun p => F v p V))).
  destruct (oseq _) as [l|e]; cbn [omap obind] in X |- *; [|discriminate]. exact X.
Qed.

(** The lines are proper. *)

Lemma number_nonempty : forall q, number_text q <> "".
Proof.
  intros q. unfold number_text, format_f4. destruct (is_int q).
  - destruct (format_d_nonempty (trunc q)) as (a & s & ->). discriminate.
  - destruct (qltb q 0%Qc); [discriminate|]. destruct (format_d_nonempty (round4 q / 10000)) as (a & s & ->). discriminate.
Qed.

Lemma number_other : forall c q, is_numeral c = false -> Ascii.eqb "." c = false -> every (other c) (number_text q) = true.
Proof.
  intros c q C D. unfold number_text, format_f4. destruct (is_int q).
  - now apply format_d_other.
  - rewrite !every_app, format_d_other by auto.
    assert (E1 : every (other c) (if qltb q 0%Qc then "-" else "") = true).
    { destruct (qltb q 0%Qc); [|reflexivity]. cbn. rewrite (numeral_other c) by auto. reflexivity. }
    assert (E2 : every (other c) "." = true) by (cbn; unfold other; now rewrite D).
    rewrite E1, E2. cbn [andb]. eapply every_imp; [|apply decimals_digits]. intros a. apply digit_other.
    unfold is_numeral in C. now apply orb_false_iff in C.
Qed.

Lemma args_proper : forall i d, proper_args d -> Forall proper_line (args_lines i d).
Proof.
  intros i d [_ W]. apply Forall_forall. intros [j t] T. apply in_map_iff in T as [[k q] [E P]].
  injection E as <- <-. cbn [fst snd] in *. assert (Wk : word k) by (apply W; apply (in_map fst) in P; exact P).
  split; cbn [snd].
    rewrite every_app, word_other by auto. cbn [every andb]. now rewrite number_other by auto.
  - left. now apply word_starts.
Qed.

Lemma primitive_proper : forall i p, writable_primitive p -> Forall proper_line (primitive_lines i p).
Proof.
  intros i p (W & D & h & Eh & Hh). unfold primitive_lines. constructor; [|constructor; [|apply Forall_app; split; [|constructor]]].
  - split; cbn [snd].
    + unfold primitive_key. cbn [append every andb]. rewrite !every_app. rewrite (word_other newline) by auto. cbn [every append andb other]. rewrite !every_app, format_d_other by auto. reflexivity.
    + right. now eexists.
  - split; [reflexivity|]. left. now repeat eexists.
  - apply args_proper. destruct (ast_distargs p) as [d|] eqn:E; [now apply D|]. split; [constructor|intros k []].
  - split; [reflexivity|]. left. now repeat eexists.
  - apply args_proper. now rewrite Eh.
Qed.

Lemma ast_proper : forall ast, Forall writable_view ast -> Forall proper_line (ast_lines ast).
Proof.
  intros ast F. unfold ast_lines. apply Forall_flat_map. eapply Forall_impl; [|exact F].
  intros v (W & _ & Ws). unfold view_lines.
  constructor; [|constructor; [|apply Forall_app; split; [now apply primitive_proper|constructor]]].
  - split; [reflexivity|]. right. now eexists.
  - split; [reflexivity|]. left. now repeat eexists.
  - split; [reflexivity|]. left. now repeat eexists.
  - apply Forall_flat_map. apply Forall_forall. intros p P. now apply primitive_proper, Ws.
Qed.

(** ** What is read *)

Definition args_yaml (d : dict string Qc) : list (string * yaml) := map (fun e : string * Qc => (fst e, YNum (written (snd e)))) d.
Definition args_value (d : dict string Qc) : yaml := match d with [] => YNull | _ => YMap (args_yaml d) end.
Definition primitive_yaml (p : ast_primitive) : yaml :=
  YMap [(primitive_key p, YMap [("distargs", args_value (some_args (ast_distargs p))); ("hypers", args_value (some_args (ast_hypers p)))])].
Definition view_yaml (v : ast_view) : yaml :=
  YMap [("view", YMap [("row clustering model", YSeq [primitive_yaml (fst v)]);
                       ("distribution models", match snd v with [] => YNull | _ => YSeq (map primitive_yaml (snd v)) end)])].

Lemma add_entry_new : forall k y d, ~ In k (keys d) -> add_entry k y d = (k, y) :: d.
Proof.
  intros k y d N. unfold add_entry. destruct (dmem k d) eqn:E; [|reflexivity].
  exfalso. apply N. unfold dmem in E. destruct (lookup k d) eqn:L; [|discriminate]. apply lookup_In in L.
  apply in_map_iff. exists (k, y0). auto.
Qed.

Lemma args_read : forall i d rest, proper_args d -> below i rest ->
  reads_entries i (args_lines i d ++ rest)%list (args_yaml d) rest.
Proof.
  intros i d rest [ND W] B. induction d as [|[k q] d IH]; [now apply entries_stop|].
  cbn [args_lines map app args_yaml]. inversion ND as [|? ? NI ND']. subst.
  assert (Wk : word k) by (apply W; now left).
  rewrite <- scalar_number. cbn [fst snd].
  rewrite <- add_entry_new.
  2: { intros X. apply NI. unfold keys in *. rewrite map_map in X. exact X. }
  eapply entries_scalar.
  - apply starts_not_item, word_starts, Wk.
  - apply split_key_colon. now apply word_other.
  - apply number_nonempty.
  - apply IH; auto. intros k' K'. apply W. now right.
Qed.

Lemma args_node : forall i d rest, proper_args d -> upto i rest ->
  reads_node (i + 1) (args_lines (i + 2) d ++ rest)%list (args_value d) rest.
Proof.
  intros i d rest P U. destruct d as [|[k q] d].
  - apply node_null. eapply upto_below; [exact U|lia].
  - unfold args_value.
    assert (X := args_read (i + 2) ((k, q) :: d) rest P (upto_below i (i + 2) rest U ltac:(lia))).
    cbn [args_lines map app] in X |- *. apply node_map; [lia| |exact X].
    apply starts_not_item, word_starts. apply P. now left.
Qed.

Lemma primitive_read : forall i p rest, writable_primitive p -> upto i rest ->
  reads_entries (i + 2) (((i + 2)%nat, (primitive_key p ++ ":")%string) :: tl (primitive_lines i p) ++ rest)%list
    [(primitive_key p, YMap [("distargs", args_value (some_args (ast_distargs p))); ("hypers", args_value (some_args (ast_hypers p)))])] rest.
Proof.
  intros i p rest (W & D & h & Eh & Hh) U.
  change ([(primitive_key p, YMap [("distargs", args_value (some_args (ast_distargs p))); ("hypers", args_value (some_args (ast_hypers p)))])])
    with (add_entry (primitive_key p) (YMap [("distargs", args_value (some_args (ast_distargs p))); ("hypers", args_value (some_args (ast_hypers p)))]) []).
  assert (PD : proper_args (some_args (ast_distargs p))).
  { destruct (ast_distargs p) as [d|] eqn:E; [now apply D|]. split; [constructor|intros k []]. }
  assert (PH : proper_args (some_args (ast_hypers p))) by now rewrite Eh.
  eapply entries_block with (mid := rest).
  - apply starts_not_item. unfold primitive_key. rewrite app_assoc_s. now apply word_starts.
  - now apply split_key_primitive.
  - cbn [primitive_lines tl app]. apply node_map; [lia|reflexivity|].
    change ([("distargs", args_value (some_args (ast_distargs p))); ("hypers", args_value (some_args (ast_hypers p)))])
      with (add_entry "distargs" (args_value (some_args (ast_distargs p))) (add_entry "hypers" (args_value (some_args (ast_hypers p))) [])).
    rewrite <- app_assoc. cbn [app].
    eapply entries_block with (mid := (((i + 4)%nat, "hypers:") :: args_lines (i + 6) (some_args (ast_hypers p)) ++ rest)%list);
      [reflexivity|reflexivity| | |].
    + replace (i + 6)%nat with (i + 4 + 2)%nat by lia. apply args_node; auto. cbn. lia.
    + rewrite app_length. lia.
    + eapply entries_block with (mid := rest); [reflexivity|reflexivity| | |].
      * replace (i + 6)%nat with (i + 4 + 2)%nat by lia. apply args_node; auto. destruct rest; cbn in U |- *; lia.
      * rewrite app_length. lia.
      * apply entries_stop. eapply upto_below; [exact U|lia].
  - rewrite app_length. lia.
  - apply entries_stop. eapply upto_below; [exact U|lia].
Qed.

Lemma primitives_read : forall i ps rest, (forall p, In p ps -> writable_primitive p) -> below i rest ->
  reads_items i (primitives_lines i ps ++ rest)%list (map primitive_yaml ps) rest.
Proof.
  intros i ps rest W B. induction ps as [|p ps IH]; [now apply items_stop|].
  cbn [primitives_lines flat_map map]. fold (primitives_lines i ps). rewrite <- app_assoc.
  change (primitive_lines i p ++ primitives_lines i ps ++ rest)%list
    with ((i, ("- " ++ primitive_key p ++ ":")%string) :: tl (primitive_lines i p) ++ primitives_lines i ps ++ rest)%list.
  eapply items_cons with (mid := (primitives_lines i ps ++ rest)%list); [reflexivity| | |].
  - apply primitive_read; [apply W; now left|]. destruct ps as [|p' ps].
    + destruct rest as [|[j t] rest]; [exact Logic.I|]. cbn in B |- *. lia.
    + cbn. lia.
  - rewrite (app_length (tl _)). lia.
  - apply IH. intros p' P'. apply W. now right.
Qed.

Lemma primitives_node : forall i ps rest, (forall p, In p ps -> writable_primitive p) -> upto i rest ->
  reads_node (i + 1) (primitives_lines (i + 2) ps ++ rest)%list (match ps with [] => YNull | _ => YSeq (map primitive_yaml ps) end) rest.
Proof.
  intros i ps rest W U. assert (B : below (i + 2) rest) by (eapply upto_below; [exact U|lia]).
  destruct ps as [|p ps].
  - apply node_null. eapply upto_below; [exact U|lia].
  - assert (X := primitives_read (i + 2) (p :: ps) rest W B).
    change (primitives_lines (i + 2) (p :: ps) ++ rest)%list
      with ((i + 2, ("- " ++ primitive_key p ++ ":")%string)%nat :: (tl (primitive_lines (i + 2) p) ++ primitives_lines (i + 2) ps) ++ rest)%list in X |- *.
    eapply node_seq; [|reflexivity|exact X]. lia.
Qed.

Lemma views_read : forall vs, Forall (fun v => writable_primitive (fst v) /\ forall p, In p (snd v) -> writable_primitive p) vs ->
  reads_items 0 (ast_lines vs) (map view_yaml vs) [].
Proof.
  intros vs F. induction F as [|[d ps] vs [Wd Wp] F IH]; [now apply items_stop|]. cbn [fst snd] in *.
  cbn [ast_lines flat_map map]. fold (ast_lines vs).
  assert (U : forall j, upto j (ast_lines vs)).
  { intros j. destruct vs as [|v vs]; cbn; [exact Logic.I|lia]. }
  unfold view_lines. cbn [fst snd app]. rewrite <- app_assoc. cbn [app].
  eapply items_cons with (mid := ast_lines vs); [reflexivity| | |exact IH].
  - unfold view_yaml. cbn [fst snd].
    change ([("view", YMap [("row clustering model", YSeq [primitive_yaml d]);
               ("distribution models", match ps with [] => YNull | _ => YSeq (map primitive_yaml ps) end)])])
      with (add_entry "view" (YMap (add_entry "row clustering model" (YSeq [primitive_yaml d])
               (add_entry "distribution models" (match ps with [] => YNull | _ => YSeq (map primitive_yaml ps) end) []))) []).
    eapply entries_block with (mid := ast_lines vs); [reflexivity|reflexivity| | |].
    + apply node_map; [lia|reflexivity|].
      eapply entries_block with (mid := ((4%nat, "distribution models:") :: primitives_lines 6 ps ++ ast_lines vs)%list);
        [reflexivity|reflexivity| | |].
      * assert (X := primitives_node 4 [d] ((4%nat, "distribution models:") :: primitives_lines 6 ps ++ ast_lines vs)%list).
        cbn [primitives_lines flat_map map] in X. rewrite app_nil_r in X. apply X.
        -- intros p [<-|[]]. exact Wd.
        -- cbn. lia.
      * rewrite app_length. cbn [List.length]. lia.
      * eapply entries_block with (mid := ast_lines vs); [reflexivity|reflexivity| | |].
        -- apply (primitives_node 4 ps (ast_lines vs)); auto.
        -- rewrite app_length. lia.
        -- apply entries_stop. eapply upto_below; [apply (U 0%nat)|lia].
    + cbn [List.length]. rewrite app_length. cbn [List.length]. rewrite app_length. lia.
    + apply entries_stop. eapply upto_below; [apply (U 0%nat)|lia].
  - cbn [List.length]. rewrite app_length. cbn [List.length]. rewrite app_length. lia.
Qed.

Lemma yaml_load_text : forall ast, ast <> [] -> Forall proper_line (ast_lines ast) ->
  Forall (fun v => writable_primitive (fst v) /\ forall p, In p (snd v) -> writable_primitive p) ast ->
  yaml_load (text_of (ast_lines ast)) = Ok (YSeq (map view_yaml ast)).
Proof.
  intros ast NE P F. unfold yaml_load. fold (lines_of (text_of (ast_lines ast))). rewrite lines_of_text by exact P.
  assert (R : reads_node 0 (ast_lines ast) (YSeq (map view_yaml ast)) []).
  { assert (X := views_read ast F). destruct ast as [|v ast]; [congruence|].
    change (ast_lines (v :: ast)) with ((0%nat, "- view:") :: tl (view_lines v) ++ ast_lines ast)%list in X |- *.
    eapply node_seq; [|reflexivity|exact X]. lia. }
  rewrite R by lia. reflexivity.
Qed.

(** ** The parser *)

Definition reread_args (d : option (dict string Qc)) : option (dict string Qc) :=
  match some_args d with [] => None | l => Some (map (fun e : string * Qc => (fst e, written (snd e))) l) end.
Definition reread (p : ast_primitive) : ast_primitive :=
  mkAst (ast_output p) (ast_name p) (reread_args (ast_distargs p)) (reread_args (ast_hypers p)).
Definition reread_view (v : ast_view) : ast_view := (reread (fst v), map reread (snd v)).

Lemma numbers_value : forall d, numbers (args_value (some_args d)) = Ok (reread_args d).
Proof.
  intros d. unfold reread_args. destruct (some_args d) as [|e l]; [reflexivity|].
  unfold args_value, numbers, args_yaml. rewrite map_map.
  set (f := fun x : string * Qc => _). set (g := fun x : string * Qc => _).
  assert (E : oseq (map f (e :: l)) = Ok (map g (e :: l))).
  { apply oseq_map_ok. intros [k q] _. reflexivity. }
  rewrite E. reflexivity.
Qed.

Lemma parse_primitive : forall p, writable_primitive p -> core_parse_distribution (primitive_yaml p) = Ok (reread p).
Proof.
  intros p (W & _). unfold core_parse_distribution, primitive_yaml. cbn [only_entry obind snd fst yget].
  change (dget "distargs" [("distargs", args_value (some_args (ast_distargs p))); ("hypers", args_value (some_args (ast_hypers p)))])
    with (Ok (args_value (some_args (ast_distargs p)))).
  change (dget "hypers" [("distargs", args_value (some_args (ast_distargs p))); ("hypers", args_value (some_args (ast_hypers p)))])
    with (Ok (args_value (some_args (ast_hypers p)))).
  cbn [obind]. rewrite key_parts by exact W. cbn [obind]. rewrite !numbers_value. reflexivity.
Qed.

Lemma parse_view : forall v, writable_view v ->
  (do y <- yget "view" (view_yaml v); core_parse_view y) = Ok (reread_view v).
Proof.
  intros [d ps] (W & NE & Ws). cbn [fst snd] in *. unfold view_yaml. cbn [fst snd].
  destruct ps as [|p ps]; [congruence|].
  cbn [yget]. unfold core_parse_view.
  match goal with |- context [dget "view" [("view", ?y)]] => change (dget "view" [("view", y)]) with (Ok y) end. cbn [obind yget].
  match goal with |- context [dget "row clustering model" [("row clustering model", ?y); ?z]] =>
    change (dget "row clustering model" [("row clustering model", y); z]) with (Ok y) end.
  match goal with |- context [dget "distribution models" [?z; ("distribution models", ?y)]] =>
    change (dget "distribution models" [z; ("distribution models", y)]) with (Ok y) end.
  cbn [obind yfirst]. rewrite parse_primitive by exact W. cbn [obind yitems].
  rewrite map_map.
  assert (E : oseq (map (fun x => core_parse_distribution (primitive_yaml x)) (p :: ps)) = Ok (map reread (p :: ps))).
  { apply oseq_map_ok. intros q Q. now apply parse_primitive, Ws. }
  rewrite E. reflexivity.
Qed.

Lemma parse_ast : forall ast, ast <> [] -> Forall writable_view ast ->
  parse_core_dsl_to_ast (text_of (ast_lines ast)) = Ok (map reread_view ast).
Proof.
  intros ast NE F. unfold parse_core_dsl_to_ast. rewrite yaml_load_text; auto.
  - cbn [obind yitems]. rewrite map_map. apply oseq_map_ok. intros v V. apply parse_view. rewrite Forall_forall in F. auto.
  - now apply ast_proper.
  - eapply Forall_impl; [|exact F]. intros v (A & _ & B). auto.
Qed.

Lemma reread_args_rounded : forall d, rounded_option d (reread_args d).
Proof.
  intros [[|e l]|]; try exact Logic.I. unfold reread_args. cbn [some_args].
  cbn [rounded_option]. split; [discriminate|].
  unfold rounded_args. generalize (e :: l). clear. induction l as [|[k q] l IH]; constructor; auto.
  split; [reflexivity|]. apply written_rounded.
Qed.

Lemma reread_rounded : forall p, rounded_primitive p (reread p).
Proof. intros p. repeat split; apply reread_args_rounded. Qed.

Lemma reread_view_rounded : forall v, rounded_view v (reread_view v).
Proof.
  intros [d ps]. split; [apply reread_rounded|]. cbn [reread_view snd]. induction ps as [|p ps IH]; constructor; auto.
  apply reread_rounded.
Qed.

Lemma writable_hypers : forall ast, Forall writable_view ast -> forall v p, In v ast -> In p (fst v :: snd v) -> ast_hypers p <> None.
Proof.
  intros ast F v p V P. rewrite Forall_forall in F. destruct (F v V) as (W & _ & Ws).
  assert (X : writable_primitive p) by (destruct P as [<-|P]; auto).
  destruct X as (_ & _ & h & -> & _). discriminate.
Qed.
