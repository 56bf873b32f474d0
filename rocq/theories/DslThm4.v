(** Interpreting ASTs. *)
From Coq Require Import List ZArith QArith Qcanon Reals Bool String Ascii Permutation Lia Lra.
From Verif Require Import Base Xr Samp Lgamma Prims Cgpm Lib SpecPrims PrimsInv PrimsDens PrimsThm PrimsThm2
  SpecComp CompInv CompDens CompThm SpecSim SimShape SpecBook Book SpecTable Trans SpecHist Table Gibbs Hist Walks SpecWalks WalksThm Views SpecViews ViewsThm
  Crosscat Sample SpecSample SampleThm2 SampleThm3 Dsl SpecDsl DslThm DslThm2 DslThm3.
Import ListNotations.
Local Open Scope string_scope.
Local Open Scope Z_scope.

Lemma written_visible : forall q, visible q -> (0 < qr (written q))%R.
Proof.
  intros q V. destruct (written_rounded q) as [_ C]. unfold visible in V. revert C. unfold Rabs. destruct (Rcase_abs _); lra.
Qed.

Lemma written_int : forall z, written (qz z) = qz z.
Proof. intros z. unfold written. now rewrite is_int_qz. Qed.

(** ** The call of a constructor *)

Definition kwargs_of (p : ast_primitive) : dict string (dict string Qc) :=
  flat_map (fun e : string * option (dict string Qc) => match snd e with Some v => [(fst e, v)] | None => [] end)
    [("distargs", reread_args (ast_distargs p)); ("hypers", reread_args (ast_hypers p))].

Lemma compile_primitive : forall p c, word (ast_name p) -> lookup (ast_name p) primitive_constructors = Some c ->
  embedded_compile_primitive (primitive_yaml p) = Ok (mkCall c (ast_output p) (kwargs_of p)).
Proof.
  intros p c W L. unfold embedded_compile_primitive, primitive_yaml. cbn [only_entry obind fst snd].
  rewrite key_parts by exact W. cbn [obind fst snd]. unfold dget. rewrite L. cbn [obind].
  unfold embedded_kwargs. cbn [map fst snd]. rewrite !numbers_value. reflexivity.
Qed.

Lemma kwarg_hypers : forall c p, kwarg "hypers" (mkCall c (ast_output p) (kwargs_of p)) = args_of (reread_args (ast_hypers p)).
Proof.
  intros c p. unfold kwarg, kwargs_of. cbn [call_kwargs flat_map snd fst].
  destruct (reread_args (ast_distargs p)), (reread_args (ast_hypers p)); reflexivity.
Qed.

Lemma kwarg_distargs : forall c p, kwarg "distargs" (mkCall c (ast_output p) (kwargs_of p)) = args_of (reread_args (ast_distargs p)).
Proof.
  intros c p. unfold kwarg, kwargs_of. cbn [call_kwargs flat_map snd fst].
  destruct (reread_args (ast_distargs p)), (reread_args (ast_hypers p)); reflexivity.
Qed.

Lemma kwargs_known : forall p, forallb (fun k => memb k ["hypers"; "params"; "distargs"; "rng"]) (keys (kwargs_of p)) = true.
Proof. intros p. unfold kwargs_of. cbn [flat_map snd fst]. destruct (reread_args (ast_distargs p)), (reread_args (ast_hypers p)); reflexivity. Qed.

Lemma lookup_reread : forall k d, lookup k (args_of (reread_args d)) = option_map written (lookup k (args_of d)).
Proof.
  intros k d. unfold reread_args. destruct d as [l|]; [|reflexivity]. cbn [some_args args_of].
  assert (E : forall l, lookup k (map (fun e : string * Qc => (fst e, written (snd e))) l) = option_map written (lookup k l)).
  { clear. induction l as [|[k' q] l IH]; [reflexivity|]. cbn. destruct (eq_dec k k'); [reflexivity|exact IH]. }
  destruct l as [|e l]; [reflexivity|]. cbn [args_of]. apply E.
Qed.

Lemma perm_lookup : forall (h g : dict string Qc) k, NoDup (keys g) -> Permutation h g -> lookup k h = lookup k g.
Proof.
  intros h g k ND P. assert (NDh : NoDup (keys h)) by (eapply Permutation_NoDup; [apply Permutation_map, Permutation_sym, P|exact ND]).
  destruct (lookup k g) as [q|] eqn:E.
  - apply In_lookup; [exact NDh|]. apply (Permutation_in _ (Permutation_sym P)). now apply lookup_In.
  - apply lookup_None. intros X. apply (Permutation_in _ (Permutation_map fst P)) in X. apply lookup_None in E. auto.
Qed.

Ltac distinct := repeat (constructor; [cbn; intuition discriminate|]); constructor.

Lemma construct_column : forall p k, describes_column p k -> exists c d,
  lookup (ast_name p) primitive_constructors = Some c /\
  construct (mkCall c (ast_output p) (kwargs_of p)) = Ok d /\ fresh d /\ dist_o d = ast_output p /\ kind_of d = k /\
  forall h q, lookup h (args_of (ast_hypers p)) = Some q -> exists x, lookup h (dist_get_hypers d) = Some x /\ rounded q x.
Proof.
  intros p k D. destruct D as [n alpha E ED N EH V|h a b E ED EH P Va Vb|h m r s nu E ED EH P Vr Vs Vn]; rewrite E.
  - exists "Categorical". eexists. split; [reflexivity|]. split.
    { unfold construct. cbn [call_kwargs]. rewrite kwargs_known. cbn [obind call_class call_output]. rewrite kwarg_hypers, kwarg_distargs.
      change (String.eqb "Categorical" "Categorical") with true. cbn iota. rewrite ED. unfold reread_args at 1. cbn [some_args map fst snd args_of].
      rewrite written_int. change (dget "k" [("k", qz n)]) with (Ok (qz n)). cbn [obind]. rewrite trunc_qz.
      rewrite (proj2 (Z.ltb_ge n 0)) by lia. reflexivity. }
    assert (EA : hget "alpha" 1%Qc (args_of (reread_args (ast_hypers p))) = written alpha).
    { unfold hget. rewrite lookup_reread, EH. reflexivity. }
    rewrite EA. split; [constructor; [exact N|now apply written_visible]|]. split; [reflexivity|]. split; [reflexivity|].
    intros h q. rewrite EH. cbn [args_of lookup dist_get_hypers cat_new cat_alpha].
    destruct (eq_dec h _) as [->|]; [|discriminate]. intros [= <-]. eexists. split; [reflexivity|]. apply written_rounded.
  - assert (LK : forall z, lookup z (args_of (ast_hypers p)) = lookup z [("a", a); ("b", b)]).
    { intros z. rewrite EH. apply perm_lookup; [distinct|exact P]. }
    assert (Qa := written_visible a Va). assert (Qb := written_visible b Vb).
    assert (C : poi_new (ast_output p) (written a) (written b) = Ok (mkPoi (ast_output p) [] 0 0%Qc 0%R (written a) (written b))).
    { unfold poi_new. rewrite !qltb_pos by assumption. reflexivity. }
    exists "Poisson". eexists. split; [reflexivity|]. split.
    { unfold construct. cbn [call_kwargs]. rewrite kwargs_known. cbn [obind call_class call_output]. rewrite kwarg_hypers.
      change (String.eqb "Poisson" "Categorical") with false. change (String.eqb "Poisson" "CRP") with false.
      change (String.eqb "Poisson" "Normal") with false. change (String.eqb "Poisson" "Poisson") with true. cbn iota.
      unfold hget. rewrite !lookup_reread, !LK.
      change (lookup "a" [("a", a); ("b", b)]) with (Some a). change (lookup "b" [("a", a); ("b", b)]) with (Some b).
      cbn [option_map]. rewrite C. reflexivity. }
    split; [eapply fresh_poi, C|]. split; [reflexivity|]. split; [reflexivity|].
    intros z q. rewrite LK. cbn [lookup dist_get_hypers poi_a poi_b].
    repeat (destruct (eq_dec z _) as [->|]; [intros [= <-]; eexists; split; [reflexivity|apply written_rounded]|]). discriminate.
  - assert (LK : forall z, lookup z (args_of (ast_hypers p)) = lookup z [("m", m); ("r", r); ("s", s); ("nu", nu)]).
    { intros z. rewrite EH. apply perm_lookup; [distinct|exact P]. }
    assert (Qr := written_visible r Vr). assert (Qs := written_visible s Vs). assert (Qn := written_visible nu Vn).
    assert (C : nrm_new (ast_output p) (written m) (written r) (written s) (written nu) = Ok (mkNrm (ast_output p) [] 0 0%Qc 0%Qc (written m) (written r) (written s) (written nu))).
    { unfold nrm_new. rewrite !qltb_pos by assumption. reflexivity. }
    exists "Normal". eexists. split; [reflexivity|]. split.
    { unfold construct. cbn [call_kwargs]. rewrite kwargs_known. cbn [obind call_class call_output]. rewrite kwarg_hypers.
      change (String.eqb "Normal" "Categorical") with false. change (String.eqb "Normal" "CRP") with false.
      change (String.eqb "Normal" "Normal") with true. cbn iota.
      unfold hget. rewrite !lookup_reread, !LK.
      change (lookup "m" [("m", m); ("r", r); ("s", s); ("nu", nu)]) with (Some m). change (lookup "r" [("m", m); ("r", r); ("s", s); ("nu", nu)]) with (Some r).
      change (lookup "s" [("m", m); ("r", r); ("s", s); ("nu", nu)]) with (Some s). change (lookup "nu" [("m", m); ("r", r); ("s", s); ("nu", nu)]) with (Some nu).
      cbn [option_map]. rewrite C. reflexivity. }
    split; [eapply fresh_nrm, C|]. split; [reflexivity|]. split; [reflexivity|].
    intros z q. rewrite LK. cbn [lookup dist_get_hypers nrm_m nrm_r nrm_s nrm_nu].
    repeat (destruct (eq_dec z _) as [->|]; [intros [= <-]; eexists; split; [reflexivity|apply written_rounded]|]). discriminate.
Qed.

Lemma construct_rows : forall p, describes_rows p -> exists s,
  lookup (ast_name p) primitive_constructors = Some "CRP" /\
  construct (mkCall "CRP" (ast_output p) (kwargs_of p)) = Ok (DCrp s) /\ fresh (DCrp s) /\ crp_o s = ast_output p /\
  forall h q, lookup h (args_of (ast_hypers p)) = Some q -> exists x, lookup h (dist_get_hypers (DCrp s)) = Some x /\ rounded q x.
Proof.
  intros p (alpha & E & ED & EH & V). eexists. rewrite E. split; [reflexivity|].
  assert (EA : hget "alpha" 1%Qc (args_of (reread_args (ast_hypers p))) = written alpha).
  { unfold hget. rewrite lookup_reread, EH. reflexivity. }
  split.
  { unfold construct. cbn [call_kwargs]. rewrite kwargs_known. cbn [obind call_class call_output]. rewrite kwarg_hypers, EA. reflexivity. }
  split; [constructor; now apply written_visible|]. split; [reflexivity|].
  intros h q. rewrite EH. cbn [args_of lookup dist_get_hypers crp_new crp_alpha].
  destruct (eq_dec h _) as [->|]; [|discriminate]. intros [= <-]. eexists. split; [reflexivity|]. apply written_rounded.
Qed.

(** ** What can be built can be written *)

Lemma words : Forall word ["categorical"; "poisson"; "normal"; "crp"; "alpha"; "k"; "a"; "b"; "m"; "r"; "s"; "nu"].
Proof.
  repeat (constructor; [split; [do 2 eexists; split; [reflexivity|]; split; [unfold letter; cbn; lia|
    cbn; intros x X; repeat (destruct X as [<-|X]; [left; unfold letter; cbn; lia|]); destruct X]|
    intros X; cbn in X; repeat (destruct X as [X|X]; [discriminate X|]); exact X]|]). constructor.
Qed.

Ltac known_word := let X := fresh in assert (X := words); rewrite Forall_forall in X; apply X; cbn; tauto.

Lemma proper_perm : forall h g, Permutation h g -> proper_args g -> proper_args h.
Proof.
  intros h g P [ND W]. split.
  - eapply Permutation_NoDup; [apply Permutation_map, Permutation_sym, P|exact ND].
  - intros k K. apply W. apply (Permutation_in _ (Permutation_map fst P)). exact K.
Qed.

Lemma no_args_proper : forall d l, no_args d -> d = Some l -> proper_args l.
Proof. intros d l [->| ->] E; [discriminate|]. injection E as <-. split; [constructor|intros k []]. Qed.

Ltac proper := split; [cbn; distinct|cbn; intros z Z; repeat (destruct Z as [<-|Z]; [known_word|]); destruct Z].

Lemma column_writable : forall p k, describes_column p k -> writable_primitive p.
Proof.
  intros p k D. destruct D as [n alpha E ED N EH V|h a b E ED EH P Va Vb|h m r s nu E ED EH P Vr Vs Vn]; split.
  - rewrite E. known_word.
  - split.
    + intros d. rewrite ED. intros [= <-]. proper.
    + eexists. split; [exact EH|]. proper.
  - rewrite E. known_word.
  - split; [intros d; now apply no_args_proper|]. exists h. split; [exact EH|]. eapply proper_perm; [exact P|]. proper.
  - rewrite E. known_word.
  - split; [intros d; now apply no_args_proper|]. exists h. split; [exact EH|]. eapply proper_perm; [exact P|]. proper.
Qed.

Lemma rows_writable : forall p, describes_rows p -> writable_primitive p.
Proof.
  intros p (alpha & E & ED & EH & V). split; [rewrite E; known_word|].
  split; [intros d; now apply no_args_proper|]. eexists. split; [exact EH|]. proper.
Qed.

Lemma model_writable : forall ast, describes_model ast -> Forall writable_view ast.
Proof.
  intros ast (_ & _ & D). apply Forall_forall. intros v V. destruct (D v V) as (R & NE & C). split; [now apply rows_writable|].
  split; [exact NE|]. intros p P. destruct (C p P) as [k K]. eapply column_writable, K.
Qed.

(** ** Views *)

Lemma compile_view : forall v, describes_rows (fst v) -> snd v <> [] -> (forall p, In p (snd v) -> exists k, describes_column p k) ->
  NoDup (map ast_output (fst v :: snd v)) ->
  exists calls m, (do y <- yget "view" (view_yaml v); embedded_compile_row_mixture y) = Ok calls /\ construct_view calls = Ok m /\
    shows_view v m /\ outputs m = map ast_output (fst v :: snd v) /\ inputs m = [].
Proof.
  intros [r ps] DR NE DC ND. cbn [fst snd] in *.
  destruct (construct_rows r DR) as (s & L & C & F & O & Hy). assert (WR := rows_writable r DR).
  assert (CS : exists calls bs, oseq (map embedded_compile_primitive (map primitive_yaml ps)) = Ok calls /\
     oseq (map construct calls) = Ok bs /\ Forall2 shows ps bs /\
     Forall2 (fun p d => fresh d /\ dist_o d = ast_output p /\ kind_of d <> KTable) ps bs).
  { clear NE ND. induction ps as [|p ps IH]; [exists [], []; repeat split; constructor|].
    destruct IH as (calls & bs & E1 & E2 & F1 & F2); [intros; apply DC; now right|].
    destruct (DC p (or_introl eq_refl)) as [k K]. destruct (construct_column p k K) as (c & d & Lp & Cp & Fp & Op & Kp & Hp).
    exists (mkCall c (ast_output p) (kwargs_of p) :: calls), (d :: bs). split.
    { cbn [map oseq]. rewrite (compile_primitive p c) by (auto; apply (column_writable p k K)). rewrite E1. reflexivity. }
    split; [cbn [map oseq]; rewrite Cp, E2; reflexivity|]. split; constructor; auto.
    - split; [exact Op|]. split; [|exact Hp]. intros k' K'.
      destruct (construct_column p k' K') as (c' & d' & Lp' & Cp' & _ & _ & Kp' & _). congruence.
    - split; [exact Fp|]. split; [exact Op|]. rewrite Kp. destruct K; discriminate. }
  destruct CS as (calls & bs & E1 & E2 & F1 & F2).
  assert (OUT : map dist_o bs = map ast_output ps).
  { clear - F2. induction F2 as [|p d ps bs (_ & E & _) F2 IH]; [reflexivity|]. cbn. congruence. }
  inversion ND as [|? ? NI NDp]; subst. rewrite <- OUT in NI, NDp.
  assert (FF : forall b, In b bs -> reachable b /\ dist_data b = [] /\ kind_of b <> KTable).
  { intros b Hb. destruct (F2_in_r _ _ _ F2 b Hb) as (p & Hp & FR & _ & KT). destruct (fresh_facts b FR). auto. }
  exists (mkCall "CRP" (ast_output r) (kwargs_of r), calls), (new_flexmix (DCrp s) (CProd (map CDist bs))).
  split.
  { unfold view_yaml. cbn [fst snd yget]. destruct ps as [|p ps]; [congruence|].
    match goal with |- context [dget "view" [("view", ?y)]] => change (dget "view" [("view", y)]) with (Ok y) end. cbn [obind].
    unfold embedded_compile_row_mixture. cbn [yget].
    match goal with |- context [dget "row clustering model" [("row clustering model", ?y); ?z]] =>
      change (dget "row clustering model" [("row clustering model", y); z]) with (Ok y) end.
    match goal with |- context [dget "distribution models" [?z; ("distribution models", ?y)]] =>
      change (dget "distribution models" [z; ("distribution models", y)]) with (Ok y) end.
    cbn [obind yfirst]. rewrite (compile_primitive r "CRP") by (auto; apply WR). cbn [obind yitems].
    rewrite E1. reflexivity. }
  split.
  { unfold construct_view. cbn [fst snd]. rewrite C. cbn [obind]. rewrite E2. cbn [obind].
    rewrite bases_product by (auto; intros; apply FF; assumption). reflexivity. }
  assert (NV : new_view (new_flexmix (DCrp s) (CProd (map CDist bs)))).
  { destruct (fresh_facts _ F) as [R0 D0]. exists s, bs. split; [reflexivity|]. split.
    - apply (cr_flexible (DCrp s) (CProd (map CDist bs)) (crp_support s)); [exact R0|reflexivity| |].
      + apply (cr_product (map CDist bs)); [|apply bases_product; [intros; apply FF; assumption|exact NDp]].
        intros c Hc. apply in_map_iff in Hc. destruct Hc as (b & <- & Hb). apply cr_prim. apply FF. exact Hb.
      + rewrite outputs_prod. cbn [dist_o]. rewrite O. exact NI.
    - split; [exact D0|]. split; [intros ->; inversion F2; subst; congruence|]. intros d Hd. destruct (FF d Hd) as (_ & X & Y). auto. }
  split.
  { split; [exact NV|]. exists s, bs. split; [reflexivity|]. split; [|exact F1]. split; [exact O|]. split; [|exact Hy].
    cbn [fst]. intros k K. exfalso. destruct DR as (alpha & E & _). destruct K; congruence. }
  split.
  - change (outputs (new_flexmix (DCrp s) (CProd (map CDist bs)))) with (crp_o s :: outputs (CProd (map CDist bs))).
    rewrite outputs_prod, OUT, O. reflexivity.
  - destruct (new_view_good _ NV) as (RE & _). apply wf_inputs. apply creachable_wf. exact RE.
Qed.

Lemma interpret_ok : forall ast, describes_model ast -> exists X, interpret_ast ast = Ok (CProd X) /\ crosscat X /\ Forall2 shows_view ast X.
Proof.
  intros ast D. assert (W := model_writable ast D). destruct D as (NE & ND & D).
  unfold interpret_ast. rewrite ast_text by (apply writable_hypers, W). cbn [obind].
  unfold compile_core_dsl_to_embedded_dsl.
  rewrite yaml_load_text; [|exact NE|now apply ast_proper|eapply Forall_impl; [|exact W]; intros v (A & _ & B); auto].
  cbn [obind yitems]. rewrite map_map.
  assert (CS : exists calls X, oseq (map (fun x => do v <- yget "view" (view_yaml x); embedded_compile_row_mixture v) ast) = Ok calls /\
     oseq (map construct_view calls) = Ok X /\ Forall2 shows_view ast X /\
     flat_map outputs X = map ast_output (flat_map (fun v : ast_view => fst v :: snd v) ast) /\ flat_map inputs X = []).
  { clear NE W. induction ast as [|v ast IH]; [exists [], []; repeat split; constructor|].
    cbn [flat_map] in ND. rewrite map_app in ND.
    destruct IH as (calls & X & E1 & E2 & F & O & IN); [apply (NoDup_app_parts _ _ ND)|intros; apply D; now right|].
    destruct (D v (or_introl eq_refl)) as (DR & NEv & DC).
    destruct (compile_view v DR NEv DC (proj1 (NoDup_app_parts _ _ ND))) as (c & m & C1 & C2 & S & Om & Im).
    exists (c :: calls), (m :: X). split; [cbn [map oseq]; rewrite C1, E1; reflexivity|].
    split; [cbn [map oseq]; rewrite C2, E2; reflexivity|]. split; [constructor; assumption|].
    split; [cbn [flat_map]; rewrite map_app, Om, O; reflexivity|]. cbn [flat_map]. now rewrite Im, IN. }
  destruct CS as (calls & X & E1 & E2 & F & O & IN). rewrite E1. cbn [obind]. unfold interpret_embedded_dsl. rewrite E2. cbn [obind].
  exists X. split.
  - rewrite new_product_ok; [|rewrite O; exact ND|rewrite IN; intros i []]. f_equal. f_equal.
    unfold flatten_products. clear - F. induction F as [|v m ast X S F IH]; [reflexivity|]. cbn [flat_map].
    destruct S as (_ & s & bs & -> & _). cbn [app new_flexmix]. f_equal. exact IH.
  - split; [|exact F]. split; [|rewrite O; exact ND].
    intros m Hm. destruct (F2_in_r _ _ _ F m Hm) as (v & _ & NV & _). destruct (new_view_good m NV) as (RE & Sh & K & _).
    split; [apply creachable_grown; exact RE|auto].
Qed.

(** ** The AST of a model *)

Lemma find_alike : forall o ds ds', alike ds ds' ->
  match find (fun d => dist_o d =? o) ds' with Some d => Some (kind_of d) | None => None end =
  match find (fun d => dist_o d =? o) ds with Some d => Some (kind_of d) | None => None end.
Proof.
  intros o. unfold alike. induction ds as [|d ds IH]; intros [|d' ds'] E; try discriminate; [reflexivity|].
  cbn in E. injection E as E1 E2 E3. cbn [find]. rewrite E1. destruct (dist_o d =? o); [now rewrite E2|]. now apply IH.
Qed.

Lemma crosscat_view : forall m, grown m -> sheet m -> consistent m -> exists s bs cs r2i r2c,
  m = mkview s bs cs r2i r2c /\ wf m /\ bs <> [] /\ forall d, In d bs -> dinv d /\ kind_of d <> KTable.
Proof.
  intros m G Sh K. assert (W := grown_wf m G). destruct Sh as [s bs cs r2i r2c NB B C].
  exists s, bs, cs, r2i, r2c. split; [reflexivity|]. split; [exact W|]. split; [exact NB|].
  intros d D. destruct (view_parts _ _ _ _ _ W) as (_ & Db & _). split; [now apply Db|now apply B].
Qed.

Lemma convert_column : forall d, dinv d -> in_language d -> visible_hypers d -> describes_column (convert_primitive_to_ast d) (kind_of d).
Proof.
  intros d D L V. destruct d as [s|s|s|s|s|s]; destruct L as [[k E]|[E|E]]; try discriminate E.
  - cbn [kind_of]. apply (describes_categorical _ (cat_k s) (cat_alpha s)); try reflexivity.
    + apply D.
    + apply (V "alpha"); [now left|discriminate].
  - apply (describes_poisson _ (dist_get_hypers (DPoi s)) (poi_a s) (poi_b s)); try reflexivity.
    + now left.
    + apply (V "a"); [now left|discriminate].
    + apply (V "b"); [right; now left|discriminate].
  - apply (describes_normal _ (dist_get_hypers (DNrm s)) (nrm_m s) (nrm_r s) (nrm_s s) (nrm_nu s)); try reflexivity.
    + now left.
    + apply (V "r"); [right; now left|discriminate].
    + apply (V "s"); [do 2 right; now left|discriminate].
    + apply (V "nu"); [do 3 right; now left|discriminate].
Qed.

Lemma convert_rows : forall s, visible_hypers (DCrp s) -> describes_rows (convert_primitive_to_ast (DCrp s)).
Proof.
  intros s V. exists (crp_alpha s). split; [reflexivity|]. split; [now left|]. split; [reflexivity|].
  apply (V "alpha"); [now left|discriminate].
Qed.

(** The AST of a view. *)
Definition ast_of (m : cgpm) : ast_view :=
  match m with
  | CMix _ div (CFlexArr _ base _ _) _ => (convert_primitive_to_ast div, map convert_primitive_to_ast (leaves base))
  | _ => (mkAst 0 "" None None, [])
  end.

Lemma leaves_prod : forall bs, leaves (CProd (map CDist bs)) = bs.
Proof. intros bs. cbn [leaves]. induction bs as [|b bs IH]; [reflexivity|]. cbn in *. now f_equal. Qed.

Lemma convert_view : forall s bs cs r2i r2c, convert_view_to_ast (mkview s bs cs r2i r2c) = Ok (ast_of (mkview s bs cs r2i r2c)).
Proof.
  intros. unfold mkview, convert_view_to_ast, ast_of, convert_product_to_ast. rewrite leaves_prod, map_map.
  rewrite (oseq_map_ok (fun x => Ok (convert_primitive_to_ast x)) convert_primitive_to_ast) by auto. reflexivity.
Qed.

Lemma shows_hypers : forall d d', dinv d -> kind_of d' = kind_of d -> in_language d \/ kind_of d = KTable ->
  (forall k q, lookup k (dist_get_hypers d) = Some q -> exists x, lookup k (dist_get_hypers d') = Some x /\ rounded q x) ->
  hypers_rounded d d'.
Proof.
  intros d d' D K L S. unfold hypers_rounded.
  assert (one : forall k q x, lookup k (dist_get_hypers d) = Some q -> lookup k (dist_get_hypers d') = Some x -> rounded q x).
  { intros k q x E1 E2. destruct (S k q E1) as (y & E3 & R). congruence. }
  destruct d as [s|s|s|s|s|s]; destruct L as [[[k E]|[E|E]]|E]; try discriminate E; destruct d' as [s'|s'|s'|s'|s'|s']; try discriminate K;
    cbn [dist_get_hypers] in *; repeat (apply Forall2_cons; [match goal with |- _ /\ rounded (snd (?k, _)) _ => split; [reflexivity|apply (one k); reflexivity] end|]); apply Forall2_nil.
Qed.

Lemma reinterpret_ok : forall X, crosscat X -> X <> [] ->
  (forall m s, In m X -> divider m = Some s -> visible_hypers s) ->
  (forall m d, In m X -> In d (base_columns m) -> in_language d /\ visible_hypers d) ->
  exists ast X', convert_crosscat_to_ast (CProd X) = Ok ast /\ interpret_ast ast = Ok (CProd X') /\ crosscat X' /\ Forall2 emptied X X'.
Proof.
  intros X [G ND] NE VD VC. exists (map ast_of X).
  assert (V : forall m, In m X -> exists s bs cs r2i r2c, m = mkview s bs cs r2i r2c /\ wf m /\ bs <> [] /\ forall d, In d bs -> dinv d /\ kind_of d <> KTable).
  { intros m Hm. destruct (G m Hm) as (A & B & C). now apply crosscat_view. }
  assert (DM : describes_model (map ast_of X)).
  { split; [destruct X; [congruence|discriminate]|]. split.
    - replace (map ast_output (flat_map (fun v : ast_view => fst v :: snd v) (map ast_of X))) with (flat_map outputs X); [exact ND|].
      clear ND G VD VC NE. induction X as [|m X IH]; [reflexivity|]. cbn [flat_map map]. rewrite map_app, IH by (intros; apply V; now right). f_equal.
      destruct (V m (or_introl eq_refl)) as (s & bs & cs & r2i & r2c & -> & _). unfold ast_of, mkview. rewrite leaves_prod.
      change (crp_o s :: outputs (CProd (map CDist bs)) = map ast_output (convert_primitive_to_ast (DCrp s) :: map convert_primitive_to_ast bs)).
      rewrite outputs_prod. cbn [map]. rewrite map_map. reflexivity.
    - intros v Hv. apply in_map_iff in Hv as (m & <- & Hm). assert (VDm := VD m). assert (VCm := VC m).
      destruct (V m Hm) as (s & bs & cs & r2i & r2c & -> & W & NB & B).
      unfold ast_of, mkview. rewrite leaves_prod. cbn [fst snd].
      split; [apply convert_rows; now apply VDm|]. split; [destruct bs; [congruence|discriminate]|].
      intros p P. apply in_map_iff in P as (d & <- & Hd). exists (kind_of d).
      destruct (VCm d Hm) as [L VH]; [unfold base_columns, mkview; now rewrite leaves_prod|]. apply convert_column; auto. now apply B. }
  destruct (interpret_ok _ DM) as (X' & E & CX & F). exists X'. split.
  { unfold convert_crosscat_to_ast. apply oseq_map_ok. intros m Hm. destruct (V m Hm) as (s & bs & cs & r2i & r2c & -> & _). apply convert_view. }
  split; [exact E|]. split; [exact CX|].
  clear E CX DM NE ND. revert X' F. induction X as [|m X IH]; intros X' F; cbn [map] in F; inversion F as [|? m' ? X1 S F' E1 E2]; subst; constructor.
  2: { apply IH; [intros n Hn; apply G; now right|intros n s Hn; apply VD; now right|intros n d Hn; apply VC; now right|intros n Hn; apply V; now right|exact F']. }
  destruct S as (NV & s' & bs' & -> & (O' & _ & HS) & FB). assert (VCm := VC m).
  destruct (V m (or_introl eq_refl)) as (s & bs & cs & r2i & r2c & -> & W & NB & B).
  assert (D0 := proj1 (view_parts _ _ _ _ _ W)).
  unfold ast_of, mkview in O', HS, FB. rewrite leaves_prod in FB. cbn [fst snd] in *.
  assert (FB' : Forall2 (fun d d' => dist_o d' = dist_o d /\ kind_of d' = kind_of d /\ hypers_rounded d d') bs bs').
  { assert (B' : forall d, In d bs -> dinv d /\ in_language d /\ visible_hypers d).
    { intros d Hd. split; [now apply B|]. apply VCm; [now left|]. unfold base_columns, mkview. now rewrite leaves_prod. }
    clear - FB B'. revert bs' FB. induction bs as [|d bs IH]; intros bs' FB; cbn [map] in FB; inversion FB as [|? d' ? bs1 S FB1 E1 E2]; subst; constructor.
    - destruct (B' d (or_introl eq_refl)) as (D & L & VH). destruct S as (O & K & Hh).
      assert (KE : kind_of d' = kind_of d) by (apply K; now apply convert_column).
      split; [exact O|]. split; [exact KE|]. apply shows_hypers; auto.
    - apply IH; auto. intros; apply B'; now right. }
  assert (AL : alike bs bs').
  { unfold alike. clear - FB'. induction FB' as [|d d' bs bs' (A & B & _) F IH]; [reflexivity|]. cbn. now rewrite A, B, IH. }
  split; [exact NV|]. split; [exact O'|]. split.
  { change (outputs (CProd (map CDist bs')) = outputs (CProd (map CDist bs))). rewrite !outputs_prod.
    unfold alike in AL. apply (f_equal (map fst)) in AL. rewrite !map_map in AL. exact AL. }
  split.
  { intros o. unfold kind_at, mkview, new_flexmix, new_flexarr. rewrite !leaves_prod. now apply find_alike. }
  split.
  { exists (DCrp s), (DCrp s'). split; [reflexivity|]. split; [reflexivity|]. apply shows_hypers; auto. }
  unfold base_columns, mkview, new_flexmix, new_flexarr. rewrite !leaves_prod. clear - FB'.
  induction FB' as [|d d' bs bs' (_ & _ & A) F IH]; constructor; auto.
Qed.
