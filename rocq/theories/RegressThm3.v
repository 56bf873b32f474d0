(** Forests, and networks with regressions in them. (Proofs.) *)
From Coq Require Import List ZArith QArith Qcanon Reals Bool String Permutation Lia Lra.
From Verif Require Import Base Xr Samp Lgamma Prims Cgpm Lib SpecPrims PrimsInv PrimsDens Meta MetaThm CompInv SimShape Regress SpecRegress RegressThm.
Import ListNotations.
Local Open Scope Z_scope.

(** ** Forests *)

Lemma forest_observe_eq : forall f rid obs inp, fst (forest_observe f rid obs inp) =
  mkForest (fst (table_observe dummy_code_forest (fo_table f) rid obs inp)) (fo_k f) (fo_classes f) (fo_regressor f).
Proof. intros. unfold forest_observe. destruct (table_observe _ _ _ _ _). reflexivity. Qed.

Lemma forest_unobserve_eq : forall f rid, fst (forest_unobserve f rid) =
  mkForest (fst (table_unobserve (fo_table f) rid)) (fo_k f) (fo_classes f) (fo_regressor f).
Proof. intros. unfold forest_unobserve. destruct (table_unobserve _ _). reflexivity. Qed.

Lemma forest_table : forall fit b f, forest_state fit b f -> kept_table dummy_code_forest (fo_table f).
Proof.
  induction 1 as [outs ins k levels f H|b f rid obs inp F IH|b f rid F IH|b f f' F IH H].
  - unfold new_forest in H. destruct (new_table outs ins levels) as [t|e] eqn:E; cbn [obind] in H; [|discriminate]. injection H as <-. cbn. econstructor. exact E.
  - rewrite forest_observe_eq. cbn [fo_table]. constructor. exact IH.
  - rewrite forest_unobserve_eq. cbn [fo_table]. constructor. exact IH.
  - unfold forest_transition in H. destruct (negb _); [discriminate|]. destruct (fit _ _) as [[cl pr]|e]; [|discriminate]. injection H as <-. exact IH.
Qed.

Lemma forest_untrained : forall fit f, forest_state fit false f -> fo_classes f = [] /\ fo_regressor f = None.
Proof.
  intros fit f F. remember false as b eqn:B. induction F as [outs ins k levels f H|b f rid obs inp F IH|b f rid F IH|b f f' F IH H]; try discriminate.
  - unfold new_forest in H. destruct (new_table outs ins levels) as [t|e]; cbn [obind] in H; [|discriminate]. injection H as <-. auto.
  - rewrite forest_observe_eq. apply IH. exact B.
  - rewrite forest_unobserve_eq. apply IH. exact B.
Qed.

Lemma forest_fitted : forall fit f, honest fit -> forest_state fit true f -> exists classes predict,
  fo_classes f = combine classes (seq 0 (List.length classes)) /\ fo_regressor f = Some predict /\
  NoDup classes /\ forall y, List.length (predict y) = List.length classes /\
      (forall p, In p (predict y) -> p = NInf \/ exists r, p = Fin r) /\ rsum (map xexp (predict y)) = 1%R.
Proof.
  intros fit f HO F. remember true as b eqn:B. induction F as [outs ins k levels f H|b f rid obs inp F IH|b f rid F IH|b f f' F IH H]; try discriminate.
  - rewrite forest_observe_eq. apply IH. exact B.
  - rewrite forest_unobserve_eq. apply IH. exact B.
  - unfold forest_transition in H. destruct (negb _); [discriminate|].
    destruct (fit (map fst (filter (fun p => negb (existsb (eqb VNan) (fst p)) && negb (eqb VNan (snd p))) (combine (values (t_ydum (fo_table f))) (values (t_data (fo_table f))))))
      (map snd (filter (fun p => negb (existsb (eqb VNan) (fst p)) && negb (eqb VNan (snd p))) (combine (values (t_ydum (fo_table f))) (values (t_data (fo_table f))))))) as [[cl pr]|e] eqn:E; [|discriminate].
    injection H as <-. destruct (HO _ _ _ _ E) as (ND & PR). exists cl, pr. cbn [fo_classes fo_regressor]. split; [|auto].
    apply dict_of_NoDup. unfold keys.
    replace (map fst (combine cl (seq 0 (List.length cl)))) with cl; [exact ND|].
    assert (G : forall (u : list val) n, map fst (combine u (seq n (List.length u))) = u) by (induction u as [|a u IHu]; intros n; cbn; [reflexivity|f_equal; auto]).
    symmetry. apply G.
Qed.

Lemma classes_lookup : forall (cl : list val) n i x, NoDup cl -> nth_error cl i = Some x -> lookup x (combine cl (seq n (List.length cl))) = Some (n + i)%nat.
Proof.
  induction cl as [|a cl IH]; intros n i x ND H; [destruct i; discriminate|]. inversion ND as [|? ? NI ND']; subst. cbn [List.length seq combine lookup].
  destruct i as [|i].
  - cbn in H. injection H as ->. destruct (eq_dec x x); [f_equal; lia|congruence].
  - cbn in H. destruct (eq_dec x a) as [->|_]; [exfalso; apply NI; eapply nth_error_In; eauto|]. rewrite (IH (Datatypes.S n) i x ND' H). f_equal. lia.
Qed.

Lemma classes_keys : forall (cl : list val) n, keys (combine cl (seq n (List.length cl))) = cl.
Proof. unfold keys. induction cl as [|a cl IH]; intros n; cbn; [reflexivity|f_equal; auto]. Qed.

Lemma classes_none : forall (cl : list val) n x, ~ In x cl -> lookup x (combine cl (seq n (List.length cl))) = None.
Proof. intros cl n x NI. apply lookup_None. rewrite classes_keys. exact NI. Qed.

(** A list of log probabilities can be drawn from. *)
Lemma probabilities_flip : forall ws, (forall p, In p ws -> p = NInf \/ exists r, p = Fin r) -> rsum (map xexp ws) = 1%R ->
  log_pflip ws = Flip (map xexp ws) (fun i => Ret (Ok i)).
Proof.
  intros ws G S. unfold log_pflip. replace (existsb is_bad ws) with false.
  - destruct (existsb is_fin ws) eqn:E; [reflexivity|]. exfalso.
    assert (Z : forall p, In p ws -> p = NInf).
    { intros p Hp. destruct (G p Hp) as [->|(r & ->)]; [reflexivity|]. assert (X : existsb is_fin ws = true) by (apply existsb_exists; exists (Fin r); auto). congruence. }
    assert (SZ : rsum (map xexp ws) = 0%R).
    { clear S E G. induction ws as [|w ws IH]; [reflexivity|]. unfold rsum in *. cbn [map fold_right]. rewrite IH by (intros; apply Z; now right). rewrite (Z w (or_introl eq_refl)). cbn. lra. }
    lra.
  - symmetry. apply Bool.not_true_is_false. intros H. apply existsb_exists in H. destruct H as (p & Hp & B). destruct (G p Hp) as [->|(r & ->)]; discriminate.
Qed.

(** A question about a row that is not recorded. *)
Lemma target_ok : forall t rid o x, o = t_out t -> omem rid (t_data t) = false -> table_target t rid [(o, x)] [] = Ok x.
Proof.
  intros t rid o x -> M. unfold table_target. rewrite M. cbn [negb oassert obind keys map fst]. rewrite eqb_refl. cbn [oassert obind]. unfold dget. cbn [lookup].
  destruct (eq_dec (t_out t) (t_out t)); [reflexivity|congruence].
Qed.

Lemma unrecorded_none : forall t rid, omem rid (t_data t) = false -> match rid with Some r => lookup r (t_data t) | None => None end = None.
Proof. intros t [r|] M; [|reflexivity]. unfold omem, dmem in M. destruct (lookup r (t_data t)); [discriminate|reflexivity]. Qed.

Lemma one_of_none : forall x, dictify_samples x [] None = Err AssertionError.
Proof. reflexivity. Qed.

(** simulate of a trained forest is one weighted choice. *)
Lemma trained_simulate : forall f rid inp classes predict y, omem rid (t_data (fo_table f)) = false ->
  fo_classes f = combine classes (seq 0 (List.length classes)) -> fo_regressor f = Some predict -> process_inputs dummy_code_forest (fo_table f) inp = Ok y ->
  List.length (predict y) = List.length classes -> (forall p, In p (predict y) -> p = NInf \/ exists r, p = Fin r) -> rsum (map xexp (predict y)) = 1%R ->
  exists k, forest_simulate f rid [t_out (fo_table f)] [] inp None = Flip (map xexp (predict y)) k /\
    forall i x, nth_error classes i = Some x -> k i = Ret (Ok (SOne [(t_out (fo_table f), x)])).
Proof.
  intros f rid inp classes predict y M CL RG P LE G S. unfold forest_simulate. rewrite eqb_refl. cbn [oassert obind]. rewrite (unrecorded_none _ rid M), RG, P.
  cbn [srepeat]. rewrite (probabilities_flip _ G S). eexists. split; [reflexivity|]. intros i x H. cbn. rewrite CL, classes_keys, H. reflexivity.
Qed.

Lemma trained_logpdf : forall f rid inp classes predict y i x, omem rid (t_data (fo_table f)) = false ->
  fo_classes f = combine classes (seq 0 (List.length classes)) -> fo_regressor f = Some predict -> process_inputs dummy_code_forest (fo_table f) inp = Ok y ->
  NoDup classes -> List.length (predict y) = List.length classes -> nth_error classes i = Some x ->
  exists p, nth_error (predict y) i = Some p /\ forest_logpdf f rid [(t_out (fo_table f), x)] [] inp = Ok p.
Proof.
  intros f rid inp classes predict y i x M CL RG P ND LE H. unfold forest_logpdf. rewrite (target_ok _ rid _ x eq_refl M). cbn [obind].
  rewrite CL, (classes_lookup classes 0 i x ND H), RG, P. cbn [obind Nat.add].
  destruct (nth_error (predict y) i) as [p|] eqn:E; [eauto|]. exfalso. apply nth_error_None in E. assert (i < List.length classes)%nat by (apply nth_error_Some; congruence). lia.
Qed.

(** Whatever a trained forest can simulate has positive probability. *)
Lemma trained_support : forall fit f rid inp, honest fit -> forest_state fit true f -> omem rid (t_data (fo_table f)) = false ->
  NoDup (t_ins (fo_table f)) -> legal_or_missing (fo_table f) inp ->
  always (forest_simulate f rid [t_out (fo_table f)] [] inp None) (fun r => exists x l,
    r = Ok (SOne [(t_out (fo_table f), x)]) /\ forest_logpdf f rid [(t_out (fo_table f), x)] [] inp = Ok (Fin l)).
Proof.
  intros fit f rid inp HO F M ND LG. destruct (forest_fitted fit f HO F) as (cl & pr & CL & RG & NDc & PR).
  assert (SO := kept_sound _ _ (forest_table _ _ _ F)). destruct SO as (_ & _ & _ & LEN & _).
  assert (P := forest_vector (fo_table f) inp ND LEN LG). set (y := vector (code_forest (fo_table f)) (fo_table f) inp) in P. destruct (PR y) as (LE & G & S).
  destruct (trained_simulate f rid inp cl pr y M CL RG P LE G S) as (k & -> & K). cbn [always]. rewrite map_length. intros i Hi W.
  destruct (nth_error cl i) as [x|] eqn:E; [|apply nth_error_None in E; lia]. rewrite (K i x E). cbn [always].
  destruct (trained_logpdf f rid inp cl pr y i x M CL RG P NDc LE E) as (p & EP & LP). exists x.
  assert (NP : nth i (map xexp (pr y)) 0%R = xexp p). { apply nth_error_nth. rewrite nth_error_map, EP. reflexivity. }
  rewrite NP in W. destruct (G p) as [->|(r & ->)]; [eapply nth_error_In; eauto|cbn in W; lra|]. exists r. auto.
Qed.

Lemma expect_flip : forall {A} ws (k : nat -> samp A) f, expect (Flip ws k) f = rsum (map (fun i => (nth i ws 0 / rsum ws * expect (k i) f)%R) (seq 0 (List.length ws))).
Proof. reflexivity. Qed.

Lemma rsum_one : forall (f : nat -> R) l j, NoDup l -> In j l -> (forall i, In i l -> i <> j -> f i = 0%R) -> rsum (map f l) = f j.
Proof.
  intros f l. induction l as [|a l IH]; intros j ND Hj Z; [destruct Hj|]. inversion ND as [|? ? NI ND']; subst. unfold rsum in *. cbn [map fold_right].
  destruct Hj as [<-|Hj].
  - assert (E : fold_right Rplus 0%R (map f l) = 0%R).
    { clear IH ND ND'. induction l as [|b l IHl]; [reflexivity|]. cbn.
      assert (Zb : f b = 0%R) by (apply Z; [right; now left|intros ->; apply NI; now left]).
      assert (X : fold_right Rplus 0%R (map f l) = 0%R); [|lra].
      apply IHl; [intros i [H|H] NE; apply Z; auto; [now left|right; now right]|intros H; apply NI; now right]. }
    lra.
  - rewrite (IH j ND' Hj) by (intros i Hi NE; apply Z; [now right|exact NE]). rewrite (Z a); [lra|now left|]. intros ->. contradiction.
Qed.

(** The probability that simulate answers with a value is what logpdf says. *)
Lemma trained_law : forall fit f rid inp x, honest fit -> forest_state fit true f -> omem rid (t_data (fo_table f)) = false ->
  NoDup (t_ins (fo_table f)) -> legal_or_missing (fo_table f) inp ->
  exists l, forest_logpdf f rid [(t_out (fo_table f), x)] [] inp = Ok l /\
    expect (forest_simulate f rid [t_out (fo_table f)] [] inp None)
      (fun r => match r with Ok (SOne [(_, x')]) => if eq_dec x' x then 1%R else 0%R | _ => 0%R end) = xexp l.
Proof.
  intros fit f rid inp x HO F M ND LG. destruct (forest_fitted fit f HO F) as (cl & pr & CL & RG & NDc & PR).
  assert (SO := kept_sound _ _ (forest_table _ _ _ F)). destruct SO as (_ & _ & _ & LEN & _).
  assert (P := forest_vector (fo_table f) inp ND LEN LG). set (y := vector (code_forest (fo_table f)) (fo_table f) inp) in P. destruct (PR y) as (LE & G & S).
  destruct (trained_simulate f rid inp cl pr y M CL RG P LE G S) as (k & -> & K). rewrite expect_flip, S, map_length.
  set (h := fun r : out sres => match r with Ok (SOne [(_, x')]) => if eq_dec x' x then 1%R else 0%R | _ => 0%R end).
  assert (KI : forall i, In i (seq 0 (List.length (pr y))) -> expect (k i) h = match nth_error cl i with Some x' => if eq_dec x' x then 1%R else 0%R | None => 0%R end).
  { intros i Hi. apply in_seq in Hi. destruct (nth_error cl i) as [x'|] eqn:E; [|apply nth_error_None in E; lia]. rewrite (K i x' E). reflexivity. }
  destruct (in_dec eq_dec x cl) as [IN|NI].
  - apply In_nth_error in IN. destruct IN as (j & EJ). destruct (trained_logpdf f rid inp cl pr y j x M CL RG P NDc LE EJ) as (p & EP & LP). exists p. split; [exact LP|].
    assert (JL : (j < List.length (pr y))%nat) by (apply nth_error_Some; congruence).
    assert (NP : nth j (map xexp (pr y)) 0%R = xexp p). { apply nth_error_nth. rewrite nth_error_map, EP. reflexivity. }
    rewrite (rsum_one _ _ j (seq_NoDup _ _)).
    + rewrite KI by (apply in_seq; lia). rewrite EJ, NP. destruct (eq_dec x x); [field|congruence].
    + apply in_seq. lia.
    + intros i Hi NE. rewrite KI by exact Hi. destruct (nth_error cl i) as [x'|] eqn:E; [|lra]. destruct (eq_dec x' x) as [->|_]; [|lra].
      exfalso. apply NE. apply (proj1 (NoDup_nth_error cl) NDc); [apply nth_error_Some; congruence|congruence].
  - exists NInf. split.
    + unfold forest_logpdf. rewrite (target_ok _ rid _ x eq_refl M). cbn [obind]. rewrite CL, (classes_none cl 0 x NI). reflexivity.
    + cbn [xexp]. rewrite (map_ext_in _ (fun _ => 0%R)).
      * generalize (seq 0 (List.length (pr y))). intros l. induction l as [|a l IH]; [reflexivity|]. unfold rsum in *. cbn. rewrite IH. lra.
      * intros i Hi. rewrite KI by exact Hi. destruct (nth_error cl i) as [x'|] eqn:E; [|lra]. destruct (eq_dec x' x) as [->|_]; [|lra]. exfalso. apply NI. eapply nth_error_In; eauto.
Qed.

(** ** Networks *)

Lemma mergedl_absent : forall (ds : list row) o, (forall d, In d ds -> ~ In o (keys d)) -> lookup o (mergedl ds) = None.
Proof.
  intros ds o H. unfold mergedl.
  assert (G : forall (ds : list row) acc, (forall d, In d ds -> ~ In o (keys d)) -> lookup o acc = None ->
    lookup o (fold_left (fun acc d => fold_left (fun d' kv => dset (fst kv) (snd kv) d') d acc) ds acc) = None).
  { clear. induction ds as [|d ds IH]; intros acc H A; [exact A|]. cbn [fold_left]. apply IH; [intros; apply H; now right|].
    assert (ND := H d (or_introl eq_refl)). clear IH H. revert acc A. induction d as [|[k v] d IHd]; intros acc A; [exact A|]. cbn [fold_left fst snd]. apply IHd.
    - intros X. apply ND. now right.
    - rewrite lookup_dset_neq; [exact A|]. intros ->. apply ND. now left. }
  apply G; [exact H|reflexivity].
Qed.

(** What unobserve leaves of a regression. *)
Lemma linreg_unobserved : forall g rid x, sound (lr_table g) -> lookup rid (t_data (lr_table g)) = Some x ->
  exists g', linreg_unobserve g rid = (g', Err TypeError) /\ sound (lr_table g') /\ lookup rid (t_data (lr_table g')) = None /\
    (forall r, r <> rid -> lookup r (t_data (lr_table g')) = lookup r (t_data (lr_table g))) /\
    t_N (lr_table g') = t_N (lr_table g) /\ Z.of_nat (List.length (t_data (lr_table g'))) < t_N (lr_table g').
Proof.
  intros g rid x S L. assert (SU := unobserve_sound (lr_table g) rid S). unfold linreg_unobserve.
  destruct (unobserve_cases (lr_table g) rid S) as [(N & _)|(x' & L' & E)]; [congruence|]. rewrite E in SU |- *. eexists. split; [reflexivity|].
  cbn [lr_table fst] in *. split; [exact SU|]. cbn [t_data t_N]. destruct S as (ND & _ & _ & _ & _ & LN).
  split; [apply lookup_ddel_eq; exact ND|]. split; [intros r NE; apply lookup_ddel_neq; exact NE|]. split; [reflexivity|].
  assert (X := ddel_length _ _ _ L). lia.
Qed.

Lemma forest_unobserved_state : forall f rid x, sound (fo_table f) -> lookup rid (t_data (fo_table f)) = Some x ->
  exists f', forest_unobserve f rid = (f', Err TypeError) /\ sound (fo_table f') /\ lookup rid (t_data (fo_table f')) = None /\
    (forall r, r <> rid -> lookup r (t_data (fo_table f')) = lookup r (t_data (fo_table f))) /\
    t_N (fo_table f') = t_N (fo_table f) /\ Z.of_nat (List.length (t_data (fo_table f'))) < t_N (fo_table f').
Proof.
  intros f rid x S L. assert (SU := unobserve_sound (fo_table f) rid S). unfold forest_unobserve.
  destruct (unobserve_cases (fo_table f) rid S) as [(N & _)|(x' & L' & E)]; [congruence|]. rewrite E in SU |- *. eexists. split; [reflexivity|].
  cbn [fo_table fst] in *. split; [exact SU|]. cbn [t_data t_N]. destruct S as (ND & _ & _ & _ & _ & LN).
  split; [apply lookup_ddel_eq; exact ND|]. split; [intros r NE; apply lookup_ddel_neq; exact NE|]. split; [reflexivity|].
  assert (X := ddel_length _ _ _ L). lia.
Qed.

(** A regression whose count is too high. *)
Lemma excess_score : forall g, sound (lr_table g) -> Z.of_nat (List.length (t_data (lr_table g))) < t_N (lr_table g) -> linreg_score g = Err AssertionError.
Proof. intros g S H. unfold linreg_score, linreg_marginal. rewrite excess_posterior by assumption. reflexivity. Qed.

Lemma excess_logpdf : forall g rid T C inp, sound (lr_table g) -> Z.of_nat (List.length (t_data (lr_table g))) < t_N (lr_table g) ->
  exists e, linreg_logpdf g rid T C inp = Err e.
Proof.
  intros g rid T C inp S H. unfold linreg_logpdf. destruct (table_target _ _ _ _) as [x|e]; [|eexists; reflexivity]. cbn [obind].
  destruct (process_inputs _ _ _) as [y|e]; [|eexists; reflexivity]. cbn [obind]. unfold linreg_predictive. rewrite excess_posterior by assumption. eexists. reflexivity.
Qed.

Lemma excess_legal : forall g rid x inp, sound (lr_table g) -> Z.of_nat (List.length (t_data (lr_table g))) < t_N (lr_table g) ->
  omem rid (t_data (lr_table g)) = false -> NoDup (t_ins (lr_table g)) -> legal (lr_table g) inp ->
  linreg_logpdf g rid [(t_out (lr_table g), x)] [] inp = Err AssertionError /\
  linreg_simulate1 g rid [t_out (lr_table g)] [] inp = Ret (Err AssertionError).
Proof.
  intros g rid x inp S H M ND LG. assert (LEN := proj1 (proj2 (proj2 (proj2 S)))).
  unfold linreg_logpdf, linreg_simulate1. rewrite (target_ok _ rid _ x eq_refl M). cbn [obind]. rewrite (linreg_vector _ _ ND LEN LG). cbn [obind]. split.
  - unfold linreg_predictive. rewrite excess_posterior by assumption. reflexivity.
  - rewrite eqb_refl. cbn [oassert obind]. rewrite (unrecorded_none _ rid M). rewrite excess_posterior by assumption. reflexivity.
Qed.

(** A network with a regression in it. *)
Lemma network_loses : forall ms1 g ms2 rid x, sound (lr_table g) -> lookup rid (t_data (lr_table g)) = Some x ->
  (forall m obs inp, In m (ms1 ++ ms2) -> snd (part_unobserve m rid) = Ok (obs, inp) -> ~ In (t_out (lr_table g)) (keys obs)) ->
  exists ms1' g' ms2' obs inp, network_unobserve (ms1 ++ PLinreg g :: ms2) rid = (ms1' ++ PLinreg g' :: ms2', Ok (obs, inp)) /\
    List.length ms1' = List.length ms1 /\ lookup rid (t_data (lr_table g')) = None /\ t_N (lr_table g') = t_N (lr_table g) /\ lookup (t_out (lr_table g)) obs = None.
Proof.
  intros ms1 g ms2 rid x S L OTH. destruct (linreg_unobserved g rid x S L) as (g' & E & _ & LN & _ & NN & _).
  unfold network_unobserve. destruct (ms1 ++ PLinreg g :: ms2) as [|m0 ms0] eqn:EM; [destruct ms1; discriminate|]. rewrite <- EM. clear EM.
  exists (map (fun m => fst (part_unobserve_one m rid)) ms1), g', (map (fun m => fst (part_unobserve_one m rid)) ms2). do 2 eexists. split; [|split; [|split; [exact LN|split; [exact NN|]]]].
  - f_equal. rewrite map_map, map_app. cbn [map]. unfold part_unobserve_one at 2. cbn [part_unobserve]. rewrite E. reflexivity.
  - apply map_length.
  - apply mergedl_absent. intros d Hd. rewrite map_map in Hd. apply in_map_iff in Hd. destruct Hd as (m & <- & Hm). apply in_app_iff in Hm.
    assert (OK : In m (ms1 ++ ms2) -> ~ In (t_out (lr_table g)) (keys (fst (snd (part_unobserve_one m rid))))).
    { intros Hin. assert (O := OTH m). unfold part_unobserve_one. destruct (part_unobserve m rid) as [m' [[obs inp]|e]]; cbn [fst snd] in *; [eapply O; eauto|intros []]. }
    destruct Hm as [Hm|[<-|Hm]]; [apply OK, in_or_app; auto| |apply OK, in_or_app; auto].
    unfold part_unobserve_one. cbn [part_unobserve]. rewrite E. intros [].
Qed.

Lemma network_loses_forest : forall ms1 f ms2 rid x, sound (fo_table f) -> lookup rid (t_data (fo_table f)) = Some x ->
  (forall m obs inp, In m (ms1 ++ ms2) -> snd (part_unobserve m rid) = Ok (obs, inp) -> ~ In (t_out (fo_table f)) (keys obs)) ->
  exists ms1' f' ms2' obs inp, network_unobserve (ms1 ++ PForest f :: ms2) rid = (ms1' ++ PForest f' :: ms2', Ok (obs, inp)) /\
    List.length ms1' = List.length ms1 /\ lookup rid (t_data (fo_table f')) = None /\ t_N (fo_table f') = t_N (fo_table f) /\ lookup (t_out (fo_table f)) obs = None.
Proof.
  intros ms1 g ms2 rid x S L OTH. destruct (forest_unobserved_state g rid x S L) as (g' & E & _ & LN & _ & NN & _).
  unfold network_unobserve. destruct (ms1 ++ PForest g :: ms2) as [|m0 ms0] eqn:EM; [destruct ms1; discriminate|]. rewrite <- EM. clear EM.
  exists (map (fun m => fst (part_unobserve_one m rid)) ms1), g', (map (fun m => fst (part_unobserve_one m rid)) ms2). do 2 eexists. split; [|split; [|split; [exact LN|split; [exact NN|]]]].
  - f_equal. rewrite map_map, map_app. cbn [map]. unfold part_unobserve_one at 2. cbn [part_unobserve]. rewrite E. reflexivity.
  - apply map_length.
  - apply mergedl_absent. intros d Hd. rewrite map_map in Hd. apply in_map_iff in Hd. destruct Hd as (m & <- & Hm). apply in_app_iff in Hm.
    assert (OK : In m (ms1 ++ ms2) -> ~ In (t_out (fo_table g)) (keys (fst (snd (part_unobserve_one m rid))))).
    { intros Hin. assert (O := OTH m). unfold part_unobserve_one. destruct (part_unobserve m rid) as [m' [[obs inp]|e]]; cbn [fst snd] in *; [eapply O; eauto|intros []]. }
    destruct Hm as [Hm|[<-|Hm]]; [apply OK, in_or_app; auto| |apply OK, in_or_app; auto].
    unfold part_unobserve_one. cbn [part_unobserve]. rewrite E. intros [].
Qed.
