(** Reloading regressions, forests and chains. *)
From Coq Require Import List ZArith QArith Qcanon Reals Bool String Lia Lra.
From Verif Require Import Base Xr Samp Lgamma Prims Cgpm Lib SpecPrims PrimsInv SpecComp CompInv Meta MetaThm SpecWalks WalksThm SimShape PropMeta Chain Regress RegressMeta SpecRegress RegressThm SpecReload.
Import ListNotations.
Local Open Scope Z_scope.

Lemma oseq_map_back : forall {A B} (f : B -> out A) (g : A -> B) l, (forall x, In x l -> f (g x) = Ok x) -> oseq (map f (map g l)) = Ok l.
Proof.
  intros A B f g l H. induction l as [|a l IH]; [reflexivity|]. cbn [map oseq]. rewrite (H a) by now left. rewrite IH by (intros; apply H; now right). reflexivity.
Qed.

Lemma optional_back : forall {A} (f : A -> meta) (g : meta -> out A) o, (forall x, g (f x) = Ok x) -> as_optional g (optional f o) = Ok o.
Proof. intros A f g [x|] H; cbn; [rewrite H|]; reflexivity. Qed.

Lemma levels_back : forall ls, blist (as_optional as_int) (BList (map (optional MInt) ls)) = Ok ls.
Proof. intros ls. unfold blist. apply oseq_map_back. intros x _. apply optional_back. reflexivity. Qed.

Lemma yraw_back : forall d, NoDup (keys d) ->
  as_yraw (BList (map (fun p => BList [BPlain (MInt (fst p)); BList (map (optional MCell) (snd p))]) d)) = Ok d.
Proof.
  intros d ND. unfold as_yraw, blist. rewrite oseq_map_back; [cbn [omap]; now rewrite dict_of_NoDup|]. intros [k v] _. cbn [bplain obind fst snd as_int blist].
  rewrite oseq_map_back; [reflexivity|]. intros o _. apply optional_back. reflexivity.
Qed.

Lemma ydum_back : forall d : dict Z (list val), NoDup (keys d) -> as_items as_int (as_list as_cell) (items MInt (fun y => MList (map MCell y)) d) = Ok d.
Proof.
  intros d ND. unfold as_items, items, as_list. rewrite oseq_map_back; [cbn [omap]; now rewrite dict_of_NoDup|].
  intros [k v] _. cbn [as_pair fst snd as_int obind]. rewrite oseq_map_back; [reflexivity|]. reflexivity.
Qed.

(** The table that is in any metadata that starts as written. *)
Lemma table_back : forall t l t0, sound t -> t_out t0 = t_out t -> t_ins t0 = t_ins t -> t_levels t0 = t_levels t ->
  read_table (BDict (table_to_meta t ++ l)) t0 = Ok t.
Proof.
  intros t l t0 (ND & K1 & K2 & _) E1 E2 E3. unfold read_table. cbn -[items as_items as_yraw as_list]. rewrite cells_ok by exact ND. cbn [obind].
  rewrite yraw_back by (rewrite K1; exact ND). cbn [obind]. rewrite ydum_back by (rewrite K2; exact ND). cbn [obind]. rewrite E1, E2, E3. destruct t. reflexivity.
Qed.

Lemma ints_read : forall t l, read_ints "outputs" (BDict (table_to_meta t ++ l)) = Ok [t_out t] /\ read_ints "inputs" (BDict (table_to_meta t ++ l)) = Ok (t_ins t).
Proof. intros t l. split; [reflexivity|]. unfold read_ints. cbn -[as_list]. apply list_ok. Qed.

(** The constructor accepts the outputs, inputs and levels of a table it made. *)
Definition made (t : table) : Prop := exists t0, new_table [t_out t] (t_ins t) (t_levels t) = Ok t0.

Lemma made_new : forall outs ins levels t, new_table outs ins levels = Ok t -> outs = [t_out t] /\ ins = t_ins t /\ levels = t_levels t.
Proof.
  intros outs ins levels t H. unfold new_table in H. destruct outs as [|o [|? ?]]; try discriminate.
  destruct (negb (Nat.eqb (List.length ins) 0)); cbn [oassert obind] in H; [|discriminate].
  destruct (negb (memb o ins)); cbn [oassert obind] in H; [|discriminate].
  destruct (Nat.eqb (List.length levels) (List.length ins)) eqn:E; cbn [oassert obind] in H; [|discriminate]. injection H as <-. auto.
Qed.

Lemma observe_same : forall code t rid obs inp, let t' := fst (table_observe code t rid obs inp) in
  t_out t' = t_out t /\ t_ins t' = t_ins t /\ t_levels t' = t_levels t.
Proof. intros code t rid obs inp. unfold table_observe. repeat (match goal with |- context [if ?b then _ else _] => destruct b | |- context [match ?b with Ok _ => _ | Err _ => _ end] => destruct b end; cbn; auto). Qed.

Lemma unobserve_same : forall t rid, let t' := fst (table_unobserve t rid) in
  t_out t' = t_out t /\ t_ins t' = t_ins t /\ t_levels t' = t_levels t.
Proof. intros t rid. unfold table_unobserve. repeat (match goal with |- context [match ?b with Some _ => _ | None => _ end] => destruct b end; cbn; auto). Qed.

Definition same_frame (t t' : table) : Prop := t_out t' = t_out t /\ t_ins t' = t_ins t /\ t_levels t' = t_levels t.

Lemma handled_table : forall g g', handled g g' -> sound (lr_table g) ->
  sound (lr_table g') /\ same_frame (lr_table g) (lr_table g') /\ lr_mu g' = lr_mu g /\ lr_V g' = lr_V g.
Proof.
  induction 1 as [g|g g' rid obs inp H IH|g g' rid H IH|g g' h H IH]; intros S.
  - repeat split; auto; apply S.
  - destruct (IH S) as (A & (B1 & B2 & B3) & C & D). rewrite linreg_observe_table. unfold linreg_observe. destruct (table_observe _ _ _ _ _) as [t r] eqn:E. cbn.
    assert (X := observe_same dummy_code_linreg (lr_table g') rid obs inp). assert (Y := observe_sound dummy_code_linreg (lr_table g') rid obs inp A). rewrite E in X, Y. cbn in X, Y.
    destruct X as (X1 & X2 & X3). split; [exact Y|]. split; [|auto]. split; [congruence|]. split; congruence.
  - destruct (IH S) as (A & (B1 & B2 & B3) & C & D). rewrite linreg_unobserve_table. unfold linreg_unobserve. destruct (table_unobserve _ _) as [t r] eqn:E. cbn.
    assert (X := unobserve_same (lr_table g') rid). assert (Y := unobserve_sound (lr_table g') rid A). rewrite E in X, Y. cbn in X, Y.
    destruct X as (X1 & X2 & X3). split; [exact Y|]. split; [|auto]. split; [congruence|]. split; congruence.
  - specialize (IH S). unfold linreg_set_hypers. match goal with |- context [match ?x with Ok _ => _ | Err _ => _ end] => destruct x as [[ha hb]|e] end; exact IH.
Qed.

Lemma new_linreg_facts : forall outs ins levels a b mu V g, new_linreg outs ins levels a b mu V = Ok g ->
  new_table [t_out (lr_table g)] (t_ins (lr_table g)) (t_levels (lr_table g)) = Ok (lr_table g) /\
  lr_mu g = match mu with Some mu => mu | None => repeat 0%R (Z.to_nat (dimension (lr_table g))) end /\
  lr_V g = match V with Some V => V | None => eye (Z.to_nat (dimension (lr_table g))) end.
Proof.
  intros outs ins levels a b mu V g H. unfold new_linreg in H. destruct (new_table outs ins levels) as [t|e] eqn:E; [|discriminate].
  cbn [obind] in H. injection H as <-. cbn [lr_table lr_mu lr_V]. destruct (made_new _ _ _ _ E) as (-> & -> & ->). auto.
Qed.

(** What is read back of a regression. *)
Lemma linreg_back : forall g0 g, fresh_linreg g0 -> handled g0 g ->
  build_part (part_to_meta (PLinreg g)) =
  Ok (PLinreg (mkLinreg (lr_table g) (lr_a g) (lr_b g) (repeat 0%R (Z.to_nat (dimension (lr_table g)))) (eye (Z.to_nat (dimension (lr_table g)))))).
Proof.
  intros g0 g F H. destruct (fresh_sound g0 F) as (S0 & _). destruct F as (outs & ins & levels & a & b & mu & V & E).
  destruct (new_linreg_facts _ _ _ _ _ _ _ _ E) as (NT & _). destruct (handled_table g0 g H S0) as (S & (E1 & E2 & E3) & _).
  rewrite <- E1, <- E2, <- E3 in NT. cbn [part_to_meta]. unfold build_part, linreg_to_meta.
  set (b0 := BDict _). assert (BF : bfield "factory" b0 = Ok (BPlain (MList [MStr "cgpm2.linreg"; MStr "LinearRegression"]))) by reflexivity.
  rewrite BF. cbn [obind bplain as_pair as_str fst snd]. change (eqb "cgpm2.linreg" "cgpm2.linreg" && eqb "LinearRegression" "LinearRegression")%string with true. cbv iota.
  unfold linreg_from_meta. destruct (ints_read (lr_table g) [("distargs", BDict [levels_to_meta (lr_table g)]);
     ("hypers", BDict (map (fun p => (fst p, BPlain (MReal (snd p)))) (linreg_get_hypers g))); bfactory "cgpm2.linreg" "LinearRegression"]%string) as [R1 R2].
  fold b0 in R1, R2. rewrite R1, R2. cbn [obind].
  assert (BH : bfield "hypers" b0 = Ok (BDict [("a", BPlain (MReal (lr_a g))); ("b", BPlain (MReal (lr_b g)))]%string)) by reflexivity. rewrite BH. cbn [obind].
  assert (BL : read_levels b0 = Ok (t_levels (lr_table g))).
  { unfold read_levels. assert (BD : bfield "distargs" b0 = Ok (BDict [levels_to_meta (lr_table g)])) by reflexivity. rewrite BD. cbn [obind].
    assert (BE : bfield "levels" (BDict [levels_to_meta (lr_table g)]) = Ok (BList (map (optional MInt) (t_levels (lr_table g))))) by reflexivity. rewrite BE. cbn [obind]. apply levels_back. }
  rewrite BL. cbn [obind].
  assert (HA : read_hyper "a" (BDict [("a", BPlain (MReal (lr_a g))); ("b", BPlain (MReal (lr_b g)))]%string) = Ok (Some (lr_a g))) by reflexivity.
  assert (HB : read_hyper "b" (BDict [("a", BPlain (MReal (lr_a g))); ("b", BPlain (MReal (lr_b g)))]%string) = Ok (Some (lr_b g))) by reflexivity.
  rewrite HA, HB. cbn [obind]. unfold new_linreg. rewrite NT. cbn [obind lr_table lr_a lr_b lr_mu lr_V].
  unfold b0. rewrite table_back by auto. cbn [obind omap].
  assert (ED : dimension (lr_table g0) = dimension (lr_table g)) by (unfold dimension; rewrite E3; reflexivity). rewrite ED. reflexivity.
Qed.

Lemma default_back : forall g, default_prior g -> build_part (part_to_meta (PLinreg g)) = Ok (PLinreg g).
Proof.
  intros g (outs & ins & levels & a & b & g0 & E & H). assert (F : fresh_linreg g0) by (exists outs, ins, levels, a, b, None, None; exact E).
  rewrite (linreg_back g0 g F H). destruct (new_linreg_facts _ _ _ _ _ _ _ _ E) as (_ & M & W).
  destruct (handled_table g0 g H (proj1 (fresh_sound g0 F))) as (_ & (_ & _ & E3) & M' & W').
  assert (ED : dimension (lr_table g0) = dimension (lr_table g)) by (unfold dimension; rewrite E3; reflexivity).
  rewrite <- ED, <- M, <- W, <- M', <- W'. destruct g. reflexivity.
Qed.

(** ** Forests *)

Lemma dict_of_keys : forall {K V} `{EqDec K} (l : list (K * V)), NoDup (keys (dict_of l)).
Proof.
  intros K V E l. unfold dict_of. assert (G : forall d : dict K V, NoDup (keys d) -> NoDup (keys (fold_left (fun d p => dset (fst p) (snd p) d) l d))).
  { induction l as [|p l IH]; intros d ND; [exact ND|]. cbn [fold_left]. apply IH. apply NoDup_keys_dset. exact ND. }
  apply G. constructor.
Qed.

Lemma forest_facts : forall fit b f, forest_state fit b f ->
  sound (fo_table f) /\ (exists t0, new_table [t_out (fo_table f)] (t_ins (fo_table f)) (t_levels (fo_table f)) = Ok t0) /\ NoDup (keys (fo_classes f)).
Proof.
  intros fit b f H. induction H as [outs ins k levels f E|b f rid obs inp H IH|b f rid H IH|b f f' H IH E].
  - unfold new_forest in E. destruct (new_table outs ins levels) as [t|e] eqn:NT; [|discriminate]. cbn [obind] in E. injection E as <-. cbn [fo_table fo_classes].
    split; [apply (new_sound _ _ _ _ NT)|]. split; [|constructor]. destruct (made_new _ _ _ _ NT) as (-> & -> & ->). eauto.
  - destruct IH as (A & (t0 & B) & C). unfold forest_observe. destruct (table_observe _ _ _ _ _) as [t r] eqn:E. cbn.
    assert (X := observe_same dummy_code_forest (fo_table f) rid obs inp). assert (Y := observe_sound dummy_code_forest (fo_table f) rid obs inp A). rewrite E in X, Y. cbn in X, Y.
    destruct X as (-> & -> & ->). eauto.
  - destruct IH as (A & (t0 & B) & C). unfold forest_unobserve. destruct (table_unobserve _ _) as [t r] eqn:E. cbn.
    assert (X := unobserve_same (fo_table f) rid). assert (Y := unobserve_sound (fo_table f) rid A). rewrite E in X, Y. cbn in X, Y.
    destruct X as (-> & -> & ->). eauto.
  - destruct IH as (A & B & C). unfold forest_transition in E. destruct (negb _); [discriminate|]. destruct (fit _ _) as [[cl pr]|e]; [|discriminate].
    injection E as <-. cbn. split; [exact A|]. split; [exact B|]. apply dict_of_keys.
Qed.

Lemma classes_back : forall d : dict val nat, NoDup (keys d) ->
  as_items as_cell (fun m => do z <- as_int m; Ok (Z.to_nat z)) (items MCell (fun i => MInt (Z.of_nat i)) d) = Ok d.
Proof.
  intros d ND. unfold as_items, items, as_list. rewrite oseq_map_back; [cbn [omap]; now rewrite dict_of_NoDup|].
  intros [k v] _. cbn [as_pair fst snd as_cell as_int obind]. rewrite Nat2Z.id. reflexivity.
Qed.

Lemma forest_back : forall fit b f, forest_state fit b f -> build_part (part_to_meta (PForest f)) = Ok (PForest f).
Proof.
  intros fit b f H. destruct (forest_facts fit b f H) as (S & (t0 & NT) & NC). cbn [part_to_meta]. unfold build_part, forest_to_meta.
  set (l := [_; _; _; _; _]). set (b0 := BDict _). assert (BF : bfield "factory" b0 = Ok (BPlain (MList [MStr "cgpm2.forest"; MStr "RandomForest"]))) by reflexivity.
  rewrite BF. cbn [obind bplain as_pair as_str fst snd].
  change (eqb "cgpm2.forest" "cgpm2.linreg" && eqb "RandomForest" "LinearRegression")%string with false.
  change (eqb "cgpm2.forest" "cgpm2.forest" && eqb "RandomForest" "RandomForest")%string with true. cbv iota.
  unfold forest_from_meta. destruct (ints_read (fo_table f) l) as [R1 R2]. fold b0 in R1, R2. rewrite R1, R2. cbn [obind].
  assert (BH : bfield "hypers" b0 = Ok (BDict [])) by reflexivity. rewrite BH. cbn [obind].
  assert (BD : bfield "distargs" b0 = Ok (BDict [levels_to_meta (fo_table f); ("k", BPlain (MInt (fo_k f)))]%string)) by reflexivity. 
  assert (BL : read_levels b0 = Ok (t_levels (fo_table f))).
  { unfold read_levels. rewrite BD. cbn [obind].
    assert (BE : bfield "levels" (BDict [levels_to_meta (fo_table f); ("k", BPlain (MInt (fo_k f)))]%string) = Ok (BList (map (optional MInt) (t_levels (fo_table f))))) by reflexivity.
    rewrite BE. cbn [obind]. apply levels_back. }
  rewrite BD, BL. cbn [obind].
  assert (BK : bfield "k" (BDict [levels_to_meta (fo_table f); ("k", BPlain (MInt (fo_k f)))]%string) = Ok (BPlain (MInt (fo_k f)))) by reflexivity.
  rewrite BK. cbn [obind bplain as_int]. unfold new_forest. rewrite NT. cbn [obind fo_table fo_k].
  assert (BC : bfield "class_to_index" b0 = Ok (BPlain (items MCell (fun i => MInt (Z.of_nat i)) (fo_classes f)))) by reflexivity.
  assert (BR : bfield "regressor" b0 = Ok (match fo_regressor f with None => BNone | Some p => BPickle p end)) by reflexivity.
  rewrite BC, BR. destruct (made_new _ _ _ _ NT) as (M1 & M2 & M3). injection M1 as M1. unfold b0. rewrite table_back by auto. cbn [obind bplain]. rewrite classes_back by exact NC. cbn [obind].
  destruct (fo_regressor f) as [p|] eqn:ER; cbn [obind omap]; rewrite <- ER; destruct f; reflexivity.
Qed.

(** ** Chains *)

Lemma model_back : forall c, grown c -> build_part (part_to_meta (PModel c)) = Ok (PModel c).
Proof.
  intros c G. cbn [part_to_meta]. assert (RT := C30_round_trip c G). unfold build_part. cbn [bfield bplain].
  destruct (field "factory" (to_meta c)) as [m|e] eqn:EF.
  - cbn [omap obind bplain]. destruct (as_pair as_str as_str m) as [f|e] eqn:EP.
    + cbn [obind].
      assert (NF : eqb (fst f) "cgpm2.linreg"%string = false /\ eqb (fst f) "cgpm2.forest"%string = false).
      { destruct c as [d|cs|ix cs r|ix b cs r|fl dv ar r]; [destruct d| | | |destruct fl]; cbn in EF; injection EF as <-; cbn in EP; injection EP as <-; split; reflexivity. }
      destruct NF as [-> ->]. cbn [andb]. rewrite RT. reflexivity.
    + exfalso. unfold build in RT. assert (P := mdepth_pos (to_meta c)). destruct (mdepth (to_meta c)) as [|n]; [lia|]. cbn [from_meta] in RT. rewrite EF in RT. cbn [obind] in RT. rewrite EP in RT. discriminate.
  - exfalso. unfold build in RT. assert (P := mdepth_pos (to_meta c)). destruct (mdepth (to_meta c)) as [|n]; [lia|]. cbn [from_meta] in RT. rewrite EF in RT. discriminate.
Qed.

Lemma part_back : forall fit m, sound_part fit m -> build_part (part_to_meta m) = Ok m.
Proof. intros fit [c|g|f] H; [apply model_back; exact H|apply default_back; exact H|destruct H as [b H]; apply (forest_back fit b f H)]. Qed.

(** Only the names of outputs and inputs decide whether a chain can be made. *)
Lemma owner_frame : forall ns ns', Forall2 (fun n n' => n_outs n' = n_outs n /\ n_ins n' = n_ins n) ns ns' -> forall i v, owner_from i ns' v = owner_from i ns v.
Proof. induction 1 as [|n n' ns ns' [E _] F IH]; intros i v; [reflexivity|]. cbn [owner_from]. rewrite E, IH. reflexivity. Qed.

Lemma chain_frame : forall ns ns' acc ch, Forall2 (fun n n' => n_outs n' = n_outs n /\ n_ins n' = n_ins n) ns ns' -> new_chain ns acc = Ok ch ->
  exists ch', new_chain ns' acc = Ok ch' /\ ch_accuracy ch' = ch_accuracy ch.
Proof.
  intros ns ns' acc ch F H. unfold new_chain in *.
  assert (O : flat_map n_outs ns' = flat_map n_outs ns) by (clear H; induction F as [|n n' ns ns' [E _] F IH]; [reflexivity|cbn [flat_map]; rewrite E, IH; reflexivity]).
  assert (L : List.length ns' = List.length ns) by (clear H O; induction F; cbn [List.length]; congruence).
  assert (A : adjacency ns' = adjacency ns).
  { unfold adjacency. rewrite L. f_equal. assert (OF := owner_frame ns ns' F 0).
    assert (G : forall a b, Forall2 (fun n n' => n_outs n' = n_outs n /\ n_ins n' = n_ins n) a b -> map (parents ns') b = map (parents ns) a).
    { induction 1 as [|n n' a b [_ E] F' IH]; [reflexivity|]. cbn [map]. rewrite IH. f_equal. unfold parents. rewrite E. f_equal.
      apply flat_map_ext. intros v. unfold owner. rewrite OF. reflexivity. }
    apply G. exact F. }
  unfold validate_chain in *. rewrite O, A, L. destruct (oassert _) as [u|e]; [|discriminate]. cbn [obind] in *.
  destruct (topological_sort _ _) as [topo|e]; [|discriminate]. cbn [obind] in *. injection H as <-. eexists. split; [reflexivity|]. reflexivity.
Qed.

Definition same_names (m m' : part) : Prop := part_outs m' = part_outs m /\ part_ins m' = part_ins m.

Lemma names_node : forall ms ms', Forall2 same_names ms ms' -> Forall2 (fun n n' => n_outs n' = n_outs n /\ n_ins n' = n_ins n) (map part_node ms) (map part_node ms').
Proof.
  assert (O : forall m, n_outs (part_node m) = part_outs m /\ n_ins (part_node m) = part_ins m) by (intros [c|g|f]; split; reflexivity).
  induction 1 as [|m m' ms ms' [A B] F IH]; [constructor|]. cbn [map]. constructor; [|exact IH].
  destruct (O m) as [-> ->], (O m') as [-> ->]. auto.
Qed.

Definition stays fit (m m' : part) : Prop := sound_part fit m' /\ same_names m m'.

Lemma stays_refl : forall fit m, sound_part fit m -> stays fit m m.
Proof. intros fit m H. split; [exact H|split; reflexivity]. Qed.

Lemma always_self : forall {A} (m : samp A), always m (fun a => possible m (fun b => b = a)).
Proof.
  induction m as [a|ws k IH|l k IH|n p k IH|lo hi k IH|n k IH]; cbn [always possible]; [reflexivity| | | | |].
  - intros i L W. specialize (IH i). revert IH. apply always_imp. intros a Ha. eauto.
  - intros q L. specialize (IH q). revert IH. apply always_imp. intros a Ha. eauto.
  - intros q. specialize (IH q). revert IH. apply always_imp. intros a Ha. eauto.
  - intros q L. specialize (IH q). revert IH. apply always_imp. intros a Ha. eauto.
  - intros q L. specialize (IH q). revert IH. apply always_imp. intros a Ha. eauto.
Qed.

Lemma part_observe_stays : forall fit m rid obs inp, sound_part fit m -> always (part_observe m rid obs inp) (fun p => stays fit m (fst p)).
Proof.
  intros fit [c|g|f] rid obs inp H; cbn [part_observe].
  - apply always_bind. assert (W := grown_wf c H). assert (A := observe_wf c W rid obs inp). assert (B := always_self (observe c rid obs inp)).
    assert (AB := always_and _ _ _ A B). revert AB. apply always_imp. intros [c' r] [[W' O] P]. cbn [always fst] in *.
    split; [exact (gr_observe c rid obs inp c' r H P)|]. split; [exact O|]. cbn [part_ins]. rewrite !wf_inputs; auto.
  - cbn [always fst]. destruct H as (outs & ins & levels & a & b & g0 & E & HH). split; [exists outs, ins, levels, a, b, g0; split; [exact E|apply handled_observe; exact HH]|].
    unfold same_names. cbn [part_outs part_ins]. rewrite linreg_observe_table. destruct (observe_same dummy_code_linreg (lr_table g) rid obs inp) as (-> & -> & _). auto.
  - cbn [always fst]. destruct H as [b H]. split; [exists b; apply forest_observed; exact H|]. unfold same_names. cbn [part_outs part_ins]. unfold forest_observe.
    assert (X := observe_same dummy_code_forest (fo_table f) rid obs inp). destruct (table_observe _ _ _ _ _) as [t r]. cbn in *. destruct X as (-> & -> & _). auto.
Qed.

Lemma stays_all : forall fit ms, (forall m, In m ms -> sound_part fit m) -> Forall2 (stays fit) ms ms.
Proof. intros fit ms H. induction ms as [|m ms IH]; constructor; [apply stays_refl; apply H; now left|apply IH; intros; apply H; now right]. Qed.

Lemma network_observe_stays : forall fit ms rid obs inp, (forall m, In m ms -> sound_part fit m) ->
  always (network_observe ms rid obs inp) (fun p => Forall2 (stays fit) ms (fst p)).
Proof.
  intros fit ms rid obs inp. induction ms as [|m ms IH]; intros H; [constructor|].
  assert (Hm : sound_part fit m) by (apply H; now left). assert (Hms : forall m', In m' ms -> sound_part fit m') by (intros; apply H; now right). specialize (IH Hms).
  cbn [network_observe]. destruct (interd (part_outs m) obs) as [|q oc].
  - apply always_bind. revert IH. apply always_imp. intros [ms' r] F. cbn [always fst snd] in *. constructor; [apply stays_refl; exact Hm|exact F].
  - apply always_bind. assert (A := part_observe_stays fit m rid (q :: oc) (merged (interd (part_ins m) obs) (interd (part_ins m) inp)) Hm). revert A. apply always_imp.
    intros [m' r] S. cbn [fst snd] in *. destruct r as [u|e].
    + apply always_bind. revert IH. apply always_imp. intros [ms' r'] F. cbn [always fst snd] in *. constructor; assumption.
    + cbn [always fst]. constructor; [exact S|apply stays_all; exact Hms].
Qed.

Lemma part_unobserve_stays : forall fit m rid, sound_part fit m -> stays fit m (fst (part_unobserve_one m rid)).
Proof.
  intros fit m rid H. assert (X : stays fit m (fst (part_unobserve m rid))).
  { destruct m as [c|g|f]; cbn [part_unobserve].
    - destruct (unobserve c rid) as [c' r] eqn:E. cbn [fst]. assert (K := unobserve_wf c (grown_wf c H) rid). rewrite E in K. destruct K as [W' O]. cbn in W', O.
      split; [exact (gr_unobserve c rid c' r H E)|]. split; [exact O|]. cbn [part_ins]. rewrite !wf_inputs; auto. apply grown_wf. exact H.
    - destruct (linreg_unobserve g rid) as [g' r] eqn:E. cbn [fst]. assert (EG : g' = fst (linreg_unobserve g rid)) by (rewrite E; reflexivity). rewrite EG.
      destruct H as (outs & ins & levels & a & b & g0 & E0 & HH). split; [exists outs, ins, levels, a, b, g0; split; [exact E0|apply handled_unobserve; exact HH]|].
      unfold same_names. cbn [part_outs part_ins]. rewrite linreg_unobserve_table. destruct (unobserve_same (lr_table g) rid) as (-> & -> & _). auto.
    - destruct (forest_unobserve f rid) as [f' r] eqn:E. cbn [fst]. assert (EF : f' = fst (forest_unobserve f rid)) by (rewrite E; reflexivity).
      destruct H as [b H]. split; [exists b; rewrite EF; apply forest_unobserved; exact H|]. unfold same_names. cbn [part_outs part_ins]. rewrite EF. unfold forest_unobserve.
      assert (X := unobserve_same (fo_table f) rid). destruct (table_unobserve _ _) as [t r']. cbn in *. destruct X as (-> & -> & _). auto. }
  unfold part_unobserve_one. destruct (part_unobserve m rid) as [m' [p|e]]; exact X.
Qed.

(** What always holds of a chain. *)
Definition steady fit (nw : network) : Prop :=
  (forall m, In m (nw_parts nw) -> sound_part fit m) /\ new_network (nw_parts nw) (Some (nw_accuracy nw)) = Ok nw.

Lemma stays_steady : forall fit nw ms, steady fit nw -> Forall2 (stays fit) (nw_parts nw) ms -> steady fit (mkNetwork ms (nw_accuracy nw)).
Proof.
  intros fit nw ms [SP NN] F. split; cbn [nw_parts nw_accuracy].
  - clear NN. induction F as [|m m' l l' [S _] F IH]; [intros m []|]. intros x [<-|Hx]; [exact S|]. apply IH; [|exact Hx]. intros y Hy. apply SP. now right.
  - unfold new_network in *. destruct (new_chain (map part_node (nw_parts nw)) _) as [ch|e] eqn:E; [|discriminate]. cbn [obind] in NN. injection NN as NN.
    destruct (chain_frame (map part_node (nw_parts nw)) (map part_node ms) (Some (nw_accuracy nw)) ch) as (ch' & E' & A).
    + apply names_node. clear - F. induction F as [|m m' l l' [_ S] F IH]; constructor; auto.
    + exact E.
    + rewrite E'. cbn [obind]. rewrite A. assert (Q : ch_accuracy ch = nw_accuracy nw) by (apply (f_equal nw_accuracy) in NN; exact NN). rewrite Q. reflexivity.
Qed.

Lemma network_steady : forall fit nw, sound_network fit nw -> steady fit nw.
Proof.
  induction 1 as [ms acc nw SP E|nw rid obs inp ms r H IH P|nw rid ms r H IH E].
  - assert (EP : nw_parts nw = ms) by (unfold new_network in E; destruct (new_chain _ _); [|discriminate]; injection E as <-; reflexivity).
    split; [rewrite EP; exact SP|]. rewrite EP. unfold new_network in *. destruct (new_chain (map part_node ms) acc) as [ch|e] eqn:EC; [|discriminate]. cbn [obind] in E. injection E as <-.
    cbn [nw_accuracy]. unfold new_chain in *. destruct (validate_chain _); [|discriminate]. cbn [obind] in *. destruct (topological_sort _ _); [|discriminate]. cbn [obind] in *.
    injection EC as <-. cbn [ch_accuracy]. destruct acc as [[|acc1]|]; reflexivity.
  - apply stays_steady; [exact IH|]. destruct (always_possible _ _ _ (network_observe_stays fit (nw_parts nw) rid obs inp (proj1 IH)) P) as (p & F & ->). exact F.
  - apply stays_steady; [exact IH|]. unfold network_unobserve in E. destruct (nw_parts nw) as [|m0 l0] eqn:EM; [injection E as <- _; constructor|].
    rewrite <- EM in *. injection E as E _. rewrite <- E. rewrite map_map. destruct IH as [SP _]. clear - SP.
    induction (nw_parts nw) as [|m l IH]; constructor; [apply part_unobserve_stays; apply SP; now left|apply IH; intros; apply SP; now right].
Qed.

Lemma network_back : forall fit nw, sound_network fit nw -> network_from_meta (network_to_meta nw) = Ok nw.
Proof.
  intros fit nw H. destruct (network_steady fit nw H) as [SP NN]. unfold network_from_meta, network_to_meta.
  set (b := BDict _). assert (B1 : bfield "cgpms" b = Ok (BList (map part_to_meta (nw_parts nw)))) by reflexivity.
  assert (B2 : bfield "accuracy" b = Ok (BPlain (MInt (Z.of_nat (nw_accuracy nw))))) by reflexivity. rewrite B1, B2. cbn [obind blist].
  rewrite oseq_map_back by (intros x Hx; apply (part_back fit); apply SP; exact Hx). cbn [obind bplain as_int]. rewrite Nat2Z.id. exact NN.
Qed.
