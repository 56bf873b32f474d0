(** The score of a regression. (Proofs.) *)
From Coq Require Import List ZArith QArith Qcanon Reals Bool String Permutation Lia Lra.
From Verif Require Import Base Xr Samp Lgamma Prims Cgpm Lib SpecPrims PrimsInv PrimsDens Meta MetaThm Regress SpecRegress RegressThm.
Import ListNotations.
Local Open Scope Z_scope.

(** ** Rows in any order *)

(** The rows a table holds: codes and values. *)
Definition pairs (t : table) : list (list val * val) := combine (values (t_ydum t)) (values (t_data t)).

Lemma sound_lengths : forall t, sound t -> List.length (values (t_ydum t)) = List.length (values (t_data t)).
Proof.
  intros t (_ & _ & K2 & _). unfold values. rewrite !map_length. unfold keys in K2. assert (X := f_equal (@List.length Z) K2). rewrite !map_length in X. exact X.
Qed.

Lemma combine_fst : forall {A B} (u : list A) (v : list B), List.length u = List.length v -> map fst (combine u v) = u.
Proof. intros A B u. induction u as [|a u IH]; intros [|b v] E; try discriminate; [reflexivity|]. cbn. f_equal. apply IH. cbn in E. lia. Qed.

Lemma combine_snd : forall {A B} (u : list A) (v : list B), List.length u = List.length v -> map snd (combine u v) = v.
Proof. intros A B u. induction u as [|a u IH]; intros [|b v] E; try discriminate; [reflexivity|]. cbn. f_equal. apply IH. cbn in E. lia. Qed.

(** The number a value stands for. *)
Definition num (x : val) : R := match x with VQ q => qr q | VNan => 0%R end.
Definition present (x : val) : bool := match x with VQ _ => true | VNan => false end.

Lemma reals_eq : forall l, reals l = if forallb present l then Some (map num l) else None.
Proof.
  induction l as [|x l IH]; [reflexivity|]. unfold reals in *. cbn [fold_right]. rewrite IH. destruct x as [|q]; [reflexivity|]. cbn [forallb present andb map num].
  destruct (forallb present l); reflexivity.
Qed.

Lemma matrix_eq : forall Y, matrix Y = if forallb (forallb present) Y then Some (map (map num) Y) else None.
Proof.
  induction Y as [|y Y IH]; [reflexivity|]. unfold matrix in *. cbn [fold_right]. rewrite IH, reals_eq. cbn [forallb map].
  destruct (forallb present y); [|reflexivity]. cbn [andb]. destruct (forallb (forallb present) Y); reflexivity.
Qed.

Lemma forallb_perm : forall {A} (f : A -> bool) l l', Permutation l l' -> forallb f l = forallb f l'.
Proof.
  intros A f l l' P. induction P as [|x l l' P IH|x y l|l l1 l2 P1 IH1 P2 IH2]; cbn; [reflexivity|now rewrite IH| |congruence].
  destruct (f x), (f y); reflexivity.
Qed.

Lemma combine_maps : forall {A B C} (f : A -> B) (g : A -> C) l, combine (map f l) (map g l) = map (fun a => (f a, g a)) l.
Proof. intros A B C f g l. induction l as [|a l IH]; [reflexivity|]. cbn. now rewrite IH. Qed.

(** A dot product over rows does not depend on their order. *)
Lemma dot_perm : forall {A} (f g : A -> R) l l', Permutation l l' -> dot (map f l) (map g l) = dot (map f l') (map g l').
Proof. intros A f g l l' P. unfold dot. rewrite !combine_maps, !map_map. apply rsum_perm. apply Permutation_map. exact P. Qed.

Lemma mat_mul_perm : forall p (X X' : list (list R)), Permutation X X' -> mat_mul p (transposed p X) X = mat_mul p (transposed p X') X'.
Proof.
  intros p X X' P. unfold mat_mul, transposed. rewrite !map_map. apply map_ext. intros i. apply map_ext. intros j. unfold column. apply dot_perm. exact P.
Qed.

Lemma mat_vec_perm : forall {A} p (f : A -> list R) (g : A -> R) l l', Permutation l l' ->
  mat_vec (transposed p (map f l)) (map g l) = mat_vec (transposed p (map f l')) (map g l').
Proof.
  intros A p f g l l' P. unfold mat_vec, transposed. rewrite !map_map. apply map_ext. intros i. unfold column. rewrite !map_map. apply dot_perm. exact P.
Qed.

Lemma posterior_perm : forall N l l' a b mu V, Permutation l l' ->
  posterior_hypers N (map fst l) (map snd l) a b mu V = posterior_hypers N (map fst l') (map snd l') a b mu V.
Proof.
  intros N l l' a b mu V P. unfold posterior_hypers. rewrite !map_length, (Permutation_length P).
  destruct (N =? 0); [reflexivity|]. rewrite (forallb_perm _ _ _ (Permutation_map fst P)). rewrite !matrix_eq, !reals_eq.
  rewrite (forallb_perm (forallb present) _ _ (Permutation_map fst P)), (forallb_perm present _ _ (Permutation_map snd P)).
  destruct (forallb (forallb present) (map fst l')); [|reflexivity]. destruct (forallb present (map snd l')); [|reflexivity].
  rewrite (mat_mul_perm (List.length mu) (map (map num) (map fst l)) (map (map num) (map fst l'))) by (apply Permutation_map, Permutation_map; exact P).
  rewrite !map_map. rewrite (mat_vec_perm (List.length mu) (fun p => map num (fst p)) (fun p => num (snd p)) l l' P).
  rewrite (dot_perm (fun p => num (snd p)) (fun p => num (snd p)) l l' P). reflexivity.
Qed.

Lemma marginal_perm : forall N l l' a b mu V, Permutation l l' ->
  linreg_marginal N (map fst l) (map snd l) a b mu V = linreg_marginal N (map fst l') (map snd l') a b mu V.
Proof. intros. unfold linreg_marginal. erewrite posterior_perm; eauto. Qed.

Lemma predictive_perm : forall x y N l l' a b mu V, Permutation l l' ->
  linreg_predictive x y N (map fst l) (map snd l) a b mu V = linreg_predictive x y N (map fst l') (map snd l') a b mu V.
Proof.
  intros x y N l l' a b mu V P. unfold linreg_predictive. rewrite (posterior_perm N l l') by exact P.
  assert (E : forall m : list (list val * val), map fst m ++ [y] = map fst (m ++ [(y, x)]) /\ map snd m ++ [x] = map snd (m ++ [(y, x)]))
    by (intros m; rewrite !map_app; split; reflexivity).
  rewrite (proj1 (E l)), (proj2 (E l)), (proj1 (E l')), (proj2 (E l')).
  rewrite (posterior_perm (N + 1) (l ++ [(y, x)]) (l' ++ [(y, x)])) by (apply Permutation_app_tail; exact P). reflexivity.
Qed.

(** ** Observing lists of rows *)

(** A row observe accepts, apart from its row number. *)
Definition good (t : table) (r : Z * row * row) : Prop :=
  let '(_, obs, inp) := r in keys obs = [t_out t] /\ exists y, process_inputs dummy_code_linreg t inp = Ok y.

(** What is stored for a row. *)
Definition stored (t : table) (r : Z * row * row) : list val * val :=
  let '(_, obs, inp) := r in
  (match process_inputs dummy_code_linreg t inp with Ok y => y | Err _ => [] end, match lookup (t_out t) obs with Some x => x | None => VNan end).

Definition rid_of (r : Z * row * row) : Z := fst (fst r).

(** Tables for the same columns. *)
Definition alike (t t' : table) : Prop := t_out t' = t_out t /\ t_ins t' = t_ins t /\ t_levels t' = t_levels t.

Lemma alike_process : forall code t t' inp, alike t t' -> process_inputs code t' inp = process_inputs code t inp.
Proof. intros code t t' inp (_ & E1 & E2). unfold process_inputs, dimension. rewrite E1, E2. reflexivity. Qed.

Lemma alike_good : forall t t' r, alike t t' -> good t' r <-> good t r.
Proof. intros t t' [[rid obs] inp] AL. unfold good. rewrite (alike_process _ t t' inp AL). destruct AL as (-> & _). reflexivity. Qed.

Lemma alike_stored : forall t t' r, alike t t' -> stored t' r = stored t r.
Proof. intros t t' [[rid obs] inp] AL. unfold stored. rewrite (alike_process _ t t' inp AL). destruct AL as (-> & _). reflexivity. Qed.

(** The state after a successful observe. *)
Lemma observe_ok : forall g rid obs inp, sound (lr_table g) ->
  (exists g', linreg_observe g rid obs inp = (g', Ok tt)) <-> (~ In rid (keys (t_data (lr_table g))) /\ good (lr_table g) (rid, obs, inp)).
Proof.
  intros g rid obs inp S. unfold linreg_observe, good. destruct (observe_cases dummy_code_linreg (lr_table g) rid obs inp) as [(e & E)|(x & y & L & K & LO & P & E)].
  - split.
    + intros (g' & H). rewrite E in H. discriminate.
    + intros (NI & K & y & P). exfalso. unfold table_observe in E. apply lookup_None in NI. unfold dmem in E. rewrite NI, K, eqb_refl in E. cbn [negb] in E.
      unfold dget in E. destruct (lookup (t_out (lr_table g)) obs) as [x|] eqn:L; [rewrite P in E; discriminate|].
      apply lookup_None in L. rewrite K in L. apply L. now left.
  - rewrite E. split; [|intros _; eauto]. intros _. split; [apply lookup_None; exact L|]. split; [exact K|eauto].
Qed.

Lemma observe_state : forall g g' rid obs inp, sound (lr_table g) -> linreg_observe g rid obs inp = (g', Ok tt) ->
  sound (lr_table g') /\ alike (lr_table g) (lr_table g') /\ t_N (lr_table g') = t_N (lr_table g) + 1 /\
  pairs (lr_table g') = pairs (lr_table g) ++ [stored (lr_table g) (rid, obs, inp)] /\
  keys (t_data (lr_table g')) = keys (t_data (lr_table g)) ++ [rid] /\
  values (t_ydum (lr_table g')) = values (t_ydum (lr_table g)) ++ [fst (stored (lr_table g) (rid, obs, inp))] /\
  values (t_data (lr_table g')) = values (t_data (lr_table g)) ++ [snd (stored (lr_table g) (rid, obs, inp))] /\
  lr_a g' = lr_a g /\ lr_b g' = lr_b g /\ lr_mu g' = lr_mu g /\ lr_V g' = lr_V g.
Proof.
  intros g g' rid obs inp S H. assert (SO := observe_sound dummy_code_linreg (lr_table g) rid obs inp S).
  unfold linreg_observe in H. destruct (observe_cases dummy_code_linreg (lr_table g) rid obs inp) as [(e & E)|(x & y & L & K & LO & P & E)]; [rewrite E in H; discriminate|].
  rewrite E in H, SO. injection H as <-. cbn [lr_table lr_a lr_b lr_mu lr_V]. split; [exact SO|]. cbn [fst] in SO.
  assert (SL := sound_lengths _ S). destruct S as (ND & K1 & K2 & _). assert (L2 := lookup_keys _ (t_ydum (lr_table g)) rid K2 L).
  unfold alike, pairs. cbn [t_out t_ins t_levels t_N t_data t_ydum]. rewrite !dset_fresh by assumption. unfold stored. rewrite P, LO. unfold keys, values in *. rewrite !map_app. cbn [map fst snd].
  assert (AP : forall (u : list (list val)) (v : list val) a b, List.length u = List.length v -> combine (u ++ [a]) (v ++ [b]) = combine u v ++ [(a, b)]).
  { clear. induction u as [|c u IH]; intros [|d v] a b E; try discriminate; [reflexivity|]. cbn. f_equal. apply IH. cbn in E. lia. }
  rewrite AP by exact SL. repeat split; reflexivity.
Qed.

Lemma observe_unit : forall g g' rid obs inp (u : unit), linreg_observe g rid obs inp = (g', Ok u) -> linreg_observe g rid obs inp = (g', Ok tt).
Proof. intros g g' rid obs inp [] H. exact H. Qed.

Lemma rows_state : forall rows g g', sound (lr_table g) -> observe_rows g rows = Some g' ->
  sound (lr_table g') /\ alike (lr_table g) (lr_table g') /\ t_N (lr_table g') = t_N (lr_table g) + Z.of_nat (List.length rows) /\
  pairs (lr_table g') = pairs (lr_table g) ++ map (stored (lr_table g)) rows /\
  keys (t_data (lr_table g')) = keys (t_data (lr_table g)) ++ map rid_of rows /\
  lr_a g' = lr_a g /\ lr_b g' = lr_b g /\ lr_mu g' = lr_mu g /\ lr_V g' = lr_V g.
Proof.
  induction rows as [|[[rid obs] inp] rows IH]; intros g g' S H.
  - cbn in H. injection H as <-. cbn [map List.length]. rewrite !app_nil_r, Z.add_0_r. unfold alike. auto 12.
  - cbn [observe_rows] in H. destruct (linreg_observe g rid obs inp) as [g1 [u|e]] eqn:E; [|discriminate]. apply observe_unit in E.
    destruct (observe_state _ _ _ _ _ S E) as (S1 & A1 & N1 & P1 & K1 & _ & _ & a1 & b1 & m1 & v1).
    destruct (IH g1 g' S1 H) as (S2 & A2 & N2 & P2 & K2 & a2 & b2 & m2 & v2). split; [exact S2|].
    split; [unfold alike in *; intuition congruence|]. split; [rewrite N2, N1; cbn [List.length]; lia|].
    split.
    + rewrite P2, P1, <- app_assoc. cbn [map app]. do 2 f_equal. apply map_ext. intros r. apply alike_stored. exact A1.
    + rewrite K2, K1, <- app_assoc. cbn [map app]. unfold rid_of at 2. cbn [fst]. repeat split; congruence.
Qed.

(** When a list of rows can be observed. *)
Lemma rows_ok : forall rows g, sound (lr_table g) ->
  (exists g', observe_rows g rows = Some g') <->
  (NoDup (map rid_of rows) /\ (forall r, In r rows -> ~ In (rid_of r) (keys (t_data (lr_table g))) /\ good (lr_table g) r)).
Proof.
  induction rows as [|[[rid obs] inp] rows IH]; intros g S.
  - split; [intros _; split; [constructor|intros r []]|intros _; exists g; reflexivity].
  - cbn [observe_rows map]. unfold rid_of at 1. cbn [fst]. split.
    + intros (g' & H). destruct (linreg_observe g rid obs inp) as [g1 [u|e]] eqn:E; [|discriminate]. apply observe_unit in E.
      destruct (observe_state _ _ _ _ _ S E) as (S1 & A1 & _ & _ & K1 & _). destruct (proj1 (IH g1 S1) (ex_intro _ g' H)) as (ND & AL).
      destruct (proj1 (observe_ok g rid obs inp S) (ex_intro _ g1 E)) as (NI & G). split.
      * constructor; [|exact ND]. intros Hin. apply in_map_iff in Hin. destruct Hin as (r & ER & Hr). destruct (AL r Hr) as (NR & _). apply NR. rewrite ER, K1. apply in_or_app. right. now left.
      * intros r [<-|Hr]; [auto|]. destruct (AL r Hr) as (NR & GR). split; [|apply (alike_good _ _ r A1); exact GR].
        intros X. apply NR. rewrite K1. apply in_or_app. now left.
    + intros (ND & AL). inversion ND as [|? ? NI ND']; subst. destruct (AL _ (or_introl eq_refl)) as (N0 & G0).
      destruct (proj2 (observe_ok g rid obs inp S) (conj N0 G0)) as (g1 & E). rewrite E. destruct (observe_state _ _ _ _ _ S E) as (S1 & A1 & _ & _ & K1 & _).
      apply IH; [exact S1|]. split; [exact ND'|]. intros r Hr. destruct (AL r (or_intror Hr)) as (NR & GR). split; [|apply (alike_good _ _ r A1); exact GR].
      rewrite K1. intros X. apply in_app_iff in X. destruct X as [X|[X|[]]]; [auto|]. apply NI. apply in_map_iff. exists r. auto.
Qed.

Lemma omem_perm : forall rid (d d' : dict Z val), Permutation (keys d) (keys d') -> omem rid d = omem rid d'.
Proof.
  intros [r|] d d' P; [|reflexivity]. unfold omem, dmem. destruct (lookup r d) eqn:L, (lookup r d') eqn:L'; auto; exfalso.
  - apply lookup_None in L'. apply L'. eapply Permutation_in; [exact P|]. apply lookup_In in L. apply in_map_iff. eexists. split; [|exact L]. reflexivity.
  - apply lookup_None in L. apply L. eapply Permutation_in; [apply Permutation_sym; exact P|]. apply lookup_In in L'. apply in_map_iff. eexists. split; [|exact L']. reflexivity.
Qed.

Lemma rows_order : forall g rows rows' g1, sound (lr_table g) -> Permutation rows rows' -> observe_rows g rows = Some g1 ->
  exists g2, observe_rows g rows' = Some g2 /\ linreg_score g2 = linreg_score g1 /\
    (forall rid T C inp, linreg_logpdf g2 rid T C inp = linreg_logpdf g1 rid T C inp).
Proof.
  intros g rows rows' g1 S P H. destruct (proj1 (rows_ok rows g S) (ex_intro _ g1 H)) as (ND & AL).
  destruct (proj2 (rows_ok rows' g S)) as (g2 & H2).
  { split; [eapply Permutation_NoDup; [apply Permutation_map; exact P|exact ND]|]. intros r Hr. apply AL. eapply Permutation_in; [apply Permutation_sym; exact P|exact Hr]. }
  exists g2. split; [exact H2|].
  destruct (rows_state _ _ _ S H) as (S1 & A1 & N1 & P1 & K1 & a1 & b1 & m1 & v1).
  destruct (rows_state _ _ _ S H2) as (S2 & A2 & N2 & P2 & K2 & a2 & b2 & m2 & v2).
  assert (PP : Permutation (pairs (lr_table g2)) (pairs (lr_table g1))).
  { rewrite P1, P2. apply Permutation_app_head. apply Permutation_map. apply Permutation_sym. exact P. }
  assert (F1 := combine_fst _ _ (sound_lengths _ S1)). assert (D1 := combine_snd _ _ (sound_lengths _ S1)). assert (F2 := combine_fst _ _ (sound_lengths _ S2)). assert (D2 := combine_snd _ _ (sound_lengths _ S2)).
  fold (pairs (lr_table g1)) in F1, D1. fold (pairs (lr_table g2)) in F2, D2.
  assert (NN : t_N (lr_table g2) = t_N (lr_table g1)) by (rewrite N1, N2, (Permutation_length P); reflexivity).
  split.
  - unfold linreg_score. rewrite <- F1, <- D1, <- F2, <- D2, NN, a1, a2, b1, b2, m1, m2, v1, v2. apply marginal_perm. exact PP.
  - intros rid T C inp. unfold linreg_logpdf. assert (AA : alike (lr_table g1) (lr_table g2)) by (unfold alike in *; intuition congruence).
    assert (TT : table_target (lr_table g2) rid T C = table_target (lr_table g1) rid T C).
    { unfold table_target. destruct AA as (-> & _). rewrite (omem_perm rid (t_data (lr_table g2)) (t_data (lr_table g1))); [reflexivity|]. rewrite K1, K2.
      apply Permutation_app_head. apply Permutation_map. apply Permutation_sym. exact P. }
    rewrite TT, (alike_process _ _ _ inp AA). destruct (table_target (lr_table g1) rid T C) as [x|e]; [|reflexivity]. cbn [obind].
    destruct (process_inputs dummy_code_linreg (lr_table g1) inp) as [y|e]; [|reflexivity]. cbn [obind].
    rewrite <- F1, <- D1, <- F2, <- D2, NN, a1, a2, b1, b2, m1, m2, v1, v2. apply predictive_perm. exact PP.
Qed.

(** ** The score and the predictions *)

Lemma obind_Ok : forall {A B} (m : out A) (f : A -> out B) b, obind m f = Ok b -> exists a, m = Ok a /\ f a = Ok b.
Proof. intros A B [a|e] f b H; [eauto|discriminate]. Qed.

Lemma fin_sub : forall c z z0 s, xsub (xadd (Fin c) z) z0 = Fin s -> exists u v, z = Fin u /\ z0 = Fin v /\ (s = c + u - v)%R.
Proof. intros c z z0 s H. destruct z as [u| | |]; destruct z0 as [v| | |]; cbn in H; try discriminate. exists u, v. injection H as <-. repeat split; lra. Qed.

Lemma score_step : forall g rid obs inp g' s l, sound (lr_table g) -> linreg_observe g rid obs inp = (g', Ok tt) ->
  linreg_score g = Ok (Fin s) -> linreg_logpdf g (Some rid) obs [] inp = Ok l -> linreg_score g' = Ok (xadd (Fin s) l).
Proof.
  intros g rid obs inp g' s l S H SC LP. destruct (observe_state _ _ _ _ _ S H) as (S1 & A1 & N1 & _ & _ & VY & VX & a1 & b1 & m1 & v1).
  unfold linreg_logpdf in LP. apply obind_Ok in LP. destruct LP as (x & TT & LP). apply obind_Ok in LP. destruct LP as (y & P & LP).
  assert (SX : stored (lr_table g) (rid, obs, inp) = (y, x)).
  { unfold stored. rewrite P. unfold table_target in TT. apply obind_Ok in TT. destruct TT as (_ & _ & TT). apply obind_Ok in TT. destruct TT as (_ & _ & TT).
    apply obind_Ok in TT. destruct TT as (_ & _ & TT). unfold dget in TT. destruct (lookup (t_out (lr_table g)) obs); [injection TT as ->; reflexivity|discriminate]. }
  rewrite SX in VY, VX. cbn [fst snd] in VY, VX.
  unfold linreg_predictive in LP. apply obind_Ok in LP. destruct LP as (pn & PN & LP). apply obind_Ok in LP. destruct LP as (pm & PM & LP).
  apply obind_Ok in LP. destruct LP as (zn & ZN & LP). apply obind_Ok in LP. destruct LP as (zm & ZM & LP). injection LP as <-.
  unfold linreg_score, linreg_marginal in SC |- *. rewrite VY, VX, N1, a1, b1, m1, v1, PM. rewrite PN in SC. cbn [obind] in SC |- *.
  apply obind_Ok in SC. destruct SC as (Vi & -> & SC). cbn [obind]. apply obind_Ok in SC. destruct SC as (z0 & Z0 & SC). rewrite Z0. cbn [obind]. rewrite ZN in SC. cbn [obind] in SC. rewrite ZM. cbn [obind].
  assert (SF : xsub (xadd (Fin (- (IZR (t_N (lr_table g)) / 2) * LOG2PI)) zn) z0 = Fin s) by congruence.
  apply fin_sub in SF. destruct SF as (u & v & -> & -> & ->). f_equal. rewrite plus_IZR. destruct zm as [w| | |]; cbn; try reflexivity. f_equal. field.
Qed.

(** The predictions made while observing a list of rows, one after another. *)
Lemma score_rows : forall rows g g' s, sound (lr_table g) -> observe_rows g rows = Some g' -> linreg_score g = Ok (Fin s) ->
  forall ls, predictions g rows = Some ls -> linreg_score g' = Ok (Fin (s + rsum ls)).
Proof.
  induction rows as [|[[rid obs] inp] rows IH]; intros g g' s S H SC ls PR.
  - cbn in H, PR. injection H as <-. injection PR as <-. cbn. rewrite Rplus_0_r. exact SC.
  - cbn [observe_rows predictions] in H, PR. destruct (linreg_observe g rid obs inp) as [g1 [u|e]] eqn:E; [|discriminate]. apply observe_unit in E. cbn [fst] in PR.
    destruct (linreg_logpdf g (Some rid) obs [] inp) as [[l| | |]|e] eqn:L; try discriminate.
    destruct (predictions g1 rows) as [ls'|] eqn:PR1; [|discriminate]. injection PR as <-.
    assert (S1 := proj1 (observe_state _ _ _ _ _ S E)). assert (SC1 := score_step _ _ _ _ _ _ _ S E SC L). cbn in SC1.
    rewrite (IH g1 g' (s + l)%R S1 H SC1 ls' PR1). do 2 f_equal. unfold rsum. cbn [fold_right]. lra.
Qed.

Lemma empty_score : forall g s, fresh_linreg g -> linreg_score g = Ok s -> s = Fin 0 \/ s = XNan.
Proof.
  intros g s F H. destruct (fresh_sound g F) as (_ & N0 & D0 & Y0). unfold linreg_score, linreg_marginal, posterior_hypers in H. rewrite N0, D0, Y0 in H. cbn [Z.eqb values map List.length Nat.eqb andb oassert obind] in H.
  destruct (inverse (lr_V g)) as [Vi|e]; cbn [obind] in H; [|discriminate]. apply obind_Ok in H. destruct H as (z & Z0 & H). rewrite Z0 in H. cbn [obind] in H. injection H as <-.
  destruct z as [u| | |]; cbn; auto. left. f_equal. lra.
Qed.
