(** C68: reloading regressions, forests and chains from their metadata. *)
From Coq Require Import List ZArith QArith Qcanon Reals Bool String Permutation Lia Lra.
From Verif Require PropPrims.
From Verif Require Import Base Xr Samp Lgamma Prims Cgpm Lib SpecPrims PrimsInv SpecComp CompInv Meta SpecWalks Chain Regress RegressMeta SpecRegress RegressThm RegressThm2 PropRegress
  SpecReload ReloadThm.
Import ListNotations.
Local Open Scope Z_scope.

(** A regression with the default prior of the coefficients comes back as it is, hence with
    the same answers and the same behaviour from then on. *)
Theorem C68_linreg : forall g, default_prior g -> build_part (part_to_meta (PLinreg g)) = Ok (PLinreg g).
Proof. exact default_back. Qed.
Print Assumptions C68_linreg.

(** With any prior: the table and the hyperparameters a and b come back, the mean and the
    covariance of the coefficients are the default ones. *)
Theorem C68_linreg_prior : forall g0 g, fresh_linreg g0 -> handled g0 g ->
  exists g', build_part (part_to_meta (PLinreg g)) = Ok (PLinreg g') /\ lr_table g' = lr_table g /\ lr_a g' = lr_a g /\ lr_b g' = lr_b g /\
    lr_mu g' = repeat 0%R (Z.to_nat (code_length (lr_table g))) /\ lr_V g' = eye (Z.to_nat (code_length (lr_table g))).
Proof.
  intros g0 g F H. eexists. split; [apply (linreg_back g0 g F H)|]. cbn [lr_table lr_a lr_b lr_mu lr_V]. rewrite dimension_length. auto.
Qed.
Print Assumptions C68_linreg_prior.

(** A forest comes back as it is, trained or not. *)
Theorem C68_forest : forall fit b f, forest_state fit b f -> build_part (part_to_meta (PForest f)) = Ok (PForest f).
Proof. exact forest_back. Qed.
Print Assumptions C68_forest.

(** A chain of models, regressions and forests comes back as it is. *)
Theorem C68_chain : forall fit nw, sound_network fit nw -> network_from_meta (network_to_meta nw) = Ok nw.
Proof. exact network_back. Qed.
Print Assumptions C68_chain.

(** set_hypers with positive a and b: get_hypers gives them back and nothing else changes. A
    missing one raises KeyError and one that is not positive AssertionError, with the
    regression left as it was. *)
Theorem C68_set_hypers : forall g h,
  (forall a b, lookup "a"%string h = Some a -> lookup "b"%string h = Some b -> (0 < a)%R -> (0 < b)%R ->
    exists g', linreg_set_hypers g h = (g', Ok tt) /\ linreg_get_hypers g' = [("a"%string, a); ("b"%string, b)] /\
      lr_table g' = lr_table g /\ lr_mu g' = lr_mu g /\ lr_V g' = lr_V g) /\
  (forall k, In k ["a"; "b"]%string -> lookup k h = None \/ (exists x, lookup k h = Some x /\ (x <= 0)%R) ->
    exists e, linreg_set_hypers g h = (g, Err e) /\ (e = KeyError \/ e = AssertionError) /\
      (e = KeyError -> exists k, In k ["a"; "b"]%string /\ lookup k h = None)).
Proof.
  intros g h. unfold linreg_set_hypers, dget. split.
  - intros a b -> -> Pa Pb. cbn [obind]. destruct (Rlt_dec 0 a); [|contradiction]. cbn [oassert obind].
    destruct (Rlt_dec 0 b); [|contradiction]. cbn [oassert obind]. eexists. split; [reflexivity|]. cbn. auto.
  - intros k Hk H. destruct (lookup "a"%string h) as [a|] eqn:La; cbn [obind].
    2:{ exists KeyError. split; [reflexivity|]. split; [auto|]. intros _. exists "a"%string. cbn. auto. }
    destruct (Rlt_dec 0 a) as [Pa|Pa]; cbn [oassert obind].
    2:{ exists AssertionError. split; [reflexivity|]. split; [auto|discriminate]. }
    destruct (lookup "b"%string h) as [b|] eqn:Lb; cbn [obind].
    2:{ exists KeyError. split; [reflexivity|]. split; [auto|]. intros _. exists "b"%string. cbn. auto. }
    destruct (Rlt_dec 0 b) as [Pb|Pb]; cbn [oassert obind].
    2:{ exists AssertionError. split; [reflexivity|]. split; [auto|discriminate]. }
    exfalso. destruct Hk as [<-|[<-|[]]]; (destruct H as [H|(x & H & Q)]; [congruence|]); rewrite H in *.
    + injection La as ->. lra.
    + injection Lb as ->. lra.
Qed.
Print Assumptions C68_set_hypers.

Example C68_set_hypers_case : exists g', linreg_set_hypers demo_linreg [("a", 3%R); ("b", 2%R)]%string = (g', Ok tt) /\
  linreg_get_hypers g' = [("a", 3%R); ("b", 2%R)]%string /\ linreg_get_hypers demo_linreg <> linreg_get_hypers g' /\
  linreg_set_hypers demo_linreg [("a", 3%R); ("b", 0%R)]%string = (demo_linreg, Err AssertionError).
Proof.
  destruct (proj1 (C68_set_hypers demo_linreg [("a", 3%R); ("b", 2%R)]%string) 3%R 2%R eq_refl eq_refl ltac:(lra) ltac:(lra)) as (g' & E & G & _).
  exists g'. split; [exact E|]. split; [exact G|]. split.
  - rewrite G. intros X. assert (Y : lr_a demo_linreg = 3%R) by (injection X; auto). change (lr_a demo_linreg) with 1%R in Y. lra.
  - unfold linreg_set_hypers. cbn. destruct (Rlt_dec 0 3) as [_|N]; [|lra]. cbn. destruct (Rlt_dec 0 0) as [N|_]; [lra|]. reflexivity.
Qed.

(** ** A prior that is lost *)

(** A regression on one number with the given mean of the constant coefficient. *)
Definition raised (m : R) : linreg := match new_linreg [0] [1] [None] None None (Some [m; 0]%R) None with Ok g => g | Err _ => demo_new end.

Lemma raised_posterior : forall m, posterior_hypers 1 [[vz 1; vz 0]] [vz 0] 1 1 [m; 0]%R (lr_V line) =
  Ok (Some (mkPosterior (1 + 1 / 2) (1 + m * m / 4) [m / 2; 0] [[2; 0]; [0; 1]]))%R.
Proof.
  intros m. unfold posterior_hypers. cbn [Z.eqb List.length Z.of_nat Pos.of_succ_nat Pos.eqb forallb Nat.eqb andb oassert obind]. rewrite line_prior. cbn [obind].
  rewrite matrix_eq, reals_eq. cbn [forallb present vz andb map num]. rewrite !qr_qz.
  cbv [mat_add mat_mul transposed column mat_vec vec_add dot map combine seq nth fst snd rsum fold_right].
  match goal with |- context [inverse ?M] => replace M with [[2; 0]; [0; 1]]%R by (repeat (apply f_equal2; [|]); try reflexivity; ring) end.
  rewrite inverse2 by lra. cbn [obind].
  do 3 f_equal; try field. repeat (apply f_equal2; [|]); try reflexivity; field.
Qed.

Lemma raised_logpdf : exists c, forall m, linreg_logpdf (raised m) None [(0, vz 0)] [] [(1, vz 0)] = Ok (Fin (c - (1 + 1 / 2) * ln (1 + m * m / 4)))%R.
Proof.
  set (z0 := (lgamma 1 + ln (sqrt (1 / (1 * 1 - 0 * 0))) - 1 * ln 1)%R).
  set (z1 := (lgamma (1 + 1 / 2) + ln (sqrt (1 / (2 * 1 - 0 * 0))))%R).
  exists (- (1 / 2) * LOG2PI + z1 - z0)%R. intros m.
  change (linreg_logpdf (raised m) None [(0, vz 0)] [] [(1, vz 0)]) with (linreg_predictive (vz 0) [vz 1; vz 0] 0 [] [] 1 1 [m; 0]%R (lr_V line)).
  unfold linreg_predictive.
  assert (PRI : posterior_hypers 0 [] [] 1 1 [m; 0]%R (lr_V line) = Ok (Some (mkPosterior 1 1 [m; 0] [[1; 0]; [0; 1]]))%R).
  { unfold posterior_hypers. cbn [Z.eqb List.length Nat.eqb andb oassert obind]. rewrite line_prior. reflexivity. }
  rewrite PRI. cbn [obind app Z.add]. rewrite raised_posterior. cbn [obind]. unfold calc_log_Z. cbn [po_Vinv po_b po_a List.length]. rewrite !det2.
  assert (M : (0 <= m * m)%R) by apply Rle_0_sqr.
  destruct (Rlt_dec 0 (1 * 1 - 0 * 0)) as [_|N]; [|lra]. destruct (Rlt_dec 0 (2 * 1 - 0 * 0)) as [_|N]; [|lra]. cbn [obind].
  destruct (Rlt_dec 0 1) as [_|N]; [|lra]. destruct (Rlt_dec 0 (1 + m * m / 4)) as [_|N]; [|lra]. cbn [obind xadd xneg xsub]. do 2 f_equal. unfold z0, z1. lra.
Qed.

(** The mean given to the constructor is not in the metadata: the reloaded regression gives
    other densities. *)
Theorem C68_prior_refuted : exists g g' T inp l l', fresh_linreg g /\ build_part (part_to_meta (PLinreg g)) = Ok (PLinreg g') /\
  linreg_logpdf g None T [] inp = Ok (Fin l) /\ linreg_logpdf g' None T [] inp = Ok (Fin l') /\ l <> l'.
Proof.
  destruct raised_logpdf as (c & H). exists (raised 2), (raised 0), [(0, vz 0)], [(1, vz 0)]. do 2 eexists.
  assert (F : fresh_linreg (raised 2)) by (exists [0], [1], [None], None, None, (Some [2; 0]%R), None; reflexivity).
  split; [exact F|]. split; [rewrite (linreg_back _ _ F (handled_refl _)); reflexivity|]. split; [apply H|]. split; [apply H|].
  replace (1 + 0 * 0 / 4)%R with 1%R by field. replace (1 + 2 * 2 / 4)%R with 2%R by field. rewrite ln_1.
  assert (L : (ln 1 < ln 2)%R) by (apply ln_increasing; lra). rewrite ln_1 in L. lra.
Qed.
Print Assumptions C68_prior_refuted.

(** ** Worked cases *)

Lemma linreg_case : default_prior demo_linreg /\ demo_linreg <> demo_new.
Proof.
  split; [|exact (proj2 (proj2 C57_exchangeable_case))]. exists [0], [1; 2], [None; Some 3], None, None, demo_new. split; [reflexivity|].
  change demo_linreg with (fst (linreg_observe (fst (linreg_observe demo_new 7 [(0, vz 5)] (demo_inputs 2 0))) 9 [(0, vz 4)] (demo_inputs 3 2))).
  apply handled_observe, handled_observe, handled_refl.
Qed.

Example C68_linreg_case : default_prior demo_linreg /\ demo_linreg <> demo_new.
Proof. exact linreg_case. Qed.

Example C68_linreg_prior_case : fresh_linreg (raised 2) /\ handled (raised 2) (fst (linreg_set_hypers (raised 2) [("a", 3%R); ("b", 2%R)]%string)) /\
  lr_a (fst (linreg_set_hypers (raised 2) [("a", 3%R); ("b", 2%R)]%string)) = 3%R.
Proof.
  split; [exists [0], [1], [None], None, None, (Some [2; 0]%R), None; reflexivity|]. split; [apply handled_hypers, handled_refl|].
  set (h := [("a", 3%R); ("b", 2%R)]%string). unfold linreg_set_hypers.
  assert (A : dget "a"%string h = Ok 3%R) by reflexivity. assert (B : dget "b"%string h = Ok 2%R) by reflexivity. rewrite A, B. cbn [obind].
  destruct (Rlt_dec 0 3) as [_|N]; [|lra]. cbn [oassert obind]. destruct (Rlt_dec 0 2) as [_|N]; [|lra]. reflexivity.
Qed.

Example C68_forest_case : forest_state demo_fit true (fst (forest_transition demo_fit demo_forest)) /\
  fo_classes (fst (forest_transition demo_fit demo_forest)) <> [].
Proof.
  split; [|discriminate]. assert (H : forest_state demo_fit false demo_forest).
  { unfold demo_forest. destruct (new_forest [0] [2] 2 [Some 3]) as [f|e] eqn:E; [|discriminate]. apply forest_observed. apply (forest_new demo_fit _ _ _ _ f E). }
  apply (forest_trained demo_fit false demo_forest); [exact H|reflexivity].
Qed.

(** A category with a regression on it, after one row. *)
Example C68_chain_case : exists nw ms, new_network demo_network None = Ok nw /\
  network_observe (nw_parts nw) 7 [(1, vz 3); (0, vz 5)] [] = Ret (ms, Ok tt) /\ sound_network demo_fit (mkNetwork ms (nw_accuracy nw)) /\ ms <> demo_network.
Proof.
  do 2 eexists. split; [reflexivity|]. split; [vm_compute; reflexivity|]. split; [|discriminate].
  eapply network_observed with (nw := mkNetwork demo_network 1) (rid := 7) (obs := [(1, vz 3); (0, vz 5)]) (inp := []).
  - apply (network_new demo_fit demo_network None); [|reflexivity]. intros m [<-|[<-|[]]].
    + apply gr_prim. exists (DCat (cat_new 1 4 1)), []. split; [apply fresh_cat; [lia|exact PropPrims.one_pos]|reflexivity].
    + exists [0], [1], [None], None, None, line. split; [reflexivity|apply handled_refl].
  - vm_compute. reflexivity.
Qed.
