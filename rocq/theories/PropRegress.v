(** C51, C52, C57, C58: regressions and forests. *)
From Coq Require Import List ZArith QArith Qcanon Reals Bool String Permutation Lia Lra.
From Verif Require Import Base Xr Samp Lgamma Prims Cgpm Lib SpecPrims PrimsInv PrimsDens CompInv SimShape Meta MetaThm
  Regress SpecRegress RegressThm RegressThm2 RegressThm3.
Import ListNotations.
Local Open Scope Z_scope.

(** A regression of column 0 on the number 1 and the category 2 (3 levels), with two rows. *)
Definition demo_inputs (a : Z) (b : Z) : row := [(1, vz a); (2, vz b)].
Definition demo_rows : list (Z * row * row) := [(7, [(0, vz 5)], demo_inputs 2 0); (9, [(0, vz 4)], demo_inputs 3 2)].
Definition demo_new : linreg := match new_linreg [0] [1; 2] [None; Some 3] None None None None with Ok g => g | Err _ => mkLinreg (mkTable 0 [] [] 0 [] [] []) 0 0 [] [] end.
Definition demo_linreg : linreg := match observe_rows demo_new demo_rows with Some g => g | None => demo_new end.

Lemma demo_fresh : fresh_linreg demo_new.
Proof. exists [0], [1; 2], [None; Some 3], None, None, None, None. reflexivity. Qed.

Lemma demo_used : used demo_new demo_linreg.
Proof.
  change demo_linreg with (fst (linreg_observe (fst (linreg_observe demo_new 7 [(0, vz 5)] (demo_inputs 2 0))) 9 [(0, vz 4)] (demo_inputs 3 2))).
  repeat constructor.
Qed.

(** ** C51 *)

(** unobserve of a recorded row of a regression: whatever was observed and unobserved before,
    the row is dropped, the other rows are kept, the count of rows is left one too high and
    TypeError is raised. From then on, whatever is observed or unobserved, the regression
    answers no question: the score, and every log density and every simulation of a row that is
    not recorded, raise. *)
Theorem C51_linreg_refuted : forall g0 g rid x, fresh_linreg g0 -> used g0 g -> lookup rid (t_data (lr_table g)) = Some x ->
  exists g', linreg_unobserve g rid = (g', Err TypeError) /\
    lookup rid (t_data (lr_table g')) = None /\
    (forall r, r <> rid -> lookup r (t_data (lr_table g')) = lookup r (t_data (lr_table g))) /\
    t_N (lr_table g') = t_N (lr_table g) /\
    forall g'', used g' g'' ->
      linreg_score g'' = Err AssertionError /\
      (forall rid T C inp, exists e, linreg_logpdf g'' rid T C inp = Err e) /\
      (forall rid x inp, omem rid (t_data (lr_table g'')) = false -> NoDup (t_ins (lr_table g'')) -> legal (lr_table g'') inp ->
        linreg_logpdf g'' rid [(t_out (lr_table g''), x)] [] inp = Err AssertionError /\
        linreg_simulate g'' rid [t_out (lr_table g'')] [] inp None = Ret (Err AssertionError)).
Proof.
  intros g0 g rid x F U L. assert (S := used_sound _ _ U (proj1 (fresh_sound _ F))).
  destruct (linreg_unobserved g rid x S L) as (g' & E & S' & LN & OT & NN & EX). exists g'. split; [exact E|]. split; [exact LN|]. split; [exact OT|]. split; [exact NN|].
  intros g'' U'. assert (S'' := used_sound _ _ U' S'). assert (EX' := used_excess _ _ U' S' EX).
  split; [apply excess_score; assumption|]. split; [intros; apply excess_logpdf; assumption|].
  intros rid' x' inp M ND LG. destruct (excess_legal g'' rid' x' inp S'' EX' M ND LG) as (A & B). split; [exact A|].
  unfold linreg_simulate, simulate_many. rewrite B. reflexivity.
Qed.
Print Assumptions C51_linreg_refuted.

Example C51_linreg_case : lookup 7 (t_data (lr_table demo_linreg)) = Some (vz 5) /\
  legal (lr_table demo_linreg) (demo_inputs 1 1) /\ NoDup (t_ins (lr_table demo_linreg)) /\ omem (Some 8) (t_data (lr_table demo_linreg)) = false.
Proof.
  split; [reflexivity|]. split; [|split; [repeat constructor; cbn; intuition discriminate|reflexivity]].
  intros i [<-|[<-|[]]]; (eexists; split; [reflexivity|]); intros l HL.
  - inversion HL as [|? ? ? ? ? ? HL']; subst. inversion HL' as [|? ? ? ? ? ? HL'']; subst. inversion HL''.
  - inversion HL as [|? ? ? ? ? ? HL']; subst. inversion HL' as [|? ? ? ? ? ? HL'']; subst; [|inversion HL'']. exists 1. split; [reflexivity|lia].
Qed.

(** The same for a forest, trained or not: the row is dropped, the count left too high, and
    TypeError raised. *)
Theorem C51_forest_refuted : forall fit b f rid x, forest_state fit b f -> lookup rid (t_data (fo_table f)) = Some x ->
  exists f', forest_unobserve f rid = (f', Err TypeError) /\
    lookup rid (t_data (fo_table f')) = None /\
    (forall r, r <> rid -> lookup r (t_data (fo_table f')) = lookup r (t_data (fo_table f))) /\
    t_N (fo_table f') = t_N (fo_table f) /\
    Z.of_nat (List.length (t_data (fo_table f'))) < t_N (fo_table f').
Proof.
  intros fit b f rid x F L. assert (S := kept_sound _ _ (forest_table _ _ _ F)).
  destruct (forest_unobserved_state f rid x S L) as (f' & E & _ & LN & OT & NN & EX). exists f'. auto.
Qed.
Print Assumptions C51_forest_refuted.

(** A row that is not recorded raises KeyError, and an observe that raises changes nothing. *)
Theorem C51_errors_change_nothing : forall g0 g rid, fresh_linreg g0 -> used g0 g ->
  (lookup rid (t_data (lr_table g)) = None -> linreg_unobserve g rid = (g, Err KeyError)) /\
  (forall obs inp g' e, linreg_observe g rid obs inp = (g', Err e) -> g' = g).
Proof.
  intros g0 g rid F U. assert (S := used_sound _ _ U (proj1 (fresh_sound _ F))). split.
  - intros L. unfold linreg_unobserve. destruct (unobserve_cases (lr_table g) rid S) as [(_ & ->)|(x & L' & _)]; [destruct g; reflexivity|congruence].
  - intros obs inp g' e H. unfold linreg_observe in H. destruct (observe_cases dummy_code_linreg (lr_table g) rid obs inp) as [(e' & E)|(x & y & _ & _ & _ & _ & E)]; rewrite E in H; [|discriminate].
    injection H as <- _. destruct g; reflexivity.
Qed.
Print Assumptions C51_errors_change_nothing.

(** In a Chain or Product the exception is swallowed: unobserve returns, without the
    regression's column, and the regression has lost the row and keeps a count too high. *)
Theorem C51_network_refuted : forall ms1 g0 g ms2 rid x, fresh_linreg g0 -> used g0 g -> lookup rid (t_data (lr_table g)) = Some x ->
  (forall m obs inp, In m (ms1 ++ ms2) -> snd (part_unobserve m rid) = Ok (obs, inp) -> ~ In (t_out (lr_table g)) (keys obs)) ->
  exists ms1' g' ms2' obs inp, network_unobserve (ms1 ++ PLinreg g :: ms2) rid = (ms1' ++ PLinreg g' :: ms2', Ok (obs, inp)) /\
    List.length ms1' = List.length ms1 /\ lookup (t_out (lr_table g)) obs = None /\
    lookup rid (t_data (lr_table g')) = None /\ t_N (lr_table g') = t_N (lr_table g).
Proof.
  intros ms1 g0 g ms2 rid x F U L OT. assert (S := used_sound _ _ U (proj1 (fresh_sound _ F))).
  destruct (network_loses ms1 g ms2 rid x S L OT) as (a & b & c & d & e & H1 & H2 & H3 & H4 & H5). exists a, b, c, d, e. auto.
Qed.
Print Assumptions C51_network_refuted.

(** The same with a forest. *)
Theorem C51_network_forest_refuted : forall fit b ms1 f ms2 rid x, forest_state fit b f -> lookup rid (t_data (fo_table f)) = Some x ->
  (forall m obs inp, In m (ms1 ++ ms2) -> snd (part_unobserve m rid) = Ok (obs, inp) -> ~ In (t_out (fo_table f)) (keys obs)) ->
  exists ms1' f' ms2' obs inp, network_unobserve (ms1 ++ PForest f :: ms2) rid = (ms1' ++ PForest f' :: ms2', Ok (obs, inp)) /\
    List.length ms1' = List.length ms1 /\ lookup (t_out (fo_table f)) obs = None /\
    lookup rid (t_data (fo_table f')) = None /\ t_N (fo_table f') = t_N (fo_table f).
Proof.
  intros fit b ms1 f ms2 rid x F L OT. assert (S := kept_sound _ _ (forest_table _ _ _ F)).
  destruct (network_loses_forest ms1 f ms2 rid x S L OT) as (a & b' & c & d & e & H1 & H2 & H3 & H4 & H5). exists a, b', c, d, e. auto.
Qed.
Print Assumptions C51_network_forest_refuted.

(** A regression of column 0 on column 1, which a Categorical models. Of a row of both that
    is observed, unobserve returns column 1 only. *)
Definition demo_network : list part :=
  [PModel (CDist (DCat (cat_new 1 4 1))); PLinreg (match new_linreg [0] [1] [None] None None None None with Ok g => g | Err _ => demo_new end)].

Example C51_network_case : always (network_observe demo_network 7 [(0, vz 5); (1, vz 3)] []) (fun r =>
  exists c g, r = ([PModel c; PLinreg g], Ok tt) /\ lookup 7 (t_data (lr_table g)) = Some (vz 5) /\
    snd (network_unobserve [PModel c; PLinreg g] 7) = Ok ([(1, vz 3)], [])).
Proof. do 2 eexists. split; [reflexivity|split; reflexivity]. Qed.

(** ** C52 *)

(** The code of legal inputs is of the fixed length, one number for the constant and for
    each numeric input, one less than the number of levels for each categorical one; so is
    every code that was ever stored. *)
Theorem C52_length : forall t inp, kept_table dummy_code_linreg t -> NoDup (t_ins t) -> legal t inp ->
  exists y, process_inputs dummy_code_linreg t inp = Ok y /\ Z.of_nat (List.length y) = code_length t.
Proof.
  intros t inp K ND LG. assert (S := kept_sound _ _ K). assert (E := linreg_vector t inp ND (proj1 (proj2 (proj2 (proj2 S)))) LG).
  eexists. split; [exact E|]. eapply process_length. exact E.
Qed.
Print Assumptions C52_length.

(** For a forest categorical inputs may be missing. *)
Theorem C52_length_forest : forall t inp, kept_table dummy_code_forest t -> NoDup (t_ins t) -> legal_or_missing t inp ->
  exists y, process_inputs dummy_code_forest t inp = Ok y /\ Z.of_nat (List.length y) = code_length t.
Proof.
  intros t inp K ND LG. assert (S := kept_sound _ _ K). assert (E := forest_vector t inp ND (proj1 (proj2 (proj2 (proj2 S)))) LG).
  eexists. split; [exact E|]. eapply process_length. exact E.
Qed.
Print Assumptions C52_length_forest.

Theorem C52_stored : forall code t r y, kept_table code t -> In (r, y) (t_ydum t) -> Z.of_nat (List.length y) = code_length t.
Proof. intros code t r y K H. destruct (kept_sound _ _ K) as (_ & _ & _ & _ & W & _). eapply W. exact H. Qed.
Print Assumptions C52_stored.

(** Legal inputs with the same code are the same. *)
Theorem C52_injective : forall t u v y, kept_table dummy_code_linreg t -> NoDup (t_ins t) -> legal t u -> legal t v ->
  process_inputs dummy_code_linreg t u = Ok y -> process_inputs dummy_code_linreg t v = Ok y ->
  forall i, In i (t_ins t) -> lookup i u = lookup i v.
Proof. intros t u v y K ND. assert (S := kept_sound _ _ K). apply linreg_injective; [exact ND|apply S]. Qed.
Print Assumptions C52_injective.

(** For a forest: a missing category is told apart too, where there are two levels or more. *)
Theorem C52_injective_forest : forall t u v y, kept_table dummy_code_forest t -> NoDup (t_ins t) -> legal_or_missing t u -> legal_or_missing t v ->
  process_inputs dummy_code_forest t u = Ok y -> process_inputs dummy_code_forest t v = Ok y ->
  forall i, In i (t_ins t) -> (forall l, has_levels (t_ins t) (t_levels t) i l -> 2 <= l) -> lookup i u = lookup i v.
Proof. intros t u v y K ND. assert (S := kept_sound _ _ K). apply forest_injective; [exact ND|apply S]. Qed.
Print Assumptions C52_injective_forest.

(** With one level it is not: missing and 0 get the same, empty, code. *)
Theorem C52_missing_refuted : exists t u v y, kept_table dummy_code_forest t /\ NoDup (t_ins t) /\ legal_or_missing t u /\ legal_or_missing t v /\
  process_inputs dummy_code_forest t u = Ok y /\ process_inputs dummy_code_forest t v = Ok y /\ lookup 1 u <> lookup 1 v.
Proof.
  exists (mkTable 0 [1] [Some 1] 0 [] [] []), [(1, VNan)], [(1, vz 0)], [vz 1].
  assert (LV : forall l, has_levels [1] [Some 1] 1 l -> l = 1) by (intros l HL; inversion HL as [|? ? ? ? ? ? HL']; subst; [reflexivity|inversion HL']).
  split; [apply (kept_new _ [0] [1] [Some 1]); reflexivity|]. split; [repeat constructor; intros []|].
  split; [|split; [|split; [reflexivity|split; [reflexivity|discriminate]]]]; intros i [<-|[]]; (eexists; split; [reflexivity|]); intros l HL; apply LV in HL; subst l.
  - right. split; [reflexivity|lia].
  - left. exists 0. split; [reflexivity|lia].
Qed.
Print Assumptions C52_missing_refuted.

(** A categorical input that is missing, negative or too large is rejected with
    AssertionError, and observe then changes nothing. *)
Theorem C52_rejects : forall t inp i l x, kept_table dummy_code_linreg t -> NoDup (t_ins t) ->
  has_levels (t_ins t) (t_levels t) i l -> lookup i inp = Some x -> out_of_range l x ->
  (exists e, process_inputs dummy_code_linreg t inp = Err e) /\
  (forall rid obs, exists e, table_observe dummy_code_linreg t rid obs inp = (t, Err e)) /\
  (legal t (dset i (vz 0) inp) -> process_inputs dummy_code_linreg t inp = Err AssertionError).
Proof.
  intros t inp i l x K ND HL L OR. assert (Hi := has_levels_in _ _ _ _ HL). assert (LK := proj2 (level_lookup _ _ i l ND) HL).
  assert (CE := linreg_range _ i l x LK OR). destruct (process_err _ t inp i x _ Hi L CE) as (e & E & _). split; [eauto|]. split.
  - intros rid obs. destruct (observe_cases dummy_code_linreg t rid obs inp) as [H|(x' & y & _ & _ & _ & P & _)]; [exact H|congruence].
  - intros LG. apply (reject _ t inp i x _ Hi L CE). intros j Hj NE. destruct (legal_code t _ j ND LG Hj) as (x' & L' & C' & _).
    rewrite lookup_dset_neq in L' by exact NE. eauto.
Qed.
Print Assumptions C52_rejects.

(** A forest rejects everything that is neither missing nor one of the categories. *)
Theorem C52_rejects_forest : forall t inp i l x, kept_table dummy_code_forest t -> NoDup (t_ins t) ->
  has_levels (t_ins t) (t_levels t) i l -> lookup i inp = Some x -> x <> VNan -> ~ category l x ->
  (exists e, process_inputs dummy_code_forest t inp = Err e) /\
  (forall rid obs, exists e, table_observe dummy_code_forest t rid obs inp = (t, Err e)) /\
  (legal_or_missing t (dset i (vz 0) inp) -> process_inputs dummy_code_forest t inp = Err AssertionError).
Proof.
  intros t inp i l x K ND HL L NN NC. assert (Hi := has_levels_in _ _ _ _ HL). assert (LK := proj2 (level_lookup _ _ i l ND) HL).
  assert (CE := forest_range _ i l x LK NN NC). destruct (process_err _ t inp i x _ Hi L CE) as (e & E & _). split; [eauto|]. split.
  - intros rid obs. destruct (observe_cases dummy_code_forest t rid obs inp) as [H|(x' & y & _ & _ & _ & P & _)]; [exact H|congruence].
  - intros LG. apply (reject _ t inp i x _ Hi L CE). intros j Hj NE. destruct (missing_code t _ j ND LG Hj) as (x' & L' & C' & _).
    rewrite lookup_dset_neq in L' by exact NE. eauto.
Qed.
Print Assumptions C52_rejects_forest.

(** A regression does not: a fraction between the last two bounds is coded as the last
    category (here 5/2 as 2, of 3 levels). *)
Theorem C52_fraction_refuted : exists t u v y, kept_table dummy_code_linreg t /\ NoDup (t_ins t) /\ legal t v /\
  (exists x, lookup 2 u = Some x /\ ~ category 3 x) /\ has_levels (t_ins t) (t_levels t) 2 3 /\
  process_inputs dummy_code_linreg t u = Ok y /\ process_inputs dummy_code_linreg t v = Ok y.
Proof.
  exists (lr_table demo_new), [(1, vz 2); (2, VQ (Q2Qc (5 # 2)))], (demo_inputs 2 2), [vz 1; vz 2; vz 0; vz 0].
  split; [apply (kept_new _ [0] [1; 2] [None; Some 3]); reflexivity|]. split; [repeat constructor; cbn; intuition discriminate|].
  split; [|split; [|split; [repeat constructor; discriminate|split; reflexivity]]].
  - intros i [<-|[<-|[]]]; (eexists; split; [reflexivity|]); intros l HL.
    + inversion HL as [|? ? ? ? ? ? HL']; subst. inversion HL' as [|? ? ? ? ? ? HL'']; subst. inversion HL''.
    + inversion HL as [|? ? ? ? ? ? HL']; subst. inversion HL' as [|? ? ? ? ? ? HL'']; subst; [|inversion HL'']. exists 2. split; [reflexivity|lia].
  - eexists. split; [reflexivity|]. intros (z & E & _). assert (X : is_int (Q2Qc (5 # 2)) = is_int (qz z)) by (unfold vz in E; congruence). rewrite is_int_qz in X. discriminate.
Qed.
Print Assumptions C52_fraction_refuted.

(** The inputs of the demo meet the hypotheses of the theorems above. *)
Example C52_case : kept_table dummy_code_linreg (lr_table demo_linreg) /\ NoDup (t_ins (lr_table demo_linreg)) /\
    legal (lr_table demo_linreg) (demo_inputs 2 0) /\ code_length (lr_table demo_linreg) = 4 /\
    process_inputs dummy_code_linreg (lr_table demo_linreg) (demo_inputs 2 0) = Ok [vz 1; vz 2; vz 1; vz 0] /\
    process_inputs dummy_code_linreg (lr_table demo_linreg) (demo_inputs 2 2) = Ok [vz 1; vz 2; vz 0; vz 0] /\
    has_levels (t_ins (lr_table demo_linreg)) (t_levels (lr_table demo_linreg)) 2 3 /\ out_of_range 3 (vz 3) /\
    process_inputs dummy_code_linreg (lr_table demo_linreg) (demo_inputs 2 3) = Err AssertionError.
Proof.
  split.
  - change (lr_table demo_linreg) with (fst (table_observe dummy_code_linreg (fst (table_observe dummy_code_linreg (lr_table demo_new) 7 [(0, vz 5)] (demo_inputs 2 0))) 9 [(0, vz 4)] (demo_inputs 3 2))).
    do 2 constructor. apply (kept_new _ [0] [1; 2] [None; Some 3]). reflexivity.
  - split; [repeat constructor; cbn; intuition discriminate|]. split.
    + intros i [<-|[<-|[]]]; (eexists; split; [reflexivity|]); intros l HL.
      * inversion HL as [|? ? ? ? ? ? HL']; subst. inversion HL' as [|? ? ? ? ? ? HL'']; subst. inversion HL''.
      * inversion HL as [|? ? ? ? ? ? HL']; subst. inversion HL' as [|? ? ? ? ? ? HL'']; subst; [|inversion HL'']. exists 0. split; [reflexivity|lia].
    + split; [reflexivity|]. split; [reflexivity|]. split; [reflexivity|]. split; [repeat constructor; discriminate|]. split; [|reflexivity].
      right. eexists. split; [reflexivity|]. right. apply Qcle_refl.
Qed.

(** ** C57 *)

(** Observing rows one after another adds to the score exactly the log densities the
    regression gave to each of them just before; the score of no rows is 0. *)
Theorem C57_score_is_chain_rule : forall g0 g rows g' s ls, fresh_linreg g0 -> used g0 g -> observe_rows g rows = Some g' ->
  linreg_score g = Ok (Fin s) -> predictions g rows = Some ls -> linreg_score g' = Ok (Fin (s + rsum ls)).
Proof.
  intros g0 g rows g' s ls F U O SC PR. eapply score_rows; eauto. exact (used_sound _ _ U (proj1 (fresh_sound _ F))).
Qed.
Print Assumptions C57_score_is_chain_rule.

(** One row: also when its log density is infinite. *)
Theorem C57_score_step : forall g0 g rid obs inp g' s l, fresh_linreg g0 -> used g0 g -> linreg_observe g rid obs inp = (g', Ok tt) ->
  linreg_score g = Ok (Fin s) -> linreg_logpdf g (Some rid) obs [] inp = Ok l -> linreg_score g' = Ok (xadd (Fin s) l).
Proof. intros g0 g rid obs inp g' s l F U. apply score_step. exact (used_sound _ _ U (proj1 (fresh_sound _ F))). Qed.
Print Assumptions C57_score_step.

Theorem C57_score_empty : forall g s, fresh_linreg g -> linreg_score g = Ok (Fin s) -> s = 0%R.
Proof. intros g s F H. destruct (empty_score g (Fin s) F H) as [E|E]; [injection E as ->; reflexivity|discriminate]. Qed.
Print Assumptions C57_score_empty.

(** The order of the rows does not matter: rows that can be observed in one order can be in
    any other, and then the score and every log density (including the exceptions) are the same. *)
Theorem C57_exchangeable : forall g0 g rows rows' g1, fresh_linreg g0 -> used g0 g -> Permutation rows rows' -> observe_rows g rows = Some g1 ->
  exists g2, observe_rows g rows' = Some g2 /\ linreg_score g2 = linreg_score g1 /\
    (forall rid T C inp, linreg_logpdf g2 rid T C inp = linreg_logpdf g1 rid T C inp).
Proof. intros g0 g rows rows' g1 F U. apply rows_order. exact (used_sound _ _ U (proj1 (fresh_sound _ F))). Qed.
Print Assumptions C57_exchangeable.

(** Two orders of two rows. *)
Example C57_exchangeable_case : Permutation demo_rows (rev demo_rows) /\ observe_rows demo_new demo_rows = Some demo_linreg /\ demo_linreg <> demo_new.
Proof. split; [apply Permutation_rev|]. split; [reflexivity|]. intros E. apply (f_equal (fun g => t_N (lr_table g))) in E. discriminate. Qed.

(** A regression on one number with the standard hyperparameters, before and after the row
    with input 1 and output 1. *)
Definition line : linreg := match new_linreg [0] [1] [None] None None None None with Ok g => g | Err _ => demo_new end.

Lemma det2 : forall a b c d : R, determinant 2 [[a; b]; [c; d]] = (a * d - b * c)%R.
Proof. intros. cbv [determinant rsum map seq fold_right sign Nat.even nth minor drop_nth firstn skipn app]. ring. Qed.

Lemma inverse2 : forall a b c d : R, (a * d - b * c <> 0)%R ->
  inverse [[a; b]; [c; d]] = Ok [[d / (a * d - b * c); - b / (a * d - b * c)]; [- c / (a * d - b * c); a / (a * d - b * c)]]%R.
Proof.
  intros a b c d D. unfold inverse. cbn [List.length]. rewrite det2. destruct (Req_EM_T (a * d - b * c) 0) as [E|_]; [contradiction|]. f_equal.
  cbv [determinant rsum map seq fold_right sign Nat.even nth minor drop_nth firstn skipn app Nat.sub Nat.add].
  repeat (apply f_equal2; [|]); try reflexivity; field; exact D.
Qed.

Lemma line_prior : inverse (lr_V line) = Ok [[1; 0]; [0; 1]]%R.
Proof.
  change (lr_V line) with [[1; 0]; [0; 1]]%R. rewrite inverse2 by lra. f_equal. repeat (apply f_equal2; [|]); try reflexivity; field.
Qed.

Lemma log_Z2 : forall a b mu (p q r s : R), (0 < p * s - q * r)%R -> (0 < b)%R ->
  exists z, calc_log_Z (Some (mkPosterior a b mu [[p; q]; [r; s]])) = Ok (Fin z).
Proof.
  intros a b mu p q r s D B. unfold calc_log_Z. cbn [po_Vinv po_b po_a List.length]. rewrite det2.
  destruct (Rlt_dec 0 (p * s - q * r)) as [_|N]; [|contradiction]. cbn [obind]. destruct (Rlt_dec 0 b) as [_|N]; [|contradiction]. eexists. reflexivity.
Qed.

Lemma line_posterior : posterior_hypers 1 [[vz 1; vz 1]] [vz 1] 1 1 [0; 0]%R (lr_V line) =
  Ok (Some (mkPosterior (1 + 1 / 2) (1 + / 2 * (0 + 1 - 2 / 3)) [1 / 3; 1 / 3] [[2; 1]; [1; 2]]))%R.
Proof.
  unfold posterior_hypers. cbn [Z.eqb List.length Z.of_nat Pos.of_succ_nat Pos.eqb forallb Nat.eqb andb oassert obind]. rewrite line_prior. cbn [obind].
  rewrite matrix_eq, reals_eq. cbn [forallb present vz andb map num]. rewrite !qr_qz.
  cbv [mat_add mat_mul transposed column mat_vec vec_add dot map combine seq nth fst snd rsum fold_right].
  match goal with |- context [inverse ?M] => replace M with [[2; 1]; [1; 2]]%R by (repeat (apply f_equal2; [|]); try reflexivity; ring) end.
  rewrite inverse2 by lra. cbn [obind].
  do 3 f_equal; try field. repeat (apply f_equal2; [|]); try reflexivity; field.
Qed.

Example C57_chain_case : fresh_linreg line /\ used line line /\ linreg_score line = Ok (Fin 0) /\ exists g l,
  observe_rows line [(7, [(0, vz 1)], [(1, vz 1)])] = Some g /\ predictions line [(7, [(0, vz 1)], [(1, vz 1)])] = Some [l].
Proof.
  assert (PRI : posterior_hypers 0 [] [] 1 1 [0; 0]%R (lr_V line) = Ok (Some (mkPosterior 1 1 [0; 0] [[1; 0]; [0; 1]]))%R).
  { unfold posterior_hypers. cbn [Z.eqb List.length Nat.eqb andb oassert obind]. rewrite line_prior. reflexivity. }
  destruct (log_Z2 1 1 [0; 0]%R 1 0 0 1) as (z0 & Z0); [lra|lra|].
  destruct (log_Z2 (1 + 1 / 2) (1 + / 2 * (0 + 1 - 2 / 3)) [1 / 3; 1 / 3]%R 2 1 1 2) as (z1 & Z1); [lra|lra|].
  split; [exists [0], [1], [None], None, None, None, None; reflexivity|]. split; [constructor|]. split.
  - change (linreg_score line) with (linreg_marginal 0 [] [] 1 1 [0; 0]%R (lr_V line)). unfold linreg_marginal. rewrite PRI, line_prior. cbn [obind]. rewrite Z0. cbn. do 2 f_equal. lra.
  - do 2 eexists. split; [reflexivity|]. cbn [predictions].
    change (linreg_logpdf line (Some 7) [(0, vz 1)] [] [(1, vz 1)]) with (linreg_predictive (vz 1) [vz 1; vz 1] 0 [] [] 1 1 [0; 0]%R (lr_V line)).
    unfold linreg_predictive. rewrite PRI. cbn [obind app Z.add]. rewrite line_posterior. cbn [obind]. rewrite Z0, Z1. cbn [obind xadd xneg xsub]. reflexivity.
Qed.

(** ** C58 *)

(** A trained forest: whatever simulate can return for a row that is not recorded has positive
    probability according to logpdf. *)
Theorem C58_support : forall fit f rid inp, honest fit -> forest_state fit true f -> omem rid (t_data (fo_table f)) = false ->
  NoDup (t_ins (fo_table f)) -> legal_or_missing (fo_table f) inp ->
  always (forest_simulate f rid [t_out (fo_table f)] [] inp None) (fun r => exists x l,
    r = Ok (SOne [(t_out (fo_table f), x)]) /\ forest_logpdf f rid [(t_out (fo_table f), x)] [] inp = Ok (Fin l)).
Proof. exact trained_support. Qed.
Print Assumptions C58_support.

(** Every value comes up with exactly the probability that logpdf gives it. *)
Theorem C58_law : forall fit f rid inp x, honest fit -> forest_state fit true f -> omem rid (t_data (fo_table f)) = false ->
  NoDup (t_ins (fo_table f)) -> legal_or_missing (fo_table f) inp ->
  exists l, forest_logpdf f rid [(t_out (fo_table f), x)] [] inp = Ok l /\
    expect (forest_simulate f rid [t_out (fo_table f)] [] inp None)
      (fun r => match r with Ok (SOne [(_, x')]) => if eq_dec x' x then 1%R else 0%R | _ => 0%R end) = xexp l.
Proof. exact trained_law. Qed.
Print Assumptions C58_law.

(** Before training the two disagree: simulate can return any of 0, ..., k - 1, and logpdf says
    of every value that it is impossible. *)
Theorem C58_untrained_refuted : forall fit f rid inp, forest_state fit false f -> omem rid (t_data (fo_table f)) = false ->
  (forall z, 0 <= z < fo_k f -> possible (forest_simulate f rid [t_out (fo_table f)] [] inp None) (fun r => r = Ok (SOne [(t_out (fo_table f), vz z)]))) /\
  (forall x, forest_logpdf f rid [(t_out (fo_table f), x)] [] inp = Ok NInf).
Proof.
  intros fit f rid inp F M. destruct (forest_untrained _ _ F) as (CL & RG). split.
  - intros z Hz. unfold forest_simulate. rewrite eqb_refl. cbn [oassert obind]. rewrite (unrecorded_none _ rid M), RG.
    replace (0 <? fo_k f) with true by (symmetry; apply Z.ltb_lt; lia). cbn. exists z. split; [exact Hz|reflexivity].
  - intros x. unfold forest_logpdf. rewrite (target_ok _ rid _ x eq_refl M). cbn [obind]. rewrite CL. reflexivity.
Qed.
Print Assumptions C58_untrained_refuted.

(** A forest for column 0 of two classes, given a category of 3 levels; the classifier
    learns to answer 1 always. *)
Definition demo_fit (Y : list (list val)) (x : list val) : out (list val * (list val -> list xr)) := Ok ([vz 0; vz 1], fun _ => [NInf; Fin 0]).
Definition demo_forest : forest := match new_forest [0] [2] 2 [Some 3] with Ok f => fst (forest_observe f 7 [(0, vz 1)] [(2, vz 2)]) | Err _ => mkForest (mkTable 0 [] [] 0 [] [] []) 0 [] None end.

Example C58_case : honest demo_fit /\ forest_state demo_fit false demo_forest /\ forest_state demo_fit true (fst (forest_transition demo_fit demo_forest)) /\
    legal_or_missing (fo_table demo_forest) [(2, VNan)] /\ legal_or_missing (fo_table demo_forest) [(2, vz 1)] /\
    omem (Some 8) (t_data (fo_table demo_forest)) = false /\ lookup 7 (t_data (fo_table demo_forest)) = Some (vz 1).
Proof.
  assert (F : forest_state demo_fit false demo_forest).
  { unfold demo_forest. destruct (new_forest [0] [2] 2 [Some 3]) as [f|e] eqn:E; [|discriminate]. constructor. econstructor. exact E. }
  assert (LV : forall l, has_levels [2] [Some 3] 2 l -> l = 3) by (intros l HL; inversion HL as [|? ? ? ? ? ? HL']; subst; [reflexivity|inversion HL']).
  split; [|split; [exact F|split; [|split; [|split; [|split; reflexivity]]]]].
  - intros Y x cl pr H. injection H as <- <-. split.
    + constructor; [intros [E|[]]; apply vz_inj in E; discriminate|repeat constructor; intros []].
    + intros y. split; [reflexivity|]. split; [intros p [<-|[<-|[]]]; [now left|right; eexists; reflexivity]|]. unfold rsum. cbn. rewrite exp_0. lra.
  - eapply forest_trained; [exact F|reflexivity].
  - intros i [<-|[]]. eexists. split; [reflexivity|]. intros l HL. apply LV in HL. subst l. right. split; [reflexivity|lia].
  - intros i [<-|[]]. eexists. split; [reflexivity|]. intros l HL. apply LV in HL. subst l. left. exists 1. split; [reflexivity|lia].
Qed.
