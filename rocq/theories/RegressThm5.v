(** The code computes the posterior and a Student t predictive density. (Proofs.) *)
From Coq Require Import List ZArith QArith Qcanon Reals Bool String Permutation Arith Lia Lra.
From Verif Require Import Base Xr Samp Lgamma Prims Cgpm Lib SpecPrims PrimsInv PrimsDens Regress RegressThm RegressThm2 Matrix RegressThm4.
From Verif Require Import SpecRegress.
Import ListNotations.
Local Open Scope R_scope.

(** ** Sums of vectors and matrices *)

Lemma at_vec_add : forall u v n i, List.length u = n -> List.length v = n -> at_ (vec_add u v) i = at_ u i + at_ v i.
Proof.
  induction u as [|x u IH]; intros [|y v] n i E F; cbn [List.length] in *; subst; try discriminate.
  - unfold at_. destruct i; cbn; ring.
  - destruct i as [|i]; [reflexivity|]. unfold at_ in *. cbn. apply (IH v (List.length u)); lia.
Qed.

Lemma length_vec_add : forall u v n, List.length u = n -> List.length v = n -> List.length (vec_add u v) = n.
Proof. intros u v n E F. unfold vec_add. rewrite map_length, combine_length, E, F. lia. Qed.

Lemma mat_add_spec : forall A B n, sized n A -> sized n B -> sized n (mat_add A B) /\ forall i j, (i < n)%nat -> entry (mat_add A B) i j = entry A i j + entry B i j.
Proof.
  intros A B n [LA RA] [LB RB]. split.
  - split; [unfold mat_add; rewrite map_length, combine_length, LA, LB; lia|]. intros r Hr. unfold mat_add in Hr. apply in_map_iff in Hr. destruct Hr as ([u v] & <- & Huv).
    apply length_vec_add; [apply RA; eapply in_combine_l; eauto|apply RB; eapply in_combine_r; eauto].
  - intros i j Li. unfold entry at 1, mat_add. rewrite (nth_indep _ [] (vec_add (fst (@nil R, @nil R)) (snd (@nil R, @nil R)))) by (rewrite map_length, combine_length, LA, LB; lia).
    rewrite (map_nth (fun p => vec_add (fst p) (snd p))), combine_nth by congruence. cbn [fst snd].
    apply (at_vec_add _ _ n); [apply RA, nth_In; lia|apply RB, nth_In; lia].
Qed.

Lemma dot_maps : forall {T} (f g : T -> R) l, dot (map f l) (map g l) = rsum (map (fun r => f r * g r) l).
Proof. intros. unfold dot. rewrite combine_maps, map_map. reflexivity. Qed.

(** ** The code *)

Definition codes_of (rows : list (list Qc * Qc)) : list (list val) := map (fun r => map VQ (fst r)) rows.
Definition values_of (rows : list (list Qc * Qc)) : list val := map (fun r => VQ (snd r)) rows.

Lemma reals_nums : forall l, reals (map VQ l) = Some (map qr l).
Proof. induction l as [|q l IH]; [reflexivity|]. unfold reals in *. cbn [map fold_right]. rewrite IH. reflexivity. Qed.

Lemma reals_values : forall rows, reals (values_of rows) = Some (map ys rows).
Proof. intros rows. unfold values_of, ys. rewrite <- (map_map snd VQ), reals_nums, map_map. reflexivity. Qed.

Lemma matrix_codes : forall rows, matrix (codes_of rows) = Some (map (fun r => map qr (fst r)) rows).
Proof.
  induction rows as [|r rows IH]; [reflexivity|]. unfold matrix, codes_of in *. cbn [map fold_right]. rewrite reals_nums, IH. reflexivity.
Qed.

Lemma posterior_solves : forall p a b mu V W rows, definite p V -> inverse V = Ok W -> definite p W -> List.length mu = p ->
  (forall r, In r rows -> List.length (fst r) = p) ->
  exists po, posterior_hypers (Z.of_nat (List.length rows)) (codes_of rows) (values_of rows) a b mu V = Ok (Some po) /\ solves p a b mu W rows po.
Proof.
  intros p a b mu V W rows DV EW DW LM LR. unfold posterior_hypers. rewrite EW. destruct rows as [|r0 rows0] eqn:ER.
  - cbn [List.length Z.of_nat Z.eqb codes_of values_of map Nat.eqb andb oassert obind]. eexists. split; [reflexivity|].
    split; cbn [po_a po_b po_mu po_Vinv List.length map]; unfold rsum; cbn [fold_right INR].
    + lra.
    + exact LM.
    + apply definite_entries in DW. apply DW.
    + intros. ring.
    + intros. ring.
    + ring.
  - rewrite <- ER in *. assert (NZ : (Z.of_nat (List.length rows) =? 0)%Z = false) by (rewrite ER; reflexivity). rewrite NZ.
    unfold codes_of at 1, values_of at 1. rewrite !map_length, Z.eqb_refl.
    assert (FB : forallb (fun y : list val => Nat.eqb (List.length y) (List.length mu)) (codes_of rows) = true).
    { apply forallb_forall. intros y Hy. apply in_map_iff in Hy. destruct Hy as (r & <- & Hr). rewrite map_length, (LR r Hr), LM. apply Nat.eqb_refl. }
    rewrite FB. cbn [andb oassert obind]. rewrite matrix_codes, reals_values. rewrite LM.
    set (X := map (fun r : list Qc * Qc => map qr (fst r)) rows).
    assert (COL : forall i, column X i = map (fun r => xs r i) rows) by (intros i; unfold column, X; rewrite map_map; reflexivity).
    assert (SW : sized p W) by (apply definite_entries in DW; apply DW).
    assert (SM : sized p (mat_mul p (transposed p X) X)).
    { split; [unfold mat_mul, transposed; rewrite !map_length, seq_length; reflexivity|]. intros r Hr. unfold mat_mul in Hr. apply in_map_iff in Hr. destruct Hr as (c & <- & _).
      rewrite map_length, seq_length. reflexivity. }
    assert (EM : forall i j, (i < p)%nat -> (j < p)%nat -> entry (mat_mul p (transposed p X) X) i j = rsum (map (fun r => xs r i * xs r j) rows)).
    { intros i j Li Lj. unfold entry, mat_mul, transposed. rewrite map_map. rewrite !nth_map_seq by assumption. rewrite !COL. apply dot_maps. }
    destruct (mat_add_spec W _ p SW SM) as (SA & EA). set (A := mat_add W (mat_mul p (transposed p X) X)) in *.
    assert (DA : definite p A).
    { apply definite_entries in DW. destruct DW as (_ & SY & PD). apply definite_entries. split; [exact SA|]. split.
      - intros i j Li Lj. rewrite !EA, !EM, SY by assumption. f_equal. f_equal. apply map_ext. intros. ring.
      - intros v NV. rewrite bil_quad. rewrite (bil_ext p _ (fun i j => entry W i j + rsum (map (fun r => xs r i * xs r j) rows)) v v v v); [|intros; rewrite EA, EM by assumption; reflexivity|reflexivity|reflexivity].
        rewrite bil_add, bil_rows. assert (Q := PD v NV). rewrite bil_quad in Q. assert (B := squares_nonneg (lin p xs v) rows). lra. }
    destruct (definite_inverse p A DA) as (B & EB & DB & U & _). rewrite EB. cbn [obind]. eexists. split; [reflexivity|].
    assert (SB : sized p B) by (apply definite_entries in DB; apply DB).
    assert (LH : List.length (vec_add (mat_vec W mu) (mat_vec (transposed p X) (map ys rows))) = p).
    { apply length_vec_add; [unfold mat_vec; rewrite map_length; apply SW|unfold mat_vec, transposed; rewrite !map_length, seq_length; reflexivity]. }
    set (h := vec_add (mat_vec W mu) (mat_vec (transposed p X) (map ys rows))) in *.
    assert (LN : List.length (mat_vec B h) = p) by (unfold mat_vec; rewrite map_length; apply SB).
    split; cbn [po_a po_b po_mu po_Vinv].
    + rewrite <- INR_IZR_INZ. reflexivity.
    + exact LN.
    + exact SA.
    + intros i j Li Lj. rewrite EA, EM by assumption. reflexivity.
    + intros i Li. rewrite (sum_ext p _ (fun j => entry A i j * sum p (fun k => entry B j k * at_ h k))).
      * rewrite (unit_apply p (entry A) (entry B) (at_ h) i U Li). unfold h. rewrite (at_vec_add _ _ p); [|unfold mat_vec; rewrite map_length; apply SW|unfold mat_vec, transposed; rewrite !map_length, seq_length; reflexivity].
        f_equal; [rewrite mat_vec_image; apply at_image; assumption|]. unfold at_, mat_vec, transposed. rewrite map_map, nth_map_seq by exact Li. rewrite COL. apply dot_maps.
      * intros j Lj. f_equal. rewrite mat_vec_image. apply at_image; assumption.
    + f_equal. f_equal. rewrite !mat_vec_image, !dot_inner. rewrite (form_bil W mu mu p SW LM LM).
      rewrite (form_bil A (image B h) (image B h) p SA); [|rewrite <- mat_vec_image; exact LN|rewrite <- mat_vec_image; exact LN].
      rewrite <- dot_inner, dot_maps. reflexivity.
Qed.

(** ** The posterior is the prior times the likelihood *)

Lemma lin_inner : forall p (w : list R) r, List.length (fst r) = p -> List.length w = p -> lin p xs (at_ w) r = inner (map qr (fst r)) w.
Proof. intros p w r L LW. unfold lin, xs. rewrite (inner_sum _ w p); [reflexivity|rewrite map_length; exact L|exact LW]. Qed.

Lemma solves_posterior : forall p a b mu V W rows po, 0 < a -> 0 < b -> List.length mu = p -> definite p V -> inverse V = Ok W -> definite p W ->
  unit_of p (entry W) (entry V) -> (forall r, In r rows -> List.length (fst r) = p) -> solves p a b mu W rows po -> is_posterior p a b mu V rows po.
Proof.
  intros p a b mu V W rows po PA PB LM DV EW DW U LR S. assert (SV : sized p V) by (apply definite_entries in DV; apply DV).
  split; [rewrite (so_a _ _ _ _ _ _ _ S); assert (X := pos_INR (List.length rows)); lra|].
  split; [assert (X := solved_b p a b mu W rows po DW LM S); lra|]. split; [apply S|]. split; [exact (solved_definite p a b mu W rows po DW S)|].
  intros w z s LW LZ EZ PS.
  assert (LD : List.length (minus w mu) = p) by (apply length_minus; assumption).
  assert (LD' : List.length (minus w (po_mu po)) = p) by (apply length_minus; [assumption|apply S]).
  assert (E1 : inner (minus w mu) z = bil p (entry W) (fun i => at_ w i - at_ mu i) (fun i => at_ w i - at_ mu i)).
  { rewrite (inner_sum _ z p LD LZ). unfold bil. apply sum_ext. intros i Li. rewrite (at_minus w mu p) by assumption. f_equal.
    rewrite (sum_ext p _ (fun j => entry W i j * sum p (fun k => entry V j k * at_ z k))).
    - symmetry. apply unit_apply; assumption.
    - intros j Lj. f_equal. rewrite <- (at_image V z p j SV LZ Lj), EZ. symmetry. apply (at_minus w mu p); assumption. }
  assert (E2 : inner (minus w (po_mu po)) (image (po_Vinv po) (minus w (po_mu po))) = bil p (entry (po_Vinv po)) (fun i => at_ w i - at_ (po_mu po) i) (fun i => at_ w i - at_ (po_mu po) i)).
  { rewrite (form_bil _ _ _ p (so_size _ _ _ _ _ _ _ S) LD' LD'). apply bil_ext; [reflexivity| |]; intros; apply (at_minus w _ p); try assumption; apply S. }
  rewrite E1, E2. assert (SQ := solved_square p a b mu W rows po (at_ w) DW LM S).
  set (q := bil p (entry (po_Vinv po)) _ _) in *. set (q0 := bil p (entry W) _ _) in *.
  assert (EL : log_likelihood rows (w) s = - (INR (List.length rows) / 2) * ln s - rsum (map (fun r => (ys r - lin p xs (at_ w) r) * (ys r - lin p xs (at_ w) r)) rows) / (2 * s)).
  { clear - LR LW PS. induction rows as [|r rows IH]; [unfold log_likelihood, rsum; cbn; field; lra|]. unfold log_likelihood in *. cbn [map List.length].
    change (rsum (?x :: ?l)) with (x + rsum l). rewrite IH by (intros; apply LR; now right). rewrite S_INR. rewrite <- (lin_inner p w r); [|apply LR; now left|exact LW]. fold (ys r). field. lra. }
  rewrite EL. unfold log_kernel. rewrite (so_a _ _ _ _ _ _ _ S).
  set (e := rsum (map (fun r => (ys r - lin p xs (at_ w) r) * (ys r - lin p xs (at_ w) r)) rows)) in *.
  replace (po_b po + q / 2) with (b + q0 / 2 + e / 2) by lra. field. lra.
Qed.

Lemma posterior_ok : forall p a b mu V rows, proper p a b mu V -> (forall r, In r rows -> List.length (fst r) = p) ->
  exists po, posterior_hypers (Z.of_nat (List.length rows)) (codes_of rows) (values_of rows) a b mu V = Ok (Some po) /\ is_posterior p a b mu V rows po.
Proof.
  intros p a b mu V rows (PA & PB & LM & DV) LR. destruct (definite_inverse p V DV) as (W & EW & DW & U & U' & _).
  destruct (posterior_solves p a b mu V W rows DV EW DW LM LR) as (po & E & S). exists po. split; [exact E|]. eapply solves_posterior; eassumption.
Qed.

(** ** The predictive density *)

Lemma log_Z_ok : forall p po, 0 < po_b po -> definite p (po_Vinv po) ->
  0 < det p (entry (po_Vinv po)) /\ calc_log_Z (Some po) = Ok (Fin (lgamma (po_a po) - / 2 * ln (det p (entry (po_Vinv po))) - po_a po * ln (po_b po))).
Proof.
  intros p po PB D. apply definite_entries in D. destruct D as ([LV _] & _ & PD). assert (DP := det_positive p _ PD). split; [exact DP|].
  unfold calc_log_Z. rewrite LV, determinant_det. destruct (Rlt_dec 0 (det p (entry (po_Vinv po)))) as [_|N]; [|contradiction]. cbn [obind].
  destruct (Rlt_dec 0 (po_b po)) as [_|N]; [|contradiction]. unfold xsub. cbn [xadd xneg]. do 2 f_equal.
  rewrite sqrt_ln by (apply Rdiv_lt_0_compat; lra). unfold Rdiv. rewrite Rmult_1_l, ln_Rinv by exact DP. ring.
Qed.

Lemma rsum_snoc : forall {T} (f : T -> R) l x, rsum (map f (l ++ [x])) = rsum (map f l) + f x.
Proof. intros. rewrite map_app, rsum_app. unfold rsum. cbn. ring. Qed.

Lemma predictive_ok : forall p a b mu V rows po y x z, proper p a b mu V -> (forall r, In r rows -> List.length (fst r) = p) ->
  posterior_hypers (Z.of_nat (List.length rows)) (codes_of rows) (values_of rows) a b mu V = Ok (Some po) ->
  List.length y = p -> List.length z = p -> image (po_Vinv po) z = map qr y ->
  linreg_predictive (VQ x) (map VQ y) (Z.of_nat (List.length rows)) (codes_of rows) (values_of rows) a b mu V =
  Ok (Fin (ln (student_t (2 * po_a po) (inner (map qr y) (po_mu po)) (po_b po / po_a po * (1 + inner (map qr y) z)) (qr x)))) /\ 0 <= inner (map qr y) z.
Proof.
  intros p a b mu V rows po y x z (PA & PB & LM & DV) LR EP LY LZ EZ. destruct (definite_inverse p V DV) as (W & EW & DW & U & U' & _).
  destruct (posterior_solves p a b mu V W rows DV EW DW LM LR) as (po0 & E & S). rewrite EP in E. injection E as <-.
  assert (LR' : forall r, In r (rows ++ [(y, x)]) -> List.length (fst r) = p) by (intros r Hr; apply in_app_iff in Hr; destruct Hr as [Hr|[<-|[]]]; [auto|exact LY]).
  destruct (posterior_solves p a b mu V W (rows ++ [(y, x)]) DV EW DW LM LR') as (po' & EP' & S').
  assert (DA := solved_definite p a b mu W rows po DW S). assert (DA' := solved_definite p a b mu W _ po' DW S').
  assert (GB := solved_b p a b mu W rows po DW LM S). assert (GB' := solved_b p a b mu W _ po' DW LM S').
  unfold linreg_predictive. rewrite EP. cbn [obind].
  replace (Z.of_nat (List.length rows) + 1)%Z with (Z.of_nat (List.length (rows ++ [(y, x)]))) by (rewrite app_length; cbn [List.length]; lia).
  replace (codes_of rows ++ [map VQ y]) with (codes_of (rows ++ [(y, x)])) by (unfold codes_of; rewrite map_app; reflexivity).
  replace (values_of rows ++ [VQ x]) with (values_of (rows ++ [(y, x)])) by (unfold values_of; rewrite map_app; reflexivity).
  rewrite EP'. cbn [obind].
  destruct (log_Z_ok p po ltac:(lra) DA) as (DP & ZN). destruct (log_Z_ok p po' ltac:(lra) DA') as (DP' & ZM). rewrite ZN, ZM. cbn [obind].
  assert (SA := so_size _ _ _ _ _ _ _ S). assert (SA' := so_size _ _ _ _ _ _ _ S'). assert (LN := so_mu _ _ _ _ _ _ _ S). assert (LN' := so_mu _ _ _ _ _ _ _ S').
  destruct (definite_inverse p (po_Vinv po) DA) as (B & EB & DB & UA & UB & EN). destruct (definite_inverse p (po_Vinv po') DA') as (B' & _ & _ & _ & UB' & _).
  set (A := entry (po_Vinv po)) in *. set (A' := entry (po_Vinv po')) in *. set (yf := at_ (map qr y)).
  assert (LQ : List.length (map qr y) = p) by (rewrite map_length; exact LY).
  assert (AA : forall i j, (i < p)%nat -> (j < p)%nat -> A' i j = A i j + yf i * yf j).
  { intros i j Li Lj. unfold A, A'. rewrite (so_V _ _ _ _ _ _ _ S), (so_V _ _ _ _ _ _ _ S') by assumption. rewrite rsum_snoc. unfold xs at 3 4. cbn [fst]. fold yf. ring. }
  assert (AZ : forall i, (i < p)%nat -> sum p (fun j => A i j * at_ z j) = yf i).
  { intros i Li. unfold A. rewrite <- (at_image (po_Vinv po) z p i SA LZ Li), EZ. reflexivity. }
  assert (ZB : forall i, (i < p)%nat -> at_ z i = sum p (fun k => entry B i k * yf k)).
  { intros i Li. rewrite <- (unit_apply p (entry B) A (at_ z) i UB Li). apply sum_ext. intros k Lk. rewrite AZ by exact Lk. reflexivity. }
  set (q := inner (map qr y) z). assert (EQ : q = sum p (fun i => yf i * at_ z i)) by (apply inner_sum; assumption).
  assert (BQ : bil p A (at_ z) (at_ z) = q).
  { rewrite EQ. apply sum_ext. intros i Li. rewrite AZ by exact Li. ring. }
  assert (Q0 : 0 <= q) by (rewrite <- BQ; apply (bil_nonneg p (po_Vinv po) (at_ z) DA)).
  assert (DD : det p A' = det p A * (1 + q)).
  { rewrite (det_ext p A' (fun i j => A i j + yf i * yf j) AA). rewrite (det_update p A (entry B) yf EN) by lra. do 2 f_equal. rewrite EQ, sum_swap.
    apply sum_ext. intros i Li. rewrite ZB by exact Li. rewrite <- sum_scal. apply sum_ext. intros. ring. }
  set (m := inner (map qr y) (po_mu po)). assert (EM : m = sum p (fun i => yf i * at_ (po_mu po) i)) by (apply inner_sum; assumption).
  set (c := (qr x - m) / (1 + q)). assert (EC : c * (1 + q) = qr x - m) by (unfold c; field; lra).
  assert (MU : forall i, (i < p)%nat -> at_ (po_mu po') i = at_ (po_mu po) i + c * at_ z i).
  { intros i Li. rewrite <- (unit_apply p (entry B') A' (at_ (po_mu po')) i UB' Li). rewrite <- (unit_apply p (entry B') A' (fun i => at_ (po_mu po) i + c * at_ z i) i UB' Li).
    apply sum_ext. intros k Lk. f_equal. unfold A' at 1. rewrite (so_eq _ _ _ _ _ _ _ S' k Lk). rewrite rsum_snoc.
    assert (SE := so_eq _ _ _ _ _ _ _ S k Lk). fold A in SE. rewrite <- Rplus_assoc, <- SE. unfold xs, ys. cbn [fst snd]. fold yf.
    rewrite (sum_ext p (fun k0 => A' k k0 * _) (fun j => A k j * at_ (po_mu po) j + (c * (A k j * at_ z j) + yf k * (yf j * at_ (po_mu po) j + c * (yf j * at_ z j))))).
    - rewrite !sum_add, !sum_scal, sum_add, sum_scal, AZ, <- EM, <- EQ by exact Lk. replace (c * yf k + yf k * (m + c * q)) with (yf k * (m + c * (1 + q))) by ring. rewrite EC. ring.
    - intros j Lj. rewrite AA by assumption. ring. }
  assert (BB : po_b po' = po_b po + / 2 * (c * c * (1 + q))).
  { assert (Q1 := solved_square p a b mu W rows po (at_ (po_mu po')) DW LM S). assert (Q2 := solved_square p a b mu W _ po' (at_ (po_mu po')) DW LM S').
    rewrite rsum_snoc in Q2. fold A in Q1. fold A' in Q2.
    assert (Z0 : bil p A' (fun i => at_ (po_mu po') i - at_ (po_mu po') i) (fun i => at_ (po_mu po') i - at_ (po_mu po') i) = 0) by (apply sum_zero; intros; ring).
    assert (Z1 : bil p A (fun i => at_ (po_mu po') i - at_ (po_mu po) i) (fun i => at_ (po_mu po') i - at_ (po_mu po) i) = c * c * q).
    { rewrite <- BQ. rewrite (bil_ext p A A _ (fun i => c * at_ z i) _ (fun i => c * at_ z i)); [|reflexivity|intros; rewrite MU by assumption; ring|intros; rewrite MU by assumption; ring].
      unfold bil. rewrite <- sum_scal. apply sum_ext. intros i Li. rewrite (sum_ext p _ (fun j => c * (A i j * at_ z j))) by (intros; ring). rewrite sum_scal. ring. }
    assert (Z2 : ys (y, x) - lin p xs (at_ (po_mu po')) (y, x) = c).
    { unfold ys, lin, xs. cbn [fst snd]. fold yf. rewrite (sum_ext p _ (fun i => yf i * at_ (po_mu po) i + c * (yf i * at_ z i))) by (intros; rewrite MU by assumption; ring).
      rewrite sum_add, sum_scal, <- EM, <- EQ. lra. }
    rewrite Z0 in Q2. rewrite Z1 in Q1. rewrite Z2 in Q2. lra. }
  split; [|exact Q0]. unfold xsub. cbn [xadd xneg]. do 2 f_equal.
  assert (AN : po_a po' = po_a po + / 2).
  { rewrite (so_a _ _ _ _ _ _ _ S), (so_a _ _ _ _ _ _ _ S'), app_length. cbn [List.length]. rewrite plus_INR. cbn. lra. }
  assert (PAN : 0 < po_a po) by (rewrite (so_a _ _ _ _ _ _ _ S); assert (X := pos_INR (List.length rows)); lra).
  assert (PBN : 0 < po_b po) by lra.
  assert (PS2 : 0 < po_b po / po_a po * (1 + q)) by (apply Rmult_lt_0_compat; [apply Rdiv_lt_0_compat; lra|lra]).
  rewrite ln_student_t by lra. rewrite DD, AN, BB. rewrite ln_mult by lra.
  replace (2 * po_a po * (po_b po / po_a po * (1 + q))) with (2 * (po_b po * (1 + q))) by (field; lra).
  assert (PBQ : 0 < po_b po * (1 + q)) by (apply Rmult_lt_0_compat; lra).
  replace (po_b po + / 2 * (c * c * (1 + q))) with (po_b po * (1 + (qr x - m) * (qr x - m) / (2 * (po_b po * (1 + q))))).
  - assert (C0 : 0 <= (qr x - m) * (qr x - m) / (2 * (po_b po * (1 + q)))).
    { apply Rmult_le_pos; [apply Rle_0_sqr|]. apply Rlt_le, Rinv_0_lt_compat. lra. }
    rewrite (ln_mult (po_b po)) by lra. rewrite (ln_mult 2), (ln_mult (po_b po) (1 + q)) by lra. unfold LOG2PI, LOG2, LOGPI. 
    replace ((2 * po_a po + 1) / 2) with (po_a po + / 2) by field. replace (2 * po_a po / 2) with (po_a po) by field. field.
  - rewrite <- EC. field. lra.
Qed.

(** ** Regressions *)

Lemma coded_rows : forall g0 g rows coded, fresh_linreg g0 -> observe_rows g0 rows = Some g -> Forall2 (coded_row (lr_table g0)) rows coded ->
  sound (lr_table g) /\ alike (lr_table g0) (lr_table g) /\ t_N (lr_table g) = Z.of_nat (List.length coded) /\
  values (t_ydum (lr_table g)) = codes_of coded /\ values (t_data (lr_table g)) = values_of coded /\
  lr_a g = lr_a g0 /\ lr_b g = lr_b g0 /\ lr_mu g = lr_mu g0 /\ lr_V g = lr_V g0.
Proof.
  intros g0 g rows coded F O C. destruct (fresh_sound g0 F) as (S0 & N0 & D0 & Y0).
  destruct (rows_state rows g0 g S0 O) as (S & AL & N & P & _ & EA & EB & EM & EV). split; [exact S|]. split; [exact AL|].
  assert (LC : List.length rows = List.length coded) by (clear - C; induction C; cbn; congruence).
  split; [rewrite N, N0, LC; reflexivity|].
  assert (PE : pairs (lr_table g) = map (fun c => (map VQ (fst c), VQ (snd c))) coded).
  { rewrite P. unfold pairs. rewrite D0, Y0. cbn [values map combine app]. clear - C. induction C as [|[[rid obs] inp] c rows coded (E1 & E2) C IH]; [reflexivity|].
    cbn [map]. f_equal; [|exact IH]. cbn [fst snd] in *. unfold stored. rewrite E2, E1. cbn [lookup]. destruct (eq_dec _ _) as [_|X]; [reflexivity|contradiction X; reflexivity]. }
  assert (SL := sound_lengths _ S). unfold pairs in PE.
  split; [|split; [|auto]].
  - rewrite <- (combine_fst _ _ SL), PE, map_map. reflexivity.
  - rewrite <- (combine_snd _ _ SL), PE, map_map. reflexivity.
Qed.

Lemma coded_length : forall t r c, coded_row t r c -> List.length (fst c) = Z.to_nat (code_length t).
Proof. intros t r c [_ E]. apply process_length in E. rewrite map_length in E. lia. Qed.

Lemma regression_ok : forall g0 g rows coded, fresh_linreg g0 ->
  proper (Z.to_nat (code_length (lr_table g0))) (lr_a g0) (lr_b g0) (lr_mu g0) (lr_V g0) ->
  observe_rows g0 rows = Some g -> Forall2 (coded_row (lr_table g0)) rows coded ->
  exists po, is_posterior (Z.to_nat (code_length (lr_table g0))) (lr_a g0) (lr_b g0) (lr_mu g0) (lr_V g0) coded po /\
    posterior_hypers (t_N (lr_table g)) (values (t_ydum (lr_table g))) (values (t_data (lr_table g))) (lr_a g) (lr_b g) (lr_mu g) (lr_V g) = Ok (Some po) /\
    (exists s, linreg_score g = Ok (Fin s)) /\
    forall rid inp y x, omem rid (t_data (lr_table g)) = false -> process_inputs dummy_code_linreg (lr_table g0) inp = Ok (map VQ y) ->
      exists z, List.length z = Z.to_nat (code_length (lr_table g0)) /\ image (po_Vinv po) z = map qr y /\ 0 <= inner (map qr y) z /\
        linreg_logpdf g rid [(t_out (lr_table g0), VQ x)] [] inp =
        Ok (Fin (ln (student_t (2 * po_a po) (inner (map qr y) (po_mu po)) (po_b po / po_a po * (1 + inner (map qr y) z)) (qr x)))).
Proof.
  intros g0 g rows coded F PR O C. destruct (coded_rows g0 g rows coded F O C) as (S & AL & N & EY & EX & EA & EB & EM & EV).
  set (p := Z.to_nat (code_length (lr_table g0))) in *.
  assert (LR : forall c, In c coded -> List.length (fst c) = p).
  { intros c Hc. clear - C Hc. unfold p. induction C as [|r c' rows coded CR C IH]; [destruct Hc|]. destruct Hc as [->|Hc]; [apply (coded_length _ _ _ CR)|auto]. }
  destruct (posterior_ok p _ _ _ _ coded PR LR) as (po & EP & IP). exists po. split; [exact IP|].
  rewrite N, EY, EX, EA, EB, EM, EV. split; [exact EP|]. assert (IPD := IP). destruct IPD as (PPA & PPB & LMU & DA & _). destruct PR as (PA & PB & LM & DV). split.
  - unfold linreg_score, linreg_marginal. rewrite N, EY, EX, EA, EB, EM, EV, EP. cbn [obind]. destruct (definite_inverse p _ DV) as (W & EW & DW & _). rewrite EW. cbn [obind].
    destruct (log_Z_ok p (mkPosterior (lr_a g0) (lr_b g0) (lr_mu g0) W) PB DW) as (_ & Z0). destruct (log_Z_ok p po PPB DA) as (_ & Z1). rewrite Z0, Z1. cbn [obind].
    unfold xsub. cbn [xadd xneg]. eauto.
  - intros rid inp y x NR EI. destruct (definite_inverse p _ DA) as (B & EB' & DB & U & U' & _).
    assert (LY : List.length y = p) by (apply process_length in EI; rewrite map_length in EI; unfold p; lia).
    assert (SB : sized p B) by (apply definite_entries in DB; apply DB). assert (SA : sized p (po_Vinv po)) by (apply definite_entries in DA; apply DA).
    exists (image B (map qr y)). split; [apply length_image; exact SB|].
    assert (LB : List.length (image B (map qr y)) = p) by (apply length_image; exact SB). assert (LQ : List.length (map qr y) = p) by (rewrite map_length; exact LY).
    assert (EZ : image (po_Vinv po) (image B (map qr y)) = map qr y).
    { apply (at_inj _ _ p); [apply length_image; exact SA|exact LQ|]. intros i Li. rewrite (at_image _ _ p i SA LB Li).
      rewrite (sum_ext p _ (fun j => entry (po_Vinv po) i j * sum p (fun k => entry B j k * at_ (map qr y) k))) by (intros j Lj; rewrite (at_image B (map qr y) p j SB LQ Lj); reflexivity).
      apply unit_apply; assumption. }
    split; [exact EZ|]. destruct (predictive_ok p _ _ _ _ coded po y x _ (conj PA (conj PB (conj LM DV))) LR EP LY LB EZ) as (PO & Q0). split; [exact Q0|].
    unfold linreg_logpdf, table_target. destruct AL as (A1 & A2 & A3). rewrite NR. cbn [negb oassert obind].
    assert (EK : eqb (keys [(t_out (lr_table g0), VQ x)]) [t_out (lr_table g)] = true) by (rewrite A1; apply eqb_refl). rewrite EK. cbn [oassert obind].
    unfold dget. cbn [lookup]. rewrite A1. destruct (eq_dec _ _) as [_|X]; [|contradiction X; reflexivity]. cbn [obind].
    rewrite (alike_process dummy_code_linreg (lr_table g0) (lr_table g) inp (conj A1 (conj A2 A3))), EI. cbn [obind]. rewrite N, EY, EX, EA, EB, EM, EV. exact PO.
Qed.

(** The hyperparameters taken by default. *)
Lemma default_proper : forall outs ins levels g, new_linreg outs ins levels None None None None = Ok g ->
  proper (Z.to_nat (code_length (lr_table g))) (lr_a g) (lr_b g) (lr_mu g) (lr_V g).
Proof.
  intros outs ins levels g E. unfold new_linreg in E. destruct (new_table outs ins levels) as [t|e]; [|discriminate]. cbn [obind] in E. injection E as <-.
  cbn [lr_table lr_a lr_b lr_mu lr_V]. rewrite <- dimension_length. set (p := Z.to_nat (dimension t)).
  split; [lra|]. split; [lra|]. split; [apply repeat_length|]. apply definite_entries.
  assert (EE : forall i j, (i < p)%nat -> (j < p)%nat -> entry (eye p) i j = if (i =? j)%nat then 1 else 0).
  { intros i j Li Lj. unfold entry, eye. rewrite !nth_map_seq by assumption. reflexivity. }
  split; [split; [unfold eye; rewrite map_length, seq_length; reflexivity|]|split].
  - intros r Hr. unfold eye in Hr. apply in_map_iff in Hr. destruct Hr as (i & <- & _). rewrite map_length, seq_length. reflexivity.
  - intros i j Li Lj. rewrite !EE, Nat.eqb_sym by assumption. reflexivity.
  - intros v (k & Lk & Vk). rewrite bil_quad. unfold bil. rewrite (sum_ext p _ (fun i => v i * v i)).
    + clear EE. induction p as [|p IH]; [lia|]. cbn [sum]. assert (N : 0 <= sum p (fun i => v i * v i)) by (apply sum_nonneg; intros; apply Rle_0_sqr).
      destruct (Nat.eq_dec k p) as [->|NE]; [assert (0 < v p * v p) by (apply Rsqr_pos_lt; exact Vk); lra|].
      assert (0 < sum p (fun i => v i * v i)) by (apply IH; lia). assert (0 <= v p * v p) by apply Rle_0_sqr. lra.
    + intros i Li. f_equal. rewrite <- (sum_pick p i v Li). apply sum_ext. intros j Lj. rewrite EE by assumption. rewrite Nat.eqb_sym. ring.
Qed.

Lemma observe_rows_app : forall l l' g, observe_rows g (l ++ l') = match observe_rows g l with Some g' => observe_rows g' l' | None => None end.
Proof.
  induction l as [|[[rid obs] inp] l IH]; intros l' g; [reflexivity|]. cbn [app observe_rows]. destruct (linreg_observe g rid obs inp) as [g1 [u|e]]; [apply IH|reflexivity].
Qed.

Lemma predictions_ok : forall rest crest pre cpre g0 g g', fresh_linreg g0 ->
  proper (Z.to_nat (code_length (lr_table g0))) (lr_a g0) (lr_b g0) (lr_mu g0) (lr_V g0) ->
  observe_rows g0 pre = Some g -> Forall2 (coded_row (lr_table g0)) pre cpre -> Forall2 (coded_row (lr_table g0)) rest crest ->
  observe_rows g rest = Some g' -> exists ls, predictions g rest = Some ls.
Proof.
  induction rest as [|[[rid obs] inp] rest IH]; intros crest pre cpre g0 g g' F PR O C CR O'; [eexists; reflexivity|].
  inversion CR as [|? c ? crest' CR1 CR2]; subst. cbn [observe_rows predictions] in O' |- *.
  destruct (linreg_observe g rid obs inp) as [g1 [u|e]] eqn:E; [|discriminate].
  destruct (regression_ok g0 g pre cpre F PR O C) as (po & _ & _ & _ & LP). assert (CR1' := CR1). destruct CR1' as (E1 & E2). cbn [fst snd] in E1, E2.
  assert (NR : omem (Some rid) (t_data (lr_table g)) = false).
  { unfold linreg_observe in E. destruct (observe_cases dummy_code_linreg (lr_table g) rid obs inp) as [(e' & X)|(x & y & X0 & _ & _ & _ & X)]; rewrite X in E; [discriminate|].
    cbn [omem]. unfold dmem. rewrite X0. reflexivity. }
  destruct (LP (Some rid) inp (fst c) (snd c) NR E2) as (z & _ & _ & _ & L). rewrite <- E1 in L. rewrite L. cbn [fst].
  destruct (IH crest' (pre ++ [(rid, obs, inp)]) (cpre ++ [c]) g0 g1 g' F PR) as (ls & ->); [|apply Forall2_app; [exact C|constructor; [exact CR1|constructor]]|exact CR2|exact O'|eexists; reflexivity].
  rewrite observe_rows_app, O. cbn [observe_rows]. rewrite E. reflexivity.
Qed.

Lemma score_ok : forall g0 g rows coded, fresh_linreg g0 ->
  proper (Z.to_nat (code_length (lr_table g0))) (lr_a g0) (lr_b g0) (lr_mu g0) (lr_V g0) ->
  observe_rows g0 rows = Some g -> Forall2 (coded_row (lr_table g0)) rows coded ->
  exists ls, predictions g0 rows = Some ls /\ linreg_score g = Ok (Fin (rsum ls)).
Proof.
  intros g0 g rows coded F PR O C. destruct (predictions_ok rows coded [] [] g0 g0 g F PR) as (ls & E); [reflexivity|constructor|exact C|exact O|]. exists ls. split; [exact E|].
  destruct (regression_ok g0 g0 [] [] F PR eq_refl (Forall2_nil _)) as (_ & _ & _ & (s & S) & _).
  assert (s = 0) by (destruct (empty_score g0 (Fin s) F S) as [X|X]; [injection X as ->; reflexivity|discriminate]). subst s.
  rewrite (score_rows rows g0 g 0 (proj1 (fresh_sound g0 F)) O S ls E). do 2 f_equal. lra.
Qed.
