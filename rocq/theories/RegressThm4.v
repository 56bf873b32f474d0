(** The posterior and the predictive density of a regression. (Proofs.) *)
From Coq Require Import List ZArith QArith Qcanon Reals Bool String Permutation Arith Lia Lra.
From Verif Require Import Base Xr Samp Lgamma Prims Cgpm Lib SpecPrims PrimsInv PrimsDens Regress RegressThm RegressThm2 Matrix.
From Verif Require Import SpecRegress.
Import ListNotations.
Local Open Scope R_scope.

(** ** Lists and functions *)

Definition at_ (v : list R) (i : nat) : R := nth i v 0.
Definition entry (A : list (list R)) (i j : nat) : R := nth j (nth i A []) 0.
Definition sized (n : nat) (A : list (list R)) : Prop := List.length A = n /\ forall r, In r A -> List.length r = n.

Lemma nth_drop : forall {A} (l : list A) j b d, nth b (drop_nth j l) d = nth (skip j b) l d.
Proof.
  intros A l. induction l as [|x l IH]; intros j b d.
  - unfold drop_nth. rewrite firstn_nil. cbn. destruct b, (skip j _); reflexivity.
  - destruct j as [|j]; [reflexivity|]. unfold drop_nth. cbn [firstn app]. destruct b as [|b]; [reflexivity|]. cbn [nth].
    change (firstn j l ++ skipn (Datatypes.S (Datatypes.S j)) (x :: l)) with (drop_nth j l). rewrite IH. unfold skip.
    destruct (Nat.ltb_spec b j), (Nat.ltb_spec (Datatypes.S b) (Datatypes.S j)); try lia; reflexivity.
Qed.

Lemma entry_minor : forall A i j a b, entry (minor i j A) a b = entry A (skip i a) (skip j b).
Proof.
  intros A i j a b. unfold entry, minor.
  assert (E : nth a (map (drop_nth j) (drop_nth i A)) [] = drop_nth j (nth a (drop_nth i A) [])).
  { rewrite <- (map_nth (drop_nth j)). f_equal. unfold drop_nth. rewrite firstn_nil. reflexivity. }
  rewrite E, !nth_drop. reflexivity.
Qed.

Lemma determinant_det : forall n A, determinant n A = det n (entry A).
Proof.
  induction n as [|n IH]; intros A; [reflexivity|]. cbn [determinant]. rewrite rsum_sum, det_S. apply sum_ext. intros j _. rewrite IH. f_equal.
  apply det_ext. intros a b _ _. rewrite entry_minor. reflexivity.
Qed.

Lemma nth_map_seq : forall {A} (f : nat -> A) n i d, (i < n)%nat -> nth i (map f (seq 0 n)) d = f i.
Proof. intros A f n i d L. rewrite (nth_indep _ d (f O)) by (rewrite map_length, seq_length; exact L). rewrite map_nth, seq_nth by exact L. reflexivity. Qed.

Lemma inverse_spec : forall A B n, List.length A = n -> inverse A = Ok B -> sized n B /\ det n (entry A) <> 0 /\
  (forall i k, (i < n)%nat -> (k < n)%nat -> entry B i k = sign (i + k) * det (n - 1) (fun a b => entry A (skip k a) (skip i b)) / det n (entry A)) /\
  forall i k, (i < n)%nat -> (k < n)%nat -> sum n (fun j => entry A i j * entry B j k) = if (i =? k)%nat then 1 else 0.
Proof.
  intros A B n L H. unfold inverse in H. rewrite L in H. rewrite determinant_det in H. destruct (Req_EM_T (det n (entry A)) 0) as [|D]; [discriminate|]. injection H as <-.
  assert (EB : forall i k, (i < n)%nat -> (k < n)%nat ->
    entry (map (fun i => map (fun j => sign (i + j) * determinant (n - 1) (minor j i A) / det n (entry A)) (seq 0 n)) (seq 0 n)) i k =
    sign (i + k) * det (n - 1) (fun a b => entry A (skip k a) (skip i b)) / det n (entry A)).
  { intros i k Li Lk. unfold entry at 1. rewrite !nth_map_seq by assumption. rewrite determinant_det.
    rewrite (det_ext (n - 1) (entry (minor k i A)) (fun a b => entry A (skip k a) (skip i b))) by (intros; apply entry_minor). reflexivity. }
  split; [split; [rewrite map_length, seq_length; reflexivity|intros r Hr; apply in_map_iff in Hr; destruct Hr as (i & <- & _); rewrite map_length, seq_length; reflexivity]|].
  split; [exact D|]. split; [exact EB|]. intros i k Li Lk.
  rewrite (sum_ext n _ (fun j => / det n (entry A) * (entry A i j * (sign (j + k) * det (n - 1) (fun a b => entry A (skip k a) (skip j b)))))).
  - rewrite sum_scal, det_adjugate by assumption. destruct (i =? k)%nat; [field; exact D|ring].
  - intros j Lj. rewrite EB by assumption. field. exact D.
Qed.

Lemma inverse_ok : forall A n, List.length A = n -> det n (entry A) <> 0 -> exists B, inverse A = Ok B.
Proof. intros A n L D. unfold inverse. rewrite L, determinant_det. destruct (Req_EM_T (det n (entry A)) 0) as [|_]; [contradiction|eauto]. Qed.

Lemma inner_sum : forall u v n, List.length u = n -> List.length v = n -> inner u v = sum n (fun i => at_ u i * at_ v i).
Proof.
  induction u as [|x u IH]; intros [|y v] n E F; cbn [List.length] in *; subst; try discriminate; [reflexivity|].
  rewrite sum_first. cbn [inner at_ nth]. rewrite (IH v (List.length u)) by lia. reflexivity.
Qed.

Lemma dot_inner : forall u v, dot u v = inner u v.
Proof. induction u as [|x u IH]; intros [|y v]; try reflexivity. unfold dot, rsum in *. cbn. rewrite IH. reflexivity. Qed.

Lemma at_image : forall M v n i, sized n M -> List.length v = n -> (i < n)%nat -> at_ (image M v) i = sum n (fun j => entry M i j * at_ v j).
Proof.
  intros M v n i [LM LR] LV Li. unfold at_, image. rewrite (nth_indep _ 0 (inner [] v)) by (rewrite map_length, LM; exact Li). rewrite (map_nth (fun r => inner r v)).
  apply inner_sum; [apply LR, nth_In; rewrite LM; exact Li|exact LV].
Qed.

Lemma length_image : forall M v n, sized n M -> List.length (image M v) = n.
Proof. intros M v n [L _]. unfold image. rewrite map_length. exact L. Qed.

Lemma form_bil : forall M u v n, sized n M -> List.length u = n -> List.length v = n -> inner u (image M v) = bil n (entry M) (at_ u) (at_ v).
Proof.
  intros M u v n S Lu Lv. rewrite (inner_sum u _ n Lu (length_image M v n S)). apply sum_ext. intros i Li. rewrite (at_image M v n i S Lv Li). reflexivity.
Qed.

Lemma mat_vec_image : forall A v, mat_vec A v = image A v.
Proof. intros A v. unfold mat_vec, image. apply map_ext. intros r. apply dot_inner. Qed.

Lemma length_minus : forall u v n, List.length u = n -> List.length v = n -> List.length (minus u v) = n.
Proof. induction u as [|x u IH]; intros [|y v] n E F; cbn in *; subst; try discriminate; [reflexivity|]. f_equal. apply IH; lia. Qed.

Lemma at_minus : forall u v n i, List.length u = n -> List.length v = n -> at_ (minus u v) i = at_ u i - at_ v i.
Proof.
  induction u as [|x u IH]; intros [|y v] n i E F; cbn [List.length] in *; subst; try discriminate.
  - unfold at_. destruct i; cbn; ring.
  - destruct i as [|i]; [reflexivity|]. unfold at_ in *. cbn [minus nth]. apply (IH v (List.length u)); lia.
Qed.

Lemma at_inj : forall u v n, List.length u = n -> List.length v = n -> (forall i, (i < n)%nat -> at_ u i = at_ v i) -> u = v.
Proof.
  intros u v n Lu Lv E. apply nth_ext with (d := 0) (d' := 0); [congruence|]. intros i Li. apply E. lia.
Qed.

(** A vector with the given coordinates. *)
Definition vector (n : nat) (f : nat -> R) : list R := map f (seq 0 n).
Lemma length_vector : forall n f, List.length (vector n f) = n.
Proof. intros. unfold vector. rewrite map_length, seq_length. reflexivity. Qed.
Lemma at_vector : forall n f i, (i < n)%nat -> at_ (vector n f) i = f i.
Proof. intros. unfold at_, vector. apply nth_map_seq. assumption. Qed.

Lemma definite_entries : forall n M, definite n M <-> sized n M /\ (forall i j, (i < n)%nat -> (j < n)%nat -> entry M i j = entry M j i) /\ positive n (entry M).
Proof.
  intros n M. split.
  - intros (L & LR & SY & PD). assert (S : sized n M) by (split; assumption). split; [exact S|]. split.
    + assert (U : forall i j, (i < n)%nat -> (j < n)%nat -> inner (vector n (fun k => if (k =? i)%nat then 1 else 0)) (image M (vector n (fun k => if (k =? j)%nat then 1 else 0))) = entry M i j).
      { intros i j Li Lj. rewrite (form_bil M _ _ n S) by apply length_vector. unfold bil. rewrite (sum_one n _ i Li).
        - rewrite at_vector, Nat.eqb_refl by exact Li. rewrite (sum_one n _ j Lj).
          + rewrite at_vector, Nat.eqb_refl by exact Lj. ring.
          + intros k Lk N. rewrite at_vector by exact Lk. apply Nat.eqb_neq in N. rewrite N. ring.
        - intros k Lk N. rewrite at_vector by exact Lk. apply Nat.eqb_neq in N. rewrite N. ring. }
      intros i j Li Lj. rewrite <- !U by assumption. apply SY; apply length_vector.
    + intros v (i & Li & Vi). specialize (PD (vector n v) (length_vector n v)). rewrite (form_bil M _ _ n S) in PD by apply length_vector.
      rewrite bil_quad. rewrite (bil_ext n (entry M) (entry M) v (at_ (vector n v)) v (at_ (vector n v))); [|reflexivity|intros; symmetry; now apply at_vector|intros; symmetry; now apply at_vector].
      apply PD. exists (v i). split; [|exact Vi]. unfold vector. apply in_map. apply in_seq. lia.
  - intros (S & SY & PD). split; [apply S|]. split; [apply S|]. split.
    + intros u v Lu Lv. rewrite !(form_bil M _ _ n S) by assumption. apply bil_sym. exact SY.
    + intros v Lv (x & Hx & NX). rewrite (form_bil M _ _ n S) by assumption. rewrite <- bil_quad. apply PD. destruct (In_nth v x 0 Hx) as (i & Li & E).
      exists i. split; [lia|]. unfold at_. rewrite E. exact NX.
Qed.

(** ** Inverses of definite matrices *)

Definition unit_of (n : nat) (M W : nat -> nat -> R) : Prop :=
  forall i k, (i < n)%nat -> (k < n)%nat -> sum n (fun j => M i j * W j k) = if (i =? k)%nat then 1 else 0.

Lemma sum_pick : forall n k (f : nat -> R), (k < n)%nat -> sum n (fun i => f i * (if (i =? k)%nat then 1 else 0)) = f k.
Proof. intros n k f L. rewrite (sum_one n _ k L); [rewrite Nat.eqb_refl; ring|]. intros i _ N. apply Nat.eqb_neq in N. rewrite N. ring. Qed.

Lemma unit_symmetric : forall n M W, unit_of n M W -> (forall i j, (i < n)%nat -> (j < n)%nat -> M i j = M j i) ->
  forall a b, (a < n)%nat -> (b < n)%nat -> W a b = W b a.
Proof.
  intros n M W U S a b La Lb.
  assert (T1 : sum n (fun c => sum n (fun d => W c a * (M c d * W d b))) = W b a).
  { rewrite <- (sum_pick n b (fun c => W c a) Lb). apply sum_ext. intros c Lc. rewrite sum_scal, U by assumption. reflexivity. }
  assert (T2 : sum n (fun c => sum n (fun d => W c a * (M c d * W d b))) = W a b).
  { rewrite sum_swap. rewrite <- (sum_pick n a (fun d => W d b) La). apply sum_ext. intros d Ld.
    rewrite (sum_ext n _ (fun c => W d b * (M d c * W c a))) by (intros c Lc; rewrite (S c d) by assumption; ring). rewrite sum_scal, U by assumption. reflexivity. }
  congruence.
Qed.

Lemma unit_apply : forall n M W v i, unit_of n M W -> (i < n)%nat -> sum n (fun j => M i j * sum n (fun k => W j k * v k)) = v i.
Proof.
  intros n M W v i U L. rewrite (sum_ext n _ (fun j => sum n (fun k => M i j * W j k * v k))) by (intros; rewrite <- sum_scal; apply sum_ext; intros; ring).
  rewrite sum_swap. rewrite <- (sum_pick n i v L). apply sum_ext. intros k Lk.
  rewrite (sum_ext n _ (fun j => v k * (M i j * W j k))) by (intros; ring). rewrite sum_scal, U by assumption. rewrite Nat.eqb_sym. reflexivity.
Qed.

Lemma some_nonzero : forall n (u : nat -> R), ~ (forall j, (j < n)%nat -> u j = 0) -> exists j, (j < n)%nat /\ u j <> 0.
Proof.
  intros n u X. induction n as [|n IH]; [exfalso; apply X; intros; lia|].
  destruct (Req_EM_T (u n) 0) as [E|N]; [|exists n; split; [lia|exact N]].
  destruct IH as (j & Lj & Nj); [|exists j; split; [lia|exact Nj]]. intros Z. apply X. intros j Lj. destruct (Nat.eq_dec j n) as [->|]; [exact E|apply Z; lia].
Qed.

Lemma unit_positive : forall n M W, unit_of n M W -> positive n M -> positive n W.
Proof.
  intros n M W U P v (i & Li & Vi). set (u := fun j => sum n (fun k => W j k * v k)).
  assert (MU : forall i, (i < n)%nat -> sum n (fun j => M i j * u j) = v i) by (intros; apply unit_apply; assumption).
  assert (NZ : exists j, (j < n)%nat /\ u j <> 0).
  { assert (X : ~ (forall j, (j < n)%nat -> u j = 0)).
    { intros Z. apply Vi. rewrite <- (MU i Li). apply sum_zero. intros j Lj. rewrite Z by exact Lj. ring. }
    apply some_nonzero. exact X. }
  assert (Q := P u NZ). rewrite bil_quad in *. unfold bil in *. erewrite sum_ext; [exact Q|]. intros j Lj. cbn beta. rewrite MU by exact Lj. fold (u j). ring.
Qed.

Lemma unit_left : forall n M W, unit_of n M W -> (forall i j, (i < n)%nat -> (j < n)%nat -> M i j = M j i) -> unit_of n W M.
Proof.
  intros n M W U S i k Li Lk. assert (SW := unit_symmetric n M W U S). rewrite <- (Nat.eqb_sym k i), <- (U k i Lk Li). apply sum_ext. intros j Lj.
  rewrite (S j k), (SW i j) by assumption. ring.
Qed.

Lemma definite_inverse : forall n V, definite n V -> exists W, inverse V = Ok W /\ definite n W /\ unit_of n (entry V) (entry W) /\ unit_of n (entry W) (entry V) /\
  (forall i k, (i < n)%nat -> (k < n)%nat -> entry W i k = sign (i + k) * det (n - 1) (fun a b => entry V (skip k a) (skip i b)) / det n (entry V)).
Proof.
  intros n V D. apply definite_entries in D. destruct D as (S & SY & PD). assert (DP := det_positive n _ PD).
  destruct (inverse_ok V n (proj1 S)) as [W EW]; [lra|]. exists W. split; [exact EW|]. destruct (inverse_spec V W n (proj1 S) EW) as (SW & _ & EN & U).
  split; [|split; [exact U|split; [apply unit_left; assumption|exact EN]]]. apply definite_entries. split; [exact SW|]. split; [apply (unit_symmetric n _ _ U SY)|apply (unit_positive n _ _ U PD)].
Qed.

(** ** The posterior *)

Definition xs (r : list Qc * Qc) : nat -> R := at_ (map qr (fst r)).
Definition ys (r : list Qc * Qc) : R := qr (snd r).

(** The equations that define the posterior; [W] is the inverse of the prior's covariance. *)
Record solves (p : nat) (a b : R) (mu : list R) (W : list (list R)) (rows : list (list Qc * Qc)) (po : posterior) : Prop := mkSolves {
  so_a : po_a po = a + INR (List.length rows) / 2;
  so_mu : List.length (po_mu po) = p;
  so_size : sized p (po_Vinv po);
  so_V : forall i j, (i < p)%nat -> (j < p)%nat -> entry (po_Vinv po) i j = entry W i j + rsum (map (fun r => xs r i * xs r j) rows);
  so_eq : forall i, (i < p)%nat -> sum p (fun j => entry (po_Vinv po) i j * at_ (po_mu po) j) = sum p (fun j => entry W i j * at_ mu j) + rsum (map (fun r => xs r i * ys r) rows);
  so_b : po_b po = b + / 2 * (bil p (entry W) (at_ mu) (at_ mu) + rsum (map (fun r => ys r * ys r) rows) - bil p (entry (po_Vinv po)) (at_ (po_mu po)) (at_ (po_mu po)))
}.

Lemma solved_definite : forall p a b mu W rows po, definite p W -> solves p a b mu W rows po -> definite p (po_Vinv po).
Proof.
  intros p a b mu W rows po D S. apply definite_entries in D. destruct D as (SW & SY & PD). apply definite_entries. split; [apply S|]. split.
  - intros i j Li Lj. rewrite !(so_V _ _ _ _ _ _ _ S) by assumption. rewrite SY by assumption. f_equal. f_equal. apply map_ext. intros. ring.
  - intros v NZ. rewrite bil_quad. rewrite (bil_ext p _ (fun i j => entry W i j + rsum (map (fun r => xs r i * xs r j) rows)) v v v v); [|apply S|reflexivity|reflexivity].
    rewrite bil_add, bil_rows. assert (Q := PD v NZ). rewrite bil_quad in Q.
    assert (0 <= rsum (map (fun r => lin p xs v r * lin p xs v r) rows)); [|lra]. clear. induction rows as [|r l IH]; [unfold rsum; cbn; lra|]. unfold rsum in *. cbn [map fold_right].
    assert (0 <= lin p xs v r * lin p xs v r) by apply Rle_0_sqr. lra.
Qed.

Lemma solved_square : forall p a b mu W rows po w, definite p W -> List.length mu = p -> solves p a b mu W rows po ->
  po_b po + / 2 * bil p (entry (po_Vinv po)) (fun i => w i - at_ (po_mu po) i) (fun i => w i - at_ (po_mu po) i) =
  b + / 2 * bil p (entry W) (fun i => w i - at_ mu i) (fun i => w i - at_ mu i) + / 2 * rsum (map (fun r => (ys r - lin p xs w r) * (ys r - lin p xs w r)) rows).
Proof.
  intros p a b mu W rows po w D LM S. apply definite_entries in D. destruct D as (SW & SY & PD).
  assert (X := square p (entry W) (entry (po_Vinv po)) xs ys rows (at_ mu) (at_ (po_mu po)) w SY (so_V _ _ _ _ _ _ _ S) (so_eq _ _ _ _ _ _ _ S)).
  rewrite (so_b _ _ _ _ _ _ _ S). lra.
Qed.

Lemma bil_nonneg : forall p W v, definite p W -> 0 <= bil p (entry W) v v.
Proof.
  intros p W v D. apply definite_entries in D. destruct D as (_ & _ & PD).
  destruct (Req_EM_T (bil p (entry W) v v) 0) as [E|N]; [lra|]. left. rewrite <- bil_quad. apply PD.
  assert (X : ~ (forall j, (j < p)%nat -> v j = 0)).
  { intros Z. apply N. apply sum_zero. intros i Li. rewrite Z by exact Li. ring. }
  apply some_nonzero. exact X.
Qed.

Lemma squares_nonneg : forall {T} (f : T -> R) l, 0 <= rsum (map (fun r => f r * f r) l).
Proof. intros T f l. induction l as [|r l IH]; [unfold rsum; cbn; lra|]. unfold rsum in *. cbn [map fold_right]. assert (0 <= f r * f r) by apply Rle_0_sqr. lra. Qed.

Lemma solved_b : forall p a b mu W rows po, definite p W -> List.length mu = p -> solves p a b mu W rows po -> b <= po_b po.
Proof.
  intros p a b mu W rows po D LM S. assert (X := solved_square p a b mu W rows po (at_ (po_mu po)) D LM S).
  assert (Z : bil p (entry (po_Vinv po)) (fun i => at_ (po_mu po) i - at_ (po_mu po) i) (fun i => at_ (po_mu po) i - at_ (po_mu po) i) = 0).
  { apply sum_zero. intros. ring. }
  rewrite Z in X. assert (A := bil_nonneg p W (fun i => at_ (po_mu po) i - at_ mu i) D).
  assert (B := squares_nonneg (fun r => ys r - lin p xs (at_ (po_mu po)) r) rows). lra.
Qed.
