(** Determinants and inverses of matrices of reals. (Proofs.) *)
From Coq Require Import List ZArith Reals Bool Arith Lia Lra.
From Verif Require Import Base Xr Lib Regress.
Import ListNotations.
Local Open Scope R_scope.

(** ** Sums over an interval *)

Fixpoint sum (n : nat) (f : nat -> R) : R := match n with O => 0 | Datatypes.S n' => sum n' f + f n' end.

Lemma sum_ext : forall n f g, (forall i, (i < n)%nat -> f i = g i) -> sum n f = sum n g.
Proof. induction n as [|n IH]; intros f g E; [reflexivity|]. cbn. rewrite (IH f g), (E n) by (intros; try apply E; lia). reflexivity. Qed.
Lemma sum_zero : forall n f, (forall i, (i < n)%nat -> f i = 0) -> sum n f = 0.
Proof. induction n as [|n IH]; intros f E; [reflexivity|]. cbn. rewrite IH, E by (intros; try apply E; lia). lra. Qed.
Lemma sum_add : forall n f g, sum n (fun i => f i + g i) = sum n f + sum n g.
Proof. induction n as [|n IH]; intros; cbn; [lra|]. rewrite IH. lra. Qed.
Lemma sum_scal : forall n c f, sum n (fun i => c * f i) = c * sum n f.
Proof. induction n as [|n IH]; intros; cbn; [lra|]. rewrite IH. lra. Qed.
Lemma sum_swap : forall n m f, sum n (fun i => sum m (fun j => f i j)) = sum m (fun j => sum n (fun i => f i j)).
Proof. induction n as [|n IH]; intros; cbn; [rewrite sum_zero by reflexivity; reflexivity|]. rewrite IH, <- sum_add. reflexivity. Qed.
Lemma sum_first : forall n f, sum (Datatypes.S n) f = f O + sum n (fun i => f (Datatypes.S i)).
Proof. induction n as [|n IH]; intros; [cbn; lra|]. cbn [sum] in *. rewrite IH. lra. Qed.
Lemma sum_one : forall n f k, (k < n)%nat -> (forall i, (i < n)%nat -> i <> k -> f i = 0) -> sum n f = f k.
Proof.
  induction n as [|n IH]; intros f k L E; [lia|]. cbn. destruct (Nat.eq_dec k n) as [->|N].
  - rewrite sum_zero by (intros; apply E; lia). lra.
  - rewrite (IH f k), (E n) by (intros; try apply E; lia). lra.
Qed.
Lemma sum_nonneg : forall n f, (forall i, (i < n)%nat -> 0 <= f i) -> 0 <= sum n f.
Proof. induction n as [|n IH]; intros f E; cbn; [lra|]. assert (A := IH f (fun i L => E i (Nat.lt_lt_succ_r _ _ L))). assert (B := E n (Nat.lt_succ_diag_r n)). lra. Qed.
Lemma rsum_sum : forall n f, rsum (map f (seq 0 n)) = sum n f.
Proof.
  induction n as [|n IH]; intros f; [reflexivity|]. rewrite seq_S, map_app, rsum_app, IH. cbn. lra.
Qed.

(** ** Indices without one of them *)

Definition skip (j b : nat) : nat := if (b <? j)%nat then b else Datatypes.S b.
Definition unskip (j k : nat) : nat := if (k <? j)%nat then k else pred k.

Ltac plain a := lazymatch a with context [if _ then _ else _] => fail | _ => idtac end.
Ltac cases := unfold skip, unskip; repeat match goal with
  | |- context [(?a <? ?b)%nat] => plain a; plain b; destruct (Nat.ltb_spec a b)
  | |- context [(?a <=? ?b)%nat] => plain a; plain b; destruct (Nat.leb_spec a b)
  | |- context [(?a =? ?b)%nat] => plain a; plain b; destruct (Nat.eqb_spec a b)
  end.

Lemma unskip_skip : forall j k, unskip j (skip j k) = k.
Proof. intros. cases; lia. Qed.

Lemma sum_skip : forall n j f, (j <= n)%nat -> sum n (fun k => f (skip j k)) + f j = sum (Datatypes.S n) f.
Proof.
  induction n as [|n IH]; intros j f L.
  - replace j with O by lia. cbn. lra.
  - destruct (Nat.eq_dec j (Datatypes.S n)) as [->|N].
    + cbn [sum]. f_equal. f_equal; [|f_equal; cases; lia]. apply sum_ext. intros i Li. f_equal. cases; lia.
    + cbn [sum] in *. specialize (IH j f). rewrite <- (IH ltac:(lia)). replace (skip j n) with (Datatypes.S n) by (cases; lia). lra.
Qed.

Lemma sum_unskip : forall n j h, (j <= n)%nat -> sum n h = sum (Datatypes.S n) (fun k => if (k =? j)%nat then 0 else h (unskip j k)).
Proof.
  intros n j h L. rewrite <- (sum_skip n j) by exact L. rewrite Nat.eqb_refl, Rplus_0_r. apply sum_ext. intros k Lk. rewrite unskip_skip.
  replace (skip j k =? j)%nat with false by (symmetry; apply Nat.eqb_neq; cases; lia). reflexivity.
Qed.

(** ** Determinants *)

Lemma sign_S : forall n, sign (Datatypes.S n) = - sign n.
Proof. intros. unfold sign. rewrite Nat.even_succ, <- Nat.negb_even. destruct (Nat.even n); cbn; lra. Qed.
Lemma sign_add : forall n m, sign (n + m) = sign n * sign m.
Proof. induction n as [|n IH]; intros m; [unfold sign; cbn; lra|]. cbn [Nat.add]. rewrite !sign_S, IH. lra. Qed.
Lemma sign_sq : forall n, sign n * sign n = 1.
Proof. intros. unfold sign. destruct (Nat.even n); lra. Qed.

Fixpoint det (n : nat) (M : nat -> nat -> R) : R :=
  match n with
  | O => 1
  | Datatypes.S n' => sum n (fun j => sign j * M O j * det n' (fun a b => M (Datatypes.S a) (skip j b)))
  end.

Lemma det_S : forall n M, det (Datatypes.S n) M = sum (Datatypes.S n) (fun j => sign j * M O j * det n (fun a b => M (Datatypes.S a) (skip j b))).
Proof. reflexivity. Qed.

Lemma det_ext : forall n M M', (forall i j, (i < n)%nat -> (j < n)%nat -> M i j = M' i j) -> det n M = det n M'.
Proof.
  induction n as [|n IH]; intros M M' E; [reflexivity|]. cbn [det]. apply sum_ext. intros j Lj. rewrite E by lia. f_equal. apply IH.
  intros a b La Lb. apply E; [lia|]. cases; lia.
Qed.

(** Two adjacent rows exchanged. *)
Definition swapped (r : nat) (M : nat -> nat -> R) : nat -> nat -> R :=
  fun i => if (i =? r)%nat then M (Datatypes.S r) else if (i =? Datatypes.S r)%nat then M r else M i.

Lemma det_two : forall n M, det (Datatypes.S (Datatypes.S n)) M =
  sum (n + 2) (fun j => sum (n + 2) (fun k => if (k =? j)%nat then 0 else
    sign j * sign (unskip j k) * (M O j * M 1%nat k) * det n (fun a b => M (Datatypes.S (Datatypes.S a)) (skip j (skip (unskip j k) b))))).
Proof.
  intros n M. replace (n + 2)%nat with (Datatypes.S (Datatypes.S n)) by lia. cbn [det]. apply sum_ext. intros j Lj.
  rewrite <- sum_scal. rewrite (sum_unskip (Datatypes.S n) j) by lia. apply sum_ext. intros k Lk. destruct (Nat.eqb_spec k j) as [->|N]; [reflexivity|].
  replace (skip j (unskip j k)) with k by (cases; lia). ring.
Qed.

Lemma swap_top : forall n M, det (Datatypes.S (Datatypes.S n)) (swapped 0 M) = - det (Datatypes.S (Datatypes.S n)) M.
Proof.
  intros n M. rewrite !det_two. rewrite sum_swap. replace (- sum (n + 2) _) with ((-1) * sum (n + 2) (fun j => sum (n + 2) (fun k => if (k =? j)%nat then 0 else
    sign j * sign (unskip j k) * (M O j * M 1%nat k) * det n (fun a b => M (Datatypes.S (Datatypes.S a)) (skip j (skip (unskip j k) b)))))) by ring.
  rewrite <- sum_scal. apply sum_ext. intros j Lj. rewrite <- sum_scal. apply sum_ext. intros k Lk.
  rewrite (Nat.eqb_sym j k). destruct (Nat.eqb_spec k j) as [->|N]; [ring|].
  assert (SG : sign k * sign (unskip k j) = - (sign j * sign (unskip j k))).
  { unfold unskip. destruct (Nat.ltb_spec j k), (Nat.ltb_spec k j); try lia.
    - destruct k as [|k]; [lia|]. cbn [pred]. rewrite sign_S. ring.
    - destruct j as [|j]; [lia|]. cbn [pred]. rewrite sign_S. ring. }
  rewrite SG. cbn [swapped Nat.eqb]. rewrite (det_ext n _ (fun a b => M (Datatypes.S (Datatypes.S a)) (skip j (skip (unskip j k) b)))); [unfold swapped; cbn; ring|].
  intros a b _ _. unfold swapped. cbn. f_equal. cases; lia.
Qed.

Lemma det_swap : forall r n M, (Datatypes.S r < n)%nat -> det n (swapped r M) = - det n M.
Proof.
  induction r as [|r IH]; intros n M L.
  - destruct n as [|[|n]]; [lia|lia|]. apply swap_top.
  - destruct n as [|n]; [lia|]. cbn [det]. replace (- sum (Datatypes.S n) _) with ((-1) * sum (Datatypes.S n) (fun j => sign j * M O j * det n (fun a b => M (Datatypes.S a) (skip j b)))) by ring.
    rewrite <- sum_scal. apply sum_ext. intros j Lj. unfold swapped at 1. cbn [Nat.eqb].
    rewrite (det_ext n _ (swapped r (fun a b => M (Datatypes.S a) (skip j b)))); [rewrite IH by lia; ring|].
    intros a b _ _. unfold swapped. cbn [Nat.eqb]. destruct (a =? r)%nat; [reflexivity|]. destruct (a =? Datatypes.S r)%nat; reflexivity.
Qed.

Lemma det_equal : forall d i n M, (i + Datatypes.S d < n)%nat -> (forall j, M i j = M (i + Datatypes.S d)%nat j) -> det n M = 0.
Proof.
  induction d as [|d IH]; intros i n M L E.
  - assert (X := det_swap i n M ltac:(lia)). rewrite (det_ext n (swapped i M) M) in X; [lra|].
    intros a b _ _. unfold swapped. replace (i + 1)%nat with (Datatypes.S i) in E by lia. destruct (Nat.eqb_spec a i) as [->|N]; [symmetry; apply E|].
    destruct (Nat.eqb_spec a (Datatypes.S i)) as [->|N']; [apply E|reflexivity].
  - assert (X := det_swap (i + Datatypes.S d) n M ltac:(lia)). rewrite (IH i n (swapped (i + Datatypes.S d) M)) in X; [lra|lia|].
    intros j. unfold swapped. rewrite Nat.eqb_refl. replace (i =? i + Datatypes.S d)%nat with false by (symmetry; apply Nat.eqb_neq; lia).
    replace (i =? Datatypes.S (i + Datatypes.S d))%nat with false by (symmetry; apply Nat.eqb_neq; lia). rewrite E. f_equal. lia.
Qed.

Lemma det_rows : forall n M i k, (i < n)%nat -> (k < n)%nat -> i <> k -> (forall j, M i j = M k j) -> det n M = 0.
Proof.
  intros n M i k Li Lk N E. destruct (Nat.lt_ge_cases i k) as [L|L].
  - apply (det_equal (k - i - 1) i); replace (i + Datatypes.S (k - i - 1))%nat with k by lia; [exact Lk|exact E].
  - apply (det_equal (i - k - 1) k); replace (k + Datatypes.S (i - k - 1))%nat with i by lia; [exact Li|intros; symmetry; apply E].
Qed.

(** Row [k] moved to the top. *)
Definition lifted (k : nat) (M : nat -> nat -> R) : nat -> nat -> R :=
  fun i => if (i =? 0)%nat then M k else if (i <=? k)%nat then M (pred i) else M i.

Lemma det_lift : forall k n M, (k < n)%nat -> det n (lifted k M) = sign k * det n M.
Proof.
  induction k as [|k IH]; intros n M L.
  - rewrite (det_ext n (lifted 0 M) M); [unfold sign; cbn; ring|]. intros i j _ _. unfold lifted. destruct i; reflexivity.
  - rewrite (det_ext n _ (lifted k (swapped k M))).
    + rewrite IH, det_swap, sign_S by lia. ring.
    + intros i j _ _. unfold lifted, swapped. cases; subst; try lia; try reflexivity; f_equal; lia.
Qed.

Lemma det_row : forall k n M, (k < Datatypes.S n)%nat ->
  sum (Datatypes.S n) (fun j => sign (k + j) * M k j * det n (fun a b => M (skip k a) (skip j b))) = det (Datatypes.S n) M.
Proof.
  intros k n M L. assert (X := det_lift k (Datatypes.S n) M L). rewrite det_S in X.
  assert (Y : sign k * sum (Datatypes.S n) (fun j => sign j * lifted k M 0%nat j * det n (fun a b => lifted k M (Datatypes.S a) (skip j b))) = det (Datatypes.S n) M).
  { rewrite X, <- Rmult_assoc, sign_sq. ring. }
  rewrite <- Y, <- sum_scal. apply sum_ext. intros j Lj. rewrite sign_add. unfold lifted at 1. cbn [Nat.eqb].
  rewrite (det_ext n (fun a b => lifted k M (Datatypes.S a) (skip j b)) (fun a b => M (skip k a) (skip j b))); [ring|].
  intros a b _ _. unfold lifted. cbn [Nat.eqb pred]. unfold skip at 2. cases; try lia; reflexivity.
Qed.

(** Cofactors of another row. *)
Lemma det_alien : forall i k n M, (i < Datatypes.S n)%nat -> (k < Datatypes.S n)%nat -> i <> k ->
  sum (Datatypes.S n) (fun j => sign (k + j) * M i j * det n (fun a b => M (skip k a) (skip j b))) = 0.
Proof.
  intros i k n M Li Lk N. set (M' := fun a : nat => if (a =? k)%nat then M i else M a).
  assert (Z := det_rows (Datatypes.S n) M' i k Li Lk N). rewrite <- (det_row k n M' Lk) in Z. rewrite <- Z.
  - apply sum_ext. intros j Lj. unfold M' at 1. rewrite Nat.eqb_refl. f_equal. apply det_ext. intros a b _ _. unfold M'.
    replace (skip k a =? k)%nat with false; [reflexivity|]. symmetry. apply Nat.eqb_neq. cases; lia.
  - intros j. unfold M'. rewrite Nat.eqb_refl. replace (i =? k)%nat with false by (symmetry; apply Nat.eqb_neq; exact N). reflexivity.
Qed.

(** The matrix times its cofactors, transposed. *)
Lemma det_adjugate : forall n M i k, (i < n)%nat -> (k < n)%nat ->
  sum n (fun j => M i j * (sign (j + k) * det (n - 1) (fun a b => M (skip k a) (skip j b)))) = if (i =? k)%nat then det n M else 0.
Proof.
  intros n M i k Li Lk. destruct n as [|n]; [lia|]. replace (Datatypes.S n - 1)%nat with n by lia. destruct (Nat.eqb_spec i k) as [->|N].
  - rewrite <- (det_row k n M Lk). apply sum_ext. intros j _. rewrite (Nat.add_comm j k). ring.
  - rewrite <- (det_alien i k n M Li Lk N). apply sum_ext. intros j _. rewrite (Nat.add_comm j k). ring.
Qed.

(** ** Positive definite matrices *)

Definition quad (n : nat) (M : nat -> nat -> R) (v : nat -> R) : R := sum n (fun i => sum n (fun j => v i * M i j * v j)).
Definition positive (n : nat) (M : nat -> nat -> R) : Prop := forall v, (exists i, (i < n)%nat /\ v i <> 0) -> 0 < quad n M v.

Lemma det_positive : forall n M, positive n M -> 0 < det n M.
Proof.
  induction n as [|n IH]; intros M P; [cbn; lra|].
  set (v := fun j => sign j * det n (fun a b => M (Datatypes.S a) (skip j b))).
  assert (V0 : 0 < v O).
  { unfold v. replace (sign 0) with 1 by reflexivity. rewrite Rmult_1_l. rewrite (det_ext n _ (fun a b => M (Datatypes.S a) (Datatypes.S b))) by reflexivity.
    apply IH. intros w (i & Li & Wi). set (w' := fun i => match i with O => 0 | Datatypes.S i => w i end).
    assert (Q := P w' ltac:(exists (Datatypes.S i); split; [lia|exact Wi])). unfold quad in *. rewrite sum_first in Q. rewrite sum_zero in Q by (intros; cbn; ring).
    rewrite Rplus_0_l in Q. rewrite (sum_ext n _ (fun i => sum n (fun j => w i * M (Datatypes.S i) (Datatypes.S j) * w j))) in Q; [exact Q|].
    intros a _. rewrite sum_first. cbn [w']. ring. }
  assert (Q := P v ltac:(exists O; split; [lia|lra])). unfold quad in Q.
  rewrite (sum_ext _ _ (fun i => v i * (if (i =? 0)%nat then det (Datatypes.S n) M else 0))) in Q.
  - rewrite (sum_one _ _ 0) in Q; [|lia|intros [|i] _ N; [lia|cbn; ring]]. cbn [Nat.eqb] in Q. apply (Rmult_lt_reg_l (v O)); [exact V0|]. rewrite Rmult_0_r. exact Q.
  - intros i Li. rewrite <- (det_adjugate (Datatypes.S n) M i 0 Li ltac:(lia)). rewrite <- sum_scal. apply sum_ext. intros j _. unfold v.
    replace (Datatypes.S n - 1)%nat with n by lia. rewrite Nat.add_0_r.
    rewrite (det_ext n (fun a b => M (skip 0 a) (skip j b)) (fun a b => M (Datatypes.S a) (skip j b))) by (intros; reflexivity). ring.
Qed.

(** ** Linearity in a row *)

Definition with_row (k : nat) (u : nat -> R) (M : nat -> nat -> R) : nat -> nat -> R := fun i => if (i =? k)%nat then u else M i.

Lemma det_with_row : forall n M k u, (k < Datatypes.S n)%nat ->
  det (Datatypes.S n) (with_row k u M) = sum (Datatypes.S n) (fun j => u j * (sign (k + j) * det n (fun a b => M (skip k a) (skip j b)))).
Proof.
  intros n M k u L. rewrite <- (det_row k n (with_row k u M) L). apply sum_ext. intros j Lj. unfold with_row at 1. rewrite Nat.eqb_refl.
  rewrite (det_ext n (fun a b => with_row k u M (skip k a) (skip j b)) (fun a b => M (skip k a) (skip j b))); [ring|].
  intros a b _ _. unfold with_row. replace (skip k a =? k)%nat with false; [reflexivity|]. symmetry. apply Nat.eqb_neq. cases; lia.
Qed.

Lemma det_linear : forall n M k u c v, (k < n)%nat ->
  det n (with_row k (fun j => u j + c * v j) M) = det n (with_row k u M) + c * det n (with_row k v M).
Proof.
  intros n M k u c v L. destruct n as [|n]; [lia|]. rewrite !det_with_row by exact L. rewrite <- sum_scal, <- sum_add. apply sum_ext. intros. ring.
Qed.

(** A multiple of the row [k] added to rows. *)
Lemma det_reduce : forall n M k c y, (k < n)%nat -> (forall j, M k j = y j) -> forall m, (m <= n)%nat ->
  det n (fun i j => M i j + (if (i <? m)%nat && negb (i =? k)%nat then c i * y j else 0)) = det n M.
Proof.
  intros n M k c y L E m. induction m as [|m IH]; intros Lm; [apply det_ext; intros; cbn; ring|].
  destruct (Nat.eq_dec m k) as [->|N].
  - rewrite <- IH by lia. apply det_ext. intros i j _ _. f_equal. cases; subst; cbn; try reflexivity; try lia.
  - rewrite <- IH by lia. set (M' := fun i j => M i j + (if (i <? m)%nat && negb (i =? k)%nat then c i * y j else 0)).
    rewrite (det_ext n _ (with_row m (fun j => M' m j + c m * y j) M')).
    + rewrite det_linear by lia. rewrite (det_ext n (with_row m (M' m) M') M') by (intros i j _ _; unfold with_row; destruct (Nat.eqb_spec i m) as [->|]; reflexivity).
      rewrite (det_rows n (with_row m y M') m k); [ring|lia|lia|lia|].
      intros j. unfold with_row. rewrite Nat.eqb_refl. replace (k =? m)%nat with false by (symmetry; apply Nat.eqb_neq; lia). unfold M'. rewrite Nat.eqb_refl, andb_false_r, E. ring.
    + intros i j _ _. unfold with_row, M'. cases; subst; cbn; try lia; ring.
Qed.

(** The determinant of [M] plus the product of a column [c] and a row [y]. *)
Lemma det_rank_one : forall n M c y, forall m, (m <= n)%nat ->
  det n (fun i j => M i j + (if (i <? m)%nat then c i * y j else 0)) = det n M + sum m (fun i => c i * det n (with_row i y M)).
Proof.
  intros n M c y m. induction m as [|m IH]; intros L; [cbn [sum]; rewrite Rplus_0_r; apply det_ext; intros; cbn; ring|].
  cbn [sum]. rewrite <- Rplus_assoc, <- IH by lia. set (M' := fun i j => M i j + (if (i <? m)%nat then c i * y j else 0)).
  rewrite (det_ext n _ (with_row m (fun j => M' m j + c m * y j) M')).
  - rewrite det_linear by lia. f_equal; [apply det_ext; intros i j _ _; unfold with_row; destruct (Nat.eqb_spec i m) as [->|]; reflexivity|]. f_equal.
    rewrite <- (det_reduce n (with_row m y M) m c y) with (m := m); [|lia|intros; unfold with_row; rewrite Nat.eqb_refl; reflexivity|lia].
    apply det_ext. intros i j _ _. unfold with_row, M'. cases; subst; cbn; try lia; ring.
  - intros i j _ _. unfold with_row, M'. cases; subst; cbn; try lia; ring.
Qed.

Lemma det_update : forall n M Mi y, (forall i k, (i < n)%nat -> (k < n)%nat -> Mi i k = sign (i + k) * det (n - 1) (fun a b => M (skip k a) (skip i b)) / det n M) ->
  det n M <> 0 -> det n (fun i j => M i j + y i * y j) = det n M * (1 + sum n (fun i => sum n (fun j => y j * Mi j i * y i))).
Proof.
  intros n M Mi y E D. rewrite (det_ext n _ (fun i j => M i j + (if (i <? n)%nat then y i * y j else 0))) by (intros i j Li _; cases; [reflexivity|lia]).
  rewrite det_rank_one by lia. rewrite Rmult_plus_distr_l, Rmult_1_r. f_equal. rewrite <- sum_scal. apply sum_ext. intros i Li.
  destruct n as [|n]; [lia|]. rewrite det_with_row by exact Li. rewrite <- !sum_scal. apply sum_ext. intros j Lj. rewrite E by assumption.
  replace (Datatypes.S n - 1)%nat with n by lia. rewrite (Nat.add_comm i j). field. exact D.
Qed.

(** ** Bilinear forms *)

Definition bil (n : nat) (M : nat -> nat -> R) (u v : nat -> R) : R := sum n (fun i => u i * sum n (fun j => M i j * v j)).

Lemma bil_quad : forall n M v, quad n M v = bil n M v v.
Proof. intros. apply sum_ext. intros. rewrite <- sum_scal. apply sum_ext. intros. ring. Qed.

Lemma bil_ext : forall n M M' u u' v v', (forall i j, (i < n)%nat -> (j < n)%nat -> M i j = M' i j) -> (forall i, (i < n)%nat -> u i = u' i) ->
  (forall i, (i < n)%nat -> v i = v' i) -> bil n M u v = bil n M' u' v'.
Proof. intros n M M' u u' v v' A B C. apply sum_ext. intros i Li. rewrite B by exact Li. f_equal. apply sum_ext. intros j Lj. rewrite A, C by assumption. reflexivity. Qed.

Lemma bil_sym : forall n M u v, (forall i j, (i < n)%nat -> (j < n)%nat -> M i j = M j i) -> bil n M u v = bil n M v u.
Proof.
  intros n M u v S. unfold bil. rewrite (sum_ext n _ (fun i => sum n (fun j => u i * (M i j * v j)))) by (intros; rewrite sum_scal; reflexivity).
  rewrite sum_swap. apply sum_ext. intros j Lj. rewrite <- sum_scal. apply sum_ext. intros i Li. rewrite (S i j) by assumption. ring.
Qed.

Lemma bil_sub : forall n M u v, (forall i j, (i < n)%nat -> (j < n)%nat -> M i j = M j i) ->
  bil n M (fun i => u i - v i) (fun i => u i - v i) = bil n M u u - 2 * bil n M u v + bil n M v v.
Proof.
  intros n M u v S. assert (L : forall w, bil n M (fun i => u i - v i) w = bil n M u w - bil n M v w).
  { intros w. unfold bil. replace (sum n (fun i => u i * _) - _) with (sum n (fun i => u i * sum n (fun j => M i j * w j)) + (-1) * sum n (fun i => v i * sum n (fun j => M i j * w j))) by ring.
    rewrite <- sum_scal, <- sum_add. apply sum_ext. intros. ring. }
  rewrite L, (bil_sym n M u (fun i => u i - v i) S), (bil_sym n M v (fun i => u i - v i) S), !L. rewrite (bil_sym n M v u S). ring.
Qed.

Lemma rsum_sum_swap : forall {T} n (f : T -> nat -> R) l, sum n (fun i => rsum (map (fun r => f r i) l)) = rsum (map (fun r => sum n (f r)) l).
Proof.
  intros T n f l. induction l as [|r l IH]; [apply sum_zero; reflexivity|]. cbn [map]. change (rsum (sum n (f r) :: ?x)) with (sum n (f r) + rsum x).
  rewrite <- IH, <- sum_add. apply sum_ext. reflexivity.
Qed.

(** Normal equations. *)
Definition lin {T} (n : nat) (x : T -> nat -> R) (w : nat -> R) (r : T) : R := sum n (fun i => x r i * w i).

Lemma bil_rows : forall {T} n (x : T -> nat -> R) (l : list T) u v,
  bil n (fun i j => rsum (map (fun r => x r i * x r j) l)) u v = rsum (map (fun r => lin n x u r * lin n x v r) l).
Proof.
  intros T n x l u v. unfold bil. rewrite (sum_ext n _ (fun i => rsum (map (fun r => u i * x r i * lin n x v r) l))).
  - rewrite (rsum_sum_swap n (fun r i => u i * x r i * lin n x v r)). f_equal. apply map_ext. intros r. unfold lin at 2.
    rewrite (Rmult_comm (sum n _)), <- sum_scal. apply sum_ext. intros. ring.
  - intros i Li. rewrite (sum_ext n _ (fun j => rsum (map (fun r => x r i * x r j * v j) l))).
    + rewrite (rsum_sum_swap n (fun r j => x r i * x r j * v j)), <- rsum_scal. f_equal. apply map_ext. intros r. unfold lin. rewrite <- !sum_scal. apply sum_ext. intros. ring.
    + intros j Lj. rewrite Rmult_comm, <- rsum_scal. f_equal. apply map_ext. intros. ring.
Qed.

Lemma bil_add : forall n M M' u v, bil n (fun i j => M i j + M' i j) u v = bil n M u v + bil n M' u v.
Proof.
  intros. unfold bil. rewrite <- sum_add. apply sum_ext. intros. rewrite <- Rmult_plus_distr_l. f_equal. rewrite <- sum_add. apply sum_ext. intros. ring.
Qed.

(** Completing the square: the sum of the quadratic form of the prior and the squared errors. *)
Lemma square : forall {T} n (P A : nat -> nat -> R) (x : T -> nat -> R) (y : T -> R) l mu mn w,
  (forall i j, (i < n)%nat -> (j < n)%nat -> P i j = P j i) ->
  (forall i j, (i < n)%nat -> (j < n)%nat -> A i j = P i j + rsum (map (fun r => x r i * x r j) l)) ->
  (forall i, (i < n)%nat -> sum n (fun j => A i j * mn j) = sum n (fun j => P i j * mu j) + rsum (map (fun r => x r i * y r) l)) ->
  bil n P mu mu + rsum (map (fun r => y r * y r) l) - bil n A mn mn + bil n A (fun i => w i - mn i) (fun i => w i - mn i) =
  bil n P (fun i => w i - mu i) (fun i => w i - mu i) + rsum (map (fun r => (y r - lin n x w r) * (y r - lin n x w r)) l).
Proof.
  intros T n P A x y l mu mn w SP EA EM.
  assert (SA : forall i j, (i < n)%nat -> (j < n)%nat -> A i j = A j i).
  { intros i j Li Lj. rewrite !EA by assumption. rewrite SP by assumption. f_equal. f_equal. apply map_ext. intros. ring. }
  rewrite !bil_sub by assumption.
  assert (EW : forall u, bil n A u u = bil n P u u + rsum (map (fun r => lin n x u r * lin n x u r) l)).
  { intros u. rewrite <- bil_rows, <- bil_add. apply bil_ext; [exact EA|reflexivity|reflexivity]. }
  assert (EN : forall u, bil n A u mn = bil n P u mu + rsum (map (fun r => y r * lin n x u r) l)).
  { intros u. unfold bil. rewrite (sum_ext n _ (fun i => u i * sum n (fun j => P i j * mu j) + u i * rsum (map (fun r => x r i * y r) l))) by (intros; rewrite EM by assumption; ring).
    rewrite sum_add. f_equal. rewrite (sum_ext n _ (fun i => rsum (map (fun r => u i * (x r i * y r)) l))) by (intros; rewrite rsum_scal; reflexivity).
    rewrite (rsum_sum_swap n (fun r i => u i * (x r i * y r))). f_equal. apply map_ext. intros r. unfold lin. rewrite <- sum_scal. apply sum_ext. intros. ring. }
  assert (EX : rsum (map (fun r => (y r - lin n x w r) * (y r - lin n x w r)) l) =
    rsum (map (fun r => y r * y r) l) - 2 * rsum (map (fun r => y r * lin n x w r) l) + rsum (map (fun r => lin n x w r * lin n x w r) l)).
  { clear. induction l as [|r l IH]; [unfold rsum; cbn; ring|]. cbn [map]. unfold rsum in *. cbn [fold_right]. rewrite IH. ring. }
  rewrite EX, (EW w), (EN w). ring.
Qed.
