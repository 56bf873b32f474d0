(** C42: the scheduling of kernels. *)
From Coq Require Import List ZArith QArith Qcanon Reals Bool String Lia Lra.
From Verif Require Import Base Xr Samp Lgamma Prims Lib Hypers Progress SpecProgress HypersThm2 ProgressThm.
Import ListNotations.
Local Open Scope Z_scope.

(** The limits in force: one pass if none is given. *)
Definition limits (N S : option Qc) : option Qc := match N, S with None, None => Some 1%Qc | _, _ => N end.

(** transition_generic runs the kernels round robin, up to the first one before which a limit
    has been reached, and returns. Kernels, clock and limits are arbitrary, but for limits
    being 0. *)
Theorem C42_schedule : forall St clock (ks : list (kernel St)) N S s j fuel, ks <> [] -> limit_ok N -> limit_ok S ->
  finished clock ks (limits N S) S j -> (forall i, (i < j)%nat -> ~ finished clock ks (limits N S) S i) ->
  (j / List.length ks < fuel)%nat ->
  transition_generic fuel clock ks N S s = run_all (rounds ks j) s.
Proof.
  intros St clock ks N S s j fuel NE LN LS Fj Fi LF. unfold transition_generic. fold (limits N S).
  assert (LN' : limit_ok (limits N S)). { unfold limits. destruct N, S; try exact LN. discriminate. }
  destruct ks as [|k0 ks0] eqn:EK; [congruence|]. rewrite <- EK in *. assert (L : List.length ks <> 0%nat) by (rewrite EK; discriminate).
  rewrite (rounds_split ks j NE). assert (DM := Nat.div_mod j (List.length ks) L). assert (MB := Nat.mod_upper_bound j (List.length ks) L).
  apply passes_stop; auto.
  - replace (1 + j / List.length ks * List.length ks + j mod List.length ks)%nat with (Datatypes.S j) by lia. exact Fj.
  - intros q' i Hi Hq X. apply (Fi (q' * List.length ks + i)%nat); [nia|]. unfold finished.
    rewrite Nat.div_add_l, Nat.div_small, Nat.add_0_r by assumption.
    replace (Datatypes.S (q' * List.length ks + i)) with (1 + q' * List.length ks + i)%nat by lia. exact X.
Qed.
Print Assumptions C42_schedule.

(** If no limit is ever reached it does not return: whatever the number of passes allowed,
    either a kernel raises or passes run out. *)
Theorem C42_endless : forall St clock (ks : list (kernel St)) N S s fuel, ks <> [] -> limit_ok N -> limit_ok S ->
  (forall i, ~ finished clock ks (limits N S) S i) ->
  transition_generic fuel clock ks N S s =
    let! r := run_all (List.concat (repeat ks fuel)) s in Ret (fst r, match snd r with Ok _ => Err OutOfFuel | Err e => Err e end).
Proof.
  intros St clock ks N S s fuel NE LN LS Fi. unfold transition_generic. fold (limits N S).
  assert (LN' : limit_ok (limits N S)). { unfold limits. destruct N, S; try exact LN. discriminate. }
  destruct ks as [|k0 ks0] eqn:EK; [congruence|]. rewrite <- EK in *. assert (L : List.length ks <> 0%nat) by (rewrite EK; discriminate).
  apply passes_endless; auto. intros q i Hi X. apply (Fi (q * List.length ks + i)%nat). unfold finished.
  rewrite Nat.div_add_l, Nat.div_small, Nat.add_0_r by assumption. exact X.
Qed.
Print Assumptions C42_endless.

Lemma nq_reached : forall i n, (1 <= n)%nat -> (reached (nq i) (nq n) <-> (n <= i)%nat).
Proof.
  intros i n Hn. unfold reached. rewrite !qr_lt, !qr_le, qr_0, !qr_nq. assert (P : (1 <= INR n)%R) by (change 1%R with (INR 1); now apply le_INR).
  split; [intros [[_ H]|[H _]]; [now apply INR_le|lra]|]. intros H. left. split; [lra|now apply le_INR].
Qed.

Lemma rounds_full : forall St (ks : list (kernel St)) n, rounds ks (n * List.length ks) = List.concat (repeat ks n).
Proof.
  intros St ks n. destruct ks as [|k ks].
  - unfold rounds. assert (E : forall m, List.concat (repeat (@nil (kernel St)) m) = []) by (induction m; auto). rewrite !E. now destruct (n * _)%nat.
  - assert (L : List.length (k :: ks) <> 0%nat) by discriminate. rewrite rounds_split by discriminate.
    rewrite Nat.div_mul, Nat.mod_mul by exact L. cbn [firstn]. apply app_nil_r.
Qed.

(** transition_generic(kernels, N=n) with n >= 1: every kernel exactly n times, in rounds. *)
Theorem C42_passes : forall St clock (ks : list (kernel St)) n s fuel, (1 <= n)%nat -> (n < fuel)%nat ->
  transition_generic fuel clock ks (Some (nq n)) None s = run_all (List.concat (repeat ks n)) s.
Proof.
  intros St clock ks n s fuel Hn Hf. destruct ks as [|k ks].
  { cbn [transition_generic]. assert (E : forall m, List.concat (repeat (@nil (kernel St)) m) = []) by (induction m; auto). rewrite E. reflexivity. }
  assert (L : List.length (k :: ks) <> 0%nat) by discriminate. rewrite <- rounds_full.
  apply C42_schedule.
  - discriminate.
  - intros E0. assert (E : nq n = 0%Qc) by congruence. apply (f_equal qr) in E. rewrite qr_nq, qr_0 in E. assert (P := le_INR 1 n Hn). cbn in P. lra.
  - discriminate.
  - left. exists (nq n). split; [reflexivity|]. rewrite Nat.div_mul by exact L. apply nq_reached; auto.
  - intros i Hi [(m & E & R)|(z & E & _)]; [|discriminate]. cbn [limits] in E. assert (E' : m = nq n) by congruence. subst m. apply nq_reached in R; [|exact Hn].
    assert (X := Nat.div_lt_upper_bound i (List.length (k :: ks)) n L). rewrite Nat.mul_comm in X. specialize (X Hi). lia.
  - rewrite Nat.div_mul by exact L. exact Hf.
Qed.
Print Assumptions C42_passes.

(** Without N and S: one pass. *)
Theorem C42_default : forall St clock (ks : list (kernel St)) s fuel, (1 < fuel)%nat ->
  transition_generic fuel clock ks None None s = run_all ks s.
Proof.
  intros St clock ks s fuel Hf. transitivity (transition_generic fuel clock ks (Some (nq 1)) None s); [reflexivity|].
  rewrite C42_passes by (auto; lia). cbn [repeat List.concat]. now rewrite app_nil_r.
Qed.
Print Assumptions C42_default.

(** With a time budget b > 0, with or without a number of passes n > 0: if the budget is
    exhausted when kernel [j] would be started, that kernel and the following are not started;
    those that are were started before. *)
Theorem C42_budget : forall St clock (ks : list (kernel St)) N b s j fuel, ks <> [] -> (0 < b)%Qc -> (forall n, N = Some n -> (0 < n)%Qc) ->
  (b <= clock (Datatypes.S j) - clock O)%Qc -> (j / List.length ks < fuel)%nat ->
  exists j', (j' <= j)%nat /\ transition_generic fuel clock ks N (Some b) s = run_all (rounds ks j') s /\
    forall i, (i < j')%nat -> (clock (Datatypes.S i) - clock O < b)%Qc.
Proof.
  intros St clock ks N b s j fuel NE B HN BJ LF.
  assert (LM : limits N (Some b) = N) by (destruct N; reflexivity).
  assert (DEC : forall i, {finished clock ks N (Some b) i} + {~ finished clock ks N (Some b) i}).
  { assert (R : forall a c, {reached a c} + {~ reached a c}).
    { intros a c. unfold reached. assert (D : forall x y : Qc, {(x < y)%Qc} + {~ (x < y)%Qc}).
      { intros x y. destruct (Qclt_le_dec x y) as [l|l]; [left; exact l|right; apply Qcle_not_lt; exact l]. }
      assert (D' : forall x y : Qc, {(x <= y)%Qc} + {~ (x <= y)%Qc}).
      { intros x y. destruct (Qclt_le_dec y x) as [l|l]; [right; apply Qclt_not_le; exact l|left; exact l]. }
      destruct (D 0%Qc c), (D' c a), (D c 0%Qc), (D' a c); tauto. }
    intros i. unfold finished. destruct (R (clock (Datatypes.S i) - clock O)%Qc b) as [r|r]; [left; right; exists b; auto|].
    destruct N as [n|].
    - destruct (R (nq (i / List.length ks)) n) as [r'|r']; [left; left; exists n; auto|right].
      intros [(m & [= <-] & X)|(m & [= <-] & X)]; auto.
    - right. intros [(m & E & X)|(m & [= <-] & X)]; [discriminate|auto]. }
  assert (FIRST : forall k, finished clock ks N (Some b) k -> exists j', (j' <= k)%nat /\ finished clock ks N (Some b) j' /\
    forall i, (i < j')%nat -> ~ finished clock ks N (Some b) i).
  { induction k as [k IH] using (well_founded_induction lt_wf). intros Fk.
    assert (X : {i | (i < k)%nat /\ finished clock ks N (Some b) i} + {forall i, (i < k)%nat -> ~ finished clock ks N (Some b) i}).
    { clear - DEC. induction k as [|k IH]; [right; lia|]. destruct IH as [(i & Hi & F)|NF]; [left; exists i; split; [lia|exact F]|].
      destruct (DEC k) as [F|F]; [left; exists k; split; [lia|exact F]|]. right. intros i Hi. destruct (Nat.eq_dec i k) as [->|]; [exact F|apply NF; lia]. }
    destruct X as [(i & Hi & F)|NF]; [|exists k; auto].
    destruct (IH i Hi F) as (j' & A & B' & C). exists j'. split; [lia|auto]. }
  destruct (FIRST j) as (j' & Lj & Fj & NF).
  { right. exists b. split; [reflexivity|]. left. auto. }
  exists j'. split; [exact Lj|]. split.
  - apply C42_schedule; auto.
    + intros ->. specialize (HN _ eq_refl). apply (Qclt_not_eq _ _ HN). reflexivity.
    + intros [= ->]. apply (Qclt_not_eq _ _ B). reflexivity.
    + rewrite LM. exact Fj.
    + rewrite LM. exact NF.
    + apply Nat.le_lt_trans with (j / List.length ks)%nat; [apply Nat.div_le_mono; [destruct ks; [congruence|discriminate]|exact Lj]|exact LF].
  - intros i Hi. apply Qcnot_le_lt. intros X. apply (NF i Hi). right. exists b. split; [reflexivity|]. left. auto.
Qed.
Print Assumptions C42_budget.

(** N=0 (or S=0) raises before any kernel has run; without kernels nothing happens. *)
Theorem C42_zero : forall St clock (k : kernel St) ks N S s fuel, (N = Some 0%Qc \/ S = Some 0%Qc) -> (0 < fuel)%nat ->
  transition_generic fuel clock (k :: ks) N S s = Ret (s, Err ZeroDivisionError) /\
  transition_generic fuel clock [] N S s = Ret (s, Ok tt).
Proof.
  intros St clock k ks N S s fuel H Hf. split; [|reflexivity]. destruct fuel as [|fuel]; [lia|].
  assert (Z0 : forall a, qdiv a 0%Qc = Err ZeroDivisionError) by reflexivity.
  unfold transition_generic. cbn [run_passes run_pass]. unfold proportion_done.
  destruct H as [->| ->].
  - destruct S as [b|].
    + destruct (Qc_eq_dec b 0%Qc) as [->|Nb]; [rewrite Z0; reflexivity|].
      assert (X : forall a, qdiv a b = Ok (a / b)%Qc) by (intros a; unfold qdiv; destruct (Qc_eq_dec b 0%Qc); [contradiction|reflexivity]).
      rewrite X. reflexivity.
    + reflexivity.
  - destruct N; rewrite Z0; reflexivity.
Qed.
Print Assumptions C42_zero.

(** ** Worked cases *)

(** Kernels that write their names to a list; one that raises. *)
Definition note (z : Z) : kernel (list Z) := fun s => Ret (s ++ [z], Ok tt).
Definition fails : kernel (list Z) := fun s => Ret (s, Err ValueError).

Example C42_passes_case :
  transition_generic 3 (fun _ => 0%Qc) [note 1; note 2] (Some (nq 2)) None [] = Ret ([1; 2; 1; 2], Ok tt) /\
  transition_generic 3 (fun _ => 0%Qc) [note 1; fails; note 2] None None [] = Ret ([1], Err ValueError).
Proof. split; vm_compute; reflexivity. Qed.

(** A clock advancing by 1 at each reading and a budget of 4: three kernels are started. *)
Example C42_budget_case :
  transition_generic 9 nq [note 1; note 2; note 3] None (Some (nq 4)) [] = Ret ([1; 2; 3], Ok tt) /\
  finished nq [note 1; note 2; note 3] None (Some (nq 4)) 3 /\ ~ finished nq [note 1; note 2; note 3] None (Some (nq 4)) 2.
Proof.
  split; [vm_compute; reflexivity|]. split.
  - right. exists (nq 4). split; [reflexivity|]. left. split; reflexivity || discriminate.
  - intros [(n & E & _)|(n & E & [[_ X]|[X _]])]; [discriminate| |]; injection E as <-; [apply X; reflexivity|discriminate X].
Qed.

(** A clock that stands still: no end. *)
Example C42_endless_case : forall i, ~ finished (fun _ => 0%Qc) [note 1] None (Some 1%Qc) i.
Proof. intros i [(n & E & _)|(n & E & [[_ X]|[X _]])]; [discriminate| |]; injection E as <-; [apply X; reflexivity|discriminate X]. Qed.
