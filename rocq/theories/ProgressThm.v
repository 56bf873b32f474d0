(** Proofs about the scheduling of kernels. *)
From Coq Require Import List ZArith QArith Qcanon Reals Bool String Lia Lra FunctionalExtensionality.
From Verif Require Import Base Xr Samp Lgamma Prims Lib Hypers Progress SpecProgress HypersThm2.
Import ListNotations.
Local Open Scope Z_scope.

Lemma sbind_assoc' : forall {A B C} (m : samp A) (f : A -> samp B) (g : B -> samp C), sbind (sbind m f) g = sbind m (fun a => sbind (f a) g).
Proof. intros A B C m f g. induction m; cbn [sbind]; try reflexivity; f_equal; extensionality i; auto. Qed.

Lemma run_all_app : forall {St} (a b : list (kernel St)) s, run_all (a ++ b) s =
  let! r := run_all a s in match snd r with Err e => Ret (fst r, Err e) | Ok _ => run_all b (fst r) end.
Proof.
  intros St a b. induction a as [|k a IH]; intros s; [reflexivity|]. cbn [app run_all]. rewrite sbind_assoc'. f_equal. extensionality r.
  destruct (snd r); [apply IH|reflexivity].
Qed.

Lemma reached_div : forall a b, b <> 0%Qc -> (reached a b <-> (1 <= qr (a / b)%Qc)%R).
Proof.
  intros a b N. rewrite qr_div by exact N. unfold reached. rewrite !qr_lt, !qr_le, qr_0.
  assert (NB : qr b <> 0%R) by (intros E; apply N; apply qr_inj; rewrite E, qr_0; reflexivity).
  assert (X : qr a = (qr a / qr b * qr b)%R) by (field; exact NB). set (q := (qr a / qr b)%R) in *. rewrite X. split.
  - intros [[P L]|[P L]]; nra.
  - intros L. destruct (Rtotal_order (qr b) 0) as [P|[P|P]]; [right|congruence|left]; split; nra.
Qed.

Definition hit (N S : option Qc) (iters : nat) (el : Qc) : Prop :=
  (exists n, N = Some n /\ reached (nq iters) n) \/ (exists s, S = Some s /\ reached el s).

Lemma check_spec : forall N S iters el, limit_ok N -> limit_ok S -> exists p, proportion_done N S iters el = Ok p /\
  (qltb p 1%Qc = false <-> hit N S iters el).
Proof.
  intros N S iters el LN LS. unfold proportion_done, hit.
  assert (Q : forall a (x : option Qc), limit_ok x -> exists p, match x with None => Ok 0%Qc | Some b => qdiv a b end = Ok p /\
    ((1 <= qr p)%R <-> exists b, x = Some b /\ reached a b)).
  { intros a [b|] L.
    - unfold qdiv. destruct (Qc_eq_dec b 0%Qc) as [E|E]; [subst b; exfalso; apply L; reflexivity|]. exists (a / b)%Qc. split; [reflexivity|].
      rewrite <- reached_div by exact E. split; [intros H; exists b; auto|intros (b' & [= ->] & H); exact H].
    - exists 0%Qc. split; [reflexivity|]. rewrite qr_0. split; [lra|intros (b & E & _); discriminate]. }
  destruct (Q el S LS) as (ps & -> & HS). destruct (Q (nq iters) N LN) as (pn & -> & HN). cbn [obind].
  exists (if qltb pn ps then ps else pn). split; [reflexivity|]. rewrite <- HS, <- HN, qltb_false, qr_1.
  destruct (qltb pn ps) eqn:E; [apply qltb_true in E|apply qltb_false in E]; split; (intros; try tauto; lra || (right; lra) || (left; lra)).
Qed.

Lemma pass_all : forall {St} clock N S iters, limit_ok N -> limit_ok S -> forall (ks : list (kernel St)) t s,
  (forall i, (i < List.length ks)%nat -> ~ hit N S iters (clock (t + i)%nat - clock O)%Qc) ->
  run_pass clock N S iters t ks s = let! r := run_all ks s in Ret (fst r, omap (fun _ => false) (snd r)).
Proof.
  intros St clock N S iters LN LS. induction ks as [|k ks IH]; intros t s H; [reflexivity|]. cbn [run_pass].
  destruct (check_spec N S iters (clock t - clock O)%Qc LN LS) as (p & -> & HP).
  destruct (qltb p 1%Qc) eqn:E; cycle 1.
  { exfalso. apply (H 0%nat); [cbn; lia|]. rewrite Nat.add_0_r. apply HP. reflexivity. }
  cbn [run_all]. rewrite sbind_assoc'. f_equal. extensionality r. destruct (snd r) as [u|e]; [|reflexivity].
  apply IH. intros i Hi. replace (Datatypes.S t + i)%nat with (t + Datatypes.S i)%nat by lia. apply H. cbn [List.length]. lia.
Qed.

Lemma pass_stop : forall {St} clock N S iters, limit_ok N -> limit_ok S -> forall (ks : list (kernel St)) j t s,
  (j < List.length ks)%nat -> hit N S iters (clock (t + j)%nat - clock O)%Qc ->
  (forall i, (i < j)%nat -> ~ hit N S iters (clock (t + i)%nat - clock O)%Qc) ->
  run_pass clock N S iters t ks s = let! r := run_all (firstn j ks) s in Ret (fst r, omap (fun _ => true) (snd r)).
Proof.
  intros St clock N S iters LN LS. induction ks as [|k ks IH]; intros j t s L Hj H; [cbn in L; lia|]. cbn [run_pass].
  destruct (check_spec N S iters (clock t - clock O)%Qc LN LS) as (p & -> & HP). destruct j as [|j].
  - rewrite Nat.add_0_r in Hj. apply HP in Hj. rewrite Hj. reflexivity.
  - destruct (qltb p 1%Qc) eqn:E; cycle 1.
    { exfalso. apply (H 0%nat); [lia|]. rewrite Nat.add_0_r. apply HP. reflexivity. }
    cbn [firstn run_all]. rewrite sbind_assoc'. f_equal. extensionality r. destruct (snd r) as [u|e]; [|reflexivity].
    apply IH; [cbn [List.length] in L; lia|replace (Datatypes.S t + j)%nat with (t + Datatypes.S j)%nat by lia; exact Hj|].
    intros i Hi. replace (Datatypes.S t + i)%nat with (t + Datatypes.S i)%nat by lia. apply H. lia.
Qed.

Lemma passes_stop : forall {St} clock N S (ks : list (kernel St)), limit_ok N -> limit_ok S -> forall q j iters t s fuel,
  (j < List.length ks)%nat -> (q < fuel)%nat -> hit N S (iters + q) (clock (t + q * List.length ks + j)%nat - clock O)%Qc ->
  (forall q' i, (i < List.length ks)%nat -> (q' < q)%nat \/ (q' = q /\ (i < j)%nat) ->
     ~ hit N S (iters + q') (clock (t + q' * List.length ks + i)%nat - clock O)%Qc) ->
  run_passes fuel clock N S iters t ks s = run_all (List.concat (repeat ks q) ++ firstn j ks) s.
Proof.
  intros St clock N S ks LN LS. induction q as [|q IH]; intros j iters t s fuel Lj Lf Hj H; (destruct fuel as [|fuel]; [lia|]); cbn [run_passes].
  - rewrite (pass_stop clock N S iters LN LS ks j t s Lj).
    + rewrite sbind_assoc'. cbn [sbind fst snd repeat List.concat app]. transitivity (sbind (run_all (firstn j ks) s) (fun a => Ret a)).
      * f_equal. extensionality r. destruct r as [s' [[]|e]]; reflexivity.
      * clear. induction (run_all (firstn j ks) s); cbn [sbind]; try reflexivity; f_equal; extensionality i; auto.
    + rewrite Nat.add_0_r in Hj. cbn [Nat.mul] in Hj. rewrite Nat.add_0_r in Hj. exact Hj.
    + intros i Hi. assert (X := H 0%nat i). rewrite Nat.add_0_r in X. cbn [Nat.mul] in X. rewrite Nat.add_0_r in X. apply X; lia.
  - rewrite (pass_all clock N S iters LN LS ks t s).
    + rewrite sbind_assoc'. cbn [sbind fst snd repeat List.concat]. rewrite <- app_assoc, run_all_app. f_equal. extensionality r.
      destruct (snd r) as [u|e]; cbn [omap obind]; [|reflexivity]. apply IH; [exact Lj|lia| |].
      * replace (Datatypes.S iters + q)%nat with (iters + Datatypes.S q)%nat by lia.
        replace (t + List.length ks + q * List.length ks + j)%nat with (t + Datatypes.S q * List.length ks + j)%nat by lia. exact Hj.
      * intros q' i Hi Hq. replace (Datatypes.S iters + q')%nat with (iters + Datatypes.S q')%nat by lia.
        replace (t + List.length ks + q' * List.length ks + i)%nat with (t + Datatypes.S q' * List.length ks + i)%nat by lia. apply H; [exact Hi|lia].
    + intros i Hi. assert (X := H 0%nat i). rewrite Nat.add_0_r in X. cbn [Nat.mul] in X. rewrite Nat.add_0_r in X. apply X; lia.
Qed.

Lemma passes_endless : forall {St} clock N S (ks : list (kernel St)), limit_ok N -> limit_ok S -> forall fuel iters t s,
  (forall q i, (i < List.length ks)%nat -> ~ hit N S (iters + q) (clock (t + q * List.length ks + i)%nat - clock O)%Qc) ->
  run_passes fuel clock N S iters t ks s = let! r := run_all (List.concat (repeat ks fuel)) s in
    Ret (fst r, match snd r with Ok _ => Err OutOfFuel | Err e => Err e end).
Proof.
  intros St clock N S ks LN LS. induction fuel as [|fuel IH]; intros iters t s H; [reflexivity|]. cbn [run_passes].
  rewrite (pass_all clock N S iters LN LS ks t s).
  - cbn [repeat List.concat]. rewrite run_all_app, !sbind_assoc'. cbn [sbind fst snd]. f_equal. extensionality r.
    destruct (snd r) as [u|e]; cbn [omap obind]; [|reflexivity]. apply IH. intros q i Hi.
    replace (Datatypes.S iters + q)%nat with (iters + Datatypes.S q)%nat by lia.
    replace (t + List.length ks + q * List.length ks + i)%nat with (t + Datatypes.S q * List.length ks + i)%nat by lia. apply H. exact Hi.
  - intros i Hi. assert (X := H 0%nat i Hi). rewrite Nat.add_0_r in X. cbn [Nat.mul] in X. rewrite Nat.add_0_r in X. exact X.
Qed.

Lemma rounds_split : forall {St} (ks : list (kernel St)) j, ks <> [] ->
  rounds ks j = List.concat (repeat ks (j / List.length ks)) ++ firstn (j mod List.length ks) ks.
Proof.
  intros St ks j NE. assert (L : List.length ks <> 0%nat) by (destruct ks; [congruence|discriminate]).
  assert (DM := Nat.div_mod j (List.length ks) L). assert (MB := Nat.mod_upper_bound j (List.length ks) L).
  set (q := (j / List.length ks)%nat) in *. set (m := (j mod List.length ks)%nat) in *.
  assert (LC : forall q, List.length (List.concat (repeat ks q)) = (q * List.length ks)%nat).
  { clear. induction q as [|q IH]; [reflexivity|]. cbn [repeat List.concat]. rewrite app_length, IH. lia. }
  unfold rounds. assert (X : exists e, j = (q + e)%nat /\ (m = 0 \/ 1 <= e)%nat) by (exists (j - q)%nat; split; nia). destruct X as (e & E & HE).
  rewrite E at 2. rewrite repeat_app, concat_app, firstn_app, LC. rewrite firstn_all2 by (rewrite LC; lia). f_equal.
  replace (j - q * List.length ks)%nat with m by lia. destruct e as [|e].
  - destruct HE as [->|HE]; [|lia]. destruct ks; reflexivity.
  - cbn [repeat List.concat]. rewrite firstn_app. replace (m - List.length ks)%nat with 0%nat by lia. cbn [firstn]. apply app_nil_r.
Qed.
