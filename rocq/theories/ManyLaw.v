(** Proof of C74: the mean of a sum over several samples. *)
From Coq Require Import List ZArith QArith Qcanon Reals Bool String Permutation Lia Lra FunctionalExtensionality.
From Verif Require Import Base Xr Samp Lgamma Prims Cgpm Lib SpecPrims PrimsInv PrimsDens PrimsThm PrimsThm2
  SpecComp CompInv CompDens CompThm SpecSim SimShape SimLaw SimTotal ChainLaw SpecMany.
Import ListNotations.
Local Open Scope Z_scope.

Definition on_ok {A} (f : A -> R) (r : out A) : R := match r with Ok a => f a | Err _ => 0%R end.

(** The sum over the samples of one answer that did not raise. *)
Definition tot (g : row -> R) (r : sres) : R := match r with SOne s => g s | SMany l => rsum (map g l) end.

Lemma total_on_ok : forall g, total g = on_ok (tot g).
Proof. intros g. apply functional_extensionality. intros [[s|l]|e]; reflexivity. Qed.

Lemma expect_eq : forall {A} (m : samp (out A)) (f g : out A -> R), (forall a, f (Ok a) = g (Ok a)) ->
  (forall e, f (Err e) = g (Err e)) -> expect m f = expect m g.
Proof. intros A m f g H1 H2. f_equal. apply functional_extensionality. intros [a|e]; auto. Qed.

(** A call that never raises and makes finitely many choices. *)
Definition calm {A} (m : samp (out A)) : Prop := finite_choices m /\ always m (fails (fun _ => False)).

Lemma expect_calm : forall {A} (m : samp (out A)) (P : A -> Prop) (f g : out A -> R), calm m -> always m (if_ok P) ->
  (forall a, P a -> f (Ok a) = g (Ok a)) -> expect m f = expect m g.
Proof.
  intros A m P f g [F H] HP E. apply (expect_always m (fun r => fails (fun _ => False) r /\ if_ok P r)); [exact F|apply always_and; assumption|].
  intros [a|e] [H1 H2]; [apply E; exact H2|destruct H1].
Qed.

Lemma calm_const : forall {A} (m : samp (out A)) c, calm m -> expect m (on_ok (fun _ => c)) = c.
Proof.
  intros A m c H. transitivity (expect m (fun _ => c)).
  - apply (expect_calm m (fun _ => True)); [exact H| |reflexivity].
    destruct H as [_ H]. revert H. apply always_imp. intros [a|e] _; exact I.
  - apply expect_const. apply H.
Qed.

Lemma calm_ok : forall {A} (m : samp (out A)), calm m -> always m (fun r => exists a, r = Ok a /\ True).
Proof. intros A m [_ H]. revert H. apply always_imp. intros [a|e] H; [eauto|destruct H]. Qed.

Lemma calm_soseq : forall {A} (l : list (samp (out A))), (forall m, In m l -> calm m) -> calm (soseq l).
Proof.
  intros A l H. split; [apply choices_soseq; intros m Hm; apply H; exact Hm|apply fails_soseq; intros m Hm; apply H; exact Hm].
Qed.

Lemma calm_srepeat : forall {A} (m : samp (out A)) n, calm m -> calm (srepeat n m).
Proof. intros A m n [F H]. split; [apply choices_srepeat; exact F|apply fails_srepeat; exact H]. Qed.

(** One of several calls. *)
Lemma soseq_pick : forall {A B} (M : A -> samp (out B)) (f : B -> R) (d : B) cs j c,
  nth_error cs j = Some c -> (forall c, In c cs -> calm (M c)) ->
  expect (soseq (map M cs)) (on_ok (fun l => f (nth j l d))) = expect (M c) (on_ok f).
Proof.
  intros A B M f d. induction cs as [|c0 cs IH]; intros j c E H; [destruct j; discriminate|].
  cbn [map soseq]. rewrite expect_sobind. destruct j as [|j]; cbn in E.
  - injection E as ->. apply expect_eq; [intros b; cbn [on_ok]|reflexivity].
    rewrite expect_sobind. cbn [expect on_ok nth].
    transitivity (expect (soseq (map M cs)) (on_ok (fun _ => f b))).
    + apply expect_eq; reflexivity.
    + apply calm_const. apply calm_soseq. intros m Hm. apply in_map_iff in Hm. destruct Hm as (c' & <- & Hc'). apply H. now right.
  - assert (X : forall b, expect (sobind (soseq (map M cs)) (fun r => Ret (Ok (b :: r)))) (on_ok (fun l => f (nth (Datatypes.S j) l d)))
                 = expect (M c) (on_ok f)).
    { intros b. rewrite expect_sobind. rewrite <- (IH j c E); [|intros; apply H; now right].
      apply expect_eq; reflexivity. }
    rewrite <- (calm_const (M c0) (expect (M c) (on_ok f)) (H c0 (or_introl eq_refl))).
    apply expect_eq; [intros b; cbn [on_ok]|reflexivity]. apply X.
Qed.

(** A sum over several calls. *)
Lemma soseq_sum : forall {A B} (M : A -> samp (out B)) (f : B -> R) cs, (forall c, In c cs -> calm (M c)) ->
  expect (soseq (map M cs)) (on_ok (fun l => rsum (map f l))) = rsum (map (fun c => expect (M c) (on_ok f)) cs).
Proof.
  intros A B M f. induction cs as [|c0 cs IH]; intros H; [reflexivity|]. cbn [map soseq].
  change (rsum (?x :: ?l)) with (x + rsum l)%R. rewrite <- IH by (intros; apply H; now right).
  assert (C0 : calm (M c0)) by (apply H; now left).
  assert (CS : calm (soseq (map M cs))).
  { apply calm_soseq. intros m Hm. apply in_map_iff in Hm. destruct Hm as (c' & <- & Hc'). apply H. now right. }
  rewrite expect_sobind.
  transitivity (expect (M c0) (fun r => on_ok f r + on_ok (fun _ => expect (soseq (map M cs)) (on_ok (fun l => rsum (map f l)))) r)%R).
  - apply expect_eq; [intros b; cbn [on_ok]|intros; cbn; lra]. rewrite expect_sobind.
    transitivity (expect (soseq (map M cs)) (fun r => on_ok (fun _ => f b) r + on_ok (fun l => rsum (map f l)) r)%R).
    + apply expect_eq; [reflexivity|intros; cbn; lra].
    + rewrite expect_plus, calm_const by exact CS. reflexivity.
  - rewrite expect_plus, calm_const by exact C0. reflexivity.
Qed.

(** One of several runs of the same call. *)
Lemma srepeat_pick : forall {A} (m : samp (out A)) (f : A -> R) d n i, calm m -> (i < n)%nat ->
  expect (srepeat n m) (on_ok (fun l => f (nth i l d))) = expect m (on_ok f).
Proof.
  intros A m f d n i H. revert i. induction n as [|n IH]; intros i Hi; [lia|]. cbn [srepeat]. rewrite expect_sobind.
  assert (CN := calm_srepeat m n H). destruct i as [|i].
  - apply expect_eq; [intros b; cbn [on_ok]|reflexivity]. rewrite expect_sobind.
    rewrite <- (calm_const (srepeat n m) (f b) CN). apply expect_eq; reflexivity.
  - rewrite <- (calm_const m (expect m (on_ok f)) H). apply expect_eq; [intros b; cbn [on_ok]|reflexivity]. rewrite expect_sobind.
    rewrite <- (IH i) by lia. apply expect_eq; reflexivity.
Qed.

(** The [i]-th run of each of several calls. *)
Lemma soseq_runs : forall {A B} (M : A -> samp (out B)) (d : B) n i, (i < n)%nat ->
  forall cs, (forall c, In c cs -> calm (M c)) -> forall F : list B -> R,
  expect (soseq (map (fun c => srepeat n (M c)) cs)) (on_ok (fun ls => F (map (fun l => nth i l d) ls))) =
  expect (soseq (map M cs)) (on_ok F).
Proof.
  intros A B M d n i Hi. induction cs as [|c cs IH]; intros H F; [reflexivity|]. cbn [map soseq]. rewrite !expect_sobind.
  assert (X : forall b, expect (sobind (soseq (map (fun c => srepeat n (M c)) cs)) (fun r => Ret (Ok (b :: r))))
                 (on_ok (fun ls => F (map (fun l => nth i l d) ls))) =
               expect (sobind (soseq (map M cs)) (fun r => Ret (Ok (nth i b d :: r)))) (on_ok F)).
  { intros b. rewrite !expect_sobind.
    transitivity (expect (soseq (map (fun c => srepeat n (M c)) cs)) (on_ok (fun ls => F (nth i b d :: map (fun l => nth i l d) ls)))).
    { apply expect_eq; reflexivity. }
    rewrite (IH (fun c' Hc' => H c' (or_intror Hc')) (fun l => F (nth i b d :: l))).
    apply expect_eq; reflexivity. }
  assert (Y := srepeat_pick (M c) (fun a => expect (sobind (soseq (map M cs)) (fun r => Ret (Ok (a :: r)))) (on_ok F)) d n i (H c (or_introl eq_refl)) Hi).
  etransitivity; [etransitivity; [|exact Y]|]; apply expect_eq; try reflexivity.
  intros b. cbn [on_ok]. apply X.
Qed.

Lemma zip_nth : forall n (ls : list (list row)), (forall l, In l ls -> List.length l = n) ->
  zip_rows n ls = map (fun i => map (fun l => nth i l []) ls) (seq 0 n).
Proof.
  induction n as [|n IH]; intros ls H; cbn [zip_rows]; [reflexivity|].
  replace (existsb _ ls) with false.
  2:{ symmetry. apply not_true_is_false. intros E. apply existsb_exists in E. destruct E as (l & Hl & E).
      specialize (H l Hl). destruct l; [discriminate H|discriminate E]. }
  cbn [seq map]. f_equal.
  - apply map_ext_in. intros l Hl. destruct l; reflexivity.
  - rewrite IH.
    2:{ intros l Hl. apply in_map_iff in Hl. destruct Hl as (l' & <- & Hl'). specialize (H l' Hl').
        destruct l'; [discriminate|]. cbn in *. congruence. }
    rewrite <- seq_shift, map_map. apply map_ext_in. intros i _. rewrite map_map. apply map_ext_in. intros l Hl.
    specialize (H l Hl). destruct l; [discriminate|]. reflexivity.
Qed.
