(** Ensembles: proofs about the law of calls on every chain. *)
From Coq Require Import List ZArith QArith Qcanon Reals Bool String Permutation Lia Lra FunctionalExtensionality.
From Verif Require Import Base Xr Samp Lgamma Prims Cgpm Lib SpecPrims PrimsInv SpecComp CompInv SimLaw ChainLaw
  SpecTable SpecHist Hist Views Ensemble SpecEnsemble EnsembleThm2.
Import ListNotations.
Local Open Scope R_scope.

Lemma expect_same : forall {A} (m : samp A) (f g : A -> R), (forall a, f a = g a) -> expect m f = expect m g.
Proof.
  intros A m f g H. induction m as [a|ws k IH|l k IH|n p k IH|lo hi k IH|n k IH]; cbn; auto.
  f_equal. apply map_ext. intros i. now rewrite IH.
Qed.

Lemma expect_none : forall {A} (m : samp A), expect m (fun _ => 0) = 0.
Proof.
  intros A m. rewrite (expect_same m (fun _ => 0) (fun _ => 0 * 0)) by (intros; ring). rewrite expect_scale. ring.
Qed.

Lemma expect_sum : forall {A I} (m : samp A) (c : I -> R) (h : I -> A -> R) (l : list I),
  rsum (map (fun i => c i * expect m (h i)) l) = expect m (fun a => rsum (map (fun i => c i * h i a) l)).
Proof.
  intros A I m c h l. induction l as [|i l IH]; cbn [map].
  - symmetry. apply expect_none.
  - change (rsum (c i * expect m (h i) :: map (fun i => c i * expect m (h i)) l)) with (c i * expect m (h i) + rsum (map (fun i => c i * expect m (h i)) l)).
    rewrite IH, <- expect_scale, <- expect_plus. reflexivity.
Qed.

Lemma expect_swap : forall {A B} (m : samp A) (n : samp B) (G : A -> B -> R),
  expect m (fun a => expect n (fun b => G a b)) = expect n (fun b => expect m (fun a => G a b)).
Proof.
  intros A B m n G. induction m as [a|ws k IH|l k IH|x p k IH|lo hi k IH|x k IH]; cbn [expect]; try (symmetry; apply expect_none); [reflexivity|].
  rewrite <- (expect_sum n (fun i => nth i ws 0 / rsum ws) (fun i b => expect (k i) (fun a => G a b))).
  f_equal. apply map_ext. intros i. now rewrite IH.
Qed.

(** ** What calls leave, and what they answer *)

(** Expectation of a function of what a call leaves. *)
Definition hit {A B} (m : samp (A * out B)) (g : A -> R) : R := expect m (left_by g).

(** Expectation of a function of what a call answers. *)
Definition ans {A B} (m : samp (A * out B)) (g : B -> R) : R := expect m (fun r => success g (snd r)).

Lemma hit_same : forall {A B} (m : samp (A * out B)) f g, (forall a, f a = g a) -> hit m f = hit m g.
Proof. intros. apply expect_same. intros [a [b|x]]; cbn; auto. Qed.

Lemma ans_same : forall {A B} (m : samp (A * out B)) f g, (forall a, f a = g a) -> ans m f = ans m g.
Proof. intros. apply expect_same. intros [a [b|x]]; cbn; auto. Qed.

Lemma hit_swap : forall {A B C D} (m : samp (A * out B)) (n : samp (C * out D)) (G : A -> C -> R),
  hit m (fun a => hit n (fun c => G a c)) = hit n (fun c => hit m (fun a => G a c)).
Proof.
  intros A B C D m n G. unfold hit.
  transitivity (expect m (fun r => expect n (fun s => left_by (fun a => left_by (fun c => G a c) s) r))).
  - apply expect_same. intros [a [b|x]]; cbn; [reflexivity|]. symmetry. apply expect_none.
  - rewrite expect_swap. apply expect_same. intros [c [d|x]]; cbn.
    + reflexivity.
    + etransitivity; [|apply (expect_none m)]. apply expect_same. intros [a [b|y]]; reflexivity.
Qed.

(** The jobs, nested. *)
Fixpoint nest {A} (jobs : list (job A)) (g : list A -> R) : R :=
  match jobs with
  | [] => g []
  | (f, c) :: jobs' => ans (f c) (fun a => nest jobs' (fun l => g (a :: l)))
  end.

Lemma nest_same : forall {A} (jobs : list (job A)) f g, (forall l, f l = g l) -> nest jobs f = nest jobs g.
Proof. intros A jobs. induction jobs as [|[f c] jobs IH]; intros h g H; cbn; auto. apply ans_same. intros a. apply IH. auto. Qed.

Lemma mapper_nest : forall {A} mp (jobs : list (job A)) g, ans (mapper mp jobs) g = nest jobs g.
Proof.
  intros A mp jobs. unfold mapper. destruct mp; cbn [negb].
  - intros g. unfold ans. rewrite expect_bind. cbn [expect fst snd]. revert g.
    induction jobs as [|[f c] jobs IH]; intros g; cbn [run_jobs nest]; [reflexivity|].
    rewrite expect_bind. unfold ans. apply expect_same. intros [c' [a|x]]; rewrite expect_bind; cbn [expect fst snd success oseq].
    + rewrite <- IH. apply expect_same. intros l. destruct (oseq l); reflexivity.
    + apply expect_none.
  - intros g. revert g. induction jobs as [|[f c] jobs IH]; intros g; cbn [map_jobs nest]; [reflexivity|].
    unfold ans. rewrite expect_bind. apply expect_same. intros [c' [a|x]]; cbn [fst snd success expect].
    + rewrite expect_bind. rewrite <- IH. unfold ans. apply expect_same. intros [cs [l|x]]; reflexivity.
    + reflexivity.
Qed.

Lemma nest_product : forall {A} (jobs : list (job A)) (gs : list (A -> R)), List.length gs = List.length jobs ->
  nest jobs (product_of gs) = rprod (map (fun p => ans (fst (snd p) (snd (snd p))) (fst p)) (combine gs jobs)).
Proof.
  intros A jobs. induction jobs as [|[f c] jobs IH]; intros [|g gs] L; try discriminate; cbn [nest combine map].
  - reflexivity.
  - cbn [fst snd].
    match goal with |- _ = rprod (?x :: ?l) => change (rprod (x :: l)) with (x * rprod l) end.
    rewrite <- (IH gs) by (cbn in L; congruence).
    rewrite (Rmult_comm (ans (f c) g)). unfold ans at 2. rewrite <- expect_scale. apply expect_same. intros [c' [a|x]]; cbn [snd success]; [|ring].
    assert (E : forall l, product_of (g :: gs) (a :: l) = g a * product_of gs l) by reflexivity.
    rewrite (nest_same _ _ (fun l => g a * product_of gs l)) by exact E.
    generalize (product_of gs). intros h. rewrite (Rmult_comm (nest jobs h)). clear. revert h.
    induction jobs as [|[f' c''] jobs IH]; intros h; cbn [nest]; [reflexivity|].
    unfold ans. rewrite <- expect_scale. apply expect_same. intros [x [b|y]]; cbn [snd success]; [apply IH|ring].
Qed.

Lemma ens_modify_nest : forall e mp f (G : ensemble -> R), whole e ->
  hit (ens_modify e mp f) G = nest (map (fun c => (f, c)) (cgpms e)) (fun cs => G (with_cgpms e cs)).
Proof.
  intros e mp f G W. unfold ens_modify. rewrite jobs_whole by exact W. rewrite jobs_const. unfold hit. rewrite expect_bind.
  rewrite <- (mapper_nest mp). unfold ans. apply expect_same. intros [cs [l|x]]; reflexivity.
Qed.

Lemma ens_evaluate_nest : forall {A} e mp (f : nat -> cgpm -> samp (cgpm * out A)) g, whole e ->
  ans (ens_evaluate e mp f) g = nest (jobs_from 0 f (cgpms e)) g.
Proof.
  intros A e mp f g W. unfold ens_evaluate. rewrite jobs_whole by exact W. unfold ans. rewrite expect_bind.
  rewrite <- (mapper_nest mp). unfold ans. apply expect_same. intros [cs [l|x]]; reflexivity.
Qed.

(** ** Bulk calls *)

Section bulk.
Context {A : Type}.
Variable method : list arg -> cgpm -> samp (cgpm * out A).

Lemma modify_ans : forall a c g, ans (modify method a c) g = hit (method a c) g.
Proof. intros a c g. unfold ans, modify, hit. rewrite expect_bind. apply expect_same. intros [c' [x|y]]; reflexivity. Qed.

Lemma call_all_cons : forall a L c g, hit (call_all method (a :: L) c) g = hit (method a c) (fun c1 => hit (call_all method L c1) g).
Proof.
  intros a L c g. unfold hit. cbn [call_all]. rewrite expect_bind. apply expect_same. intros [c1 [x|y]]; cbn [fst snd left_by expect]; [|reflexivity].
  unfold left_by at 2. cbn [fst snd]. rewrite expect_bind. apply expect_same. intros [c2 [l|y]]; reflexivity.
Qed.

Lemma bulk_ans : forall args L c g, make_args_list args = Ok L -> ans (modify_bulk method args c) g = hit (call_all method L c) g.
Proof. intros args L c g E. unfold ans, modify_bulk, hit. rewrite E. rewrite expect_bind. apply expect_same. intros [c' [x|y]]; reflexivity. Qed.

(** All chains, one after the other, by a way to count what is left of a chain. *)
Fixpoint over (st : cgpm -> (cgpm -> R) -> R) (cs : list cgpm) (G : list cgpm -> R) : R :=
  match cs with
  | [] => G []
  | c :: cs' => st c (fun c' => over st cs' (fun l => G (c' :: l)))
  end.

Lemma nest_over : forall f (st : cgpm -> (cgpm -> R) -> R) cs G, (forall c g, ans (f c) g = st c g) ->
  nest (map (fun c => (f, c)) cs) G = over st cs G.
Proof.
  intros f st cs G H. revert G. induction cs as [|c cs IH]; intros G; cbn; [reflexivity|]. rewrite H.
  assert (E : (fun a => nest (map (fun c0 => (f, c0)) cs) (fun l => G (a :: l))) = (fun c' => over st cs (fun l => G (c' :: l)))).
  { apply functional_extensionality. intros a. apply IH. }
  now rewrite E.
Qed.

Lemma over_same : forall (st : cgpm -> (cgpm -> R) -> R) cs F G, (forall l, F l = G l) -> over st cs F = over st cs G.
Proof. intros st cs F G H. f_equal. apply functional_extensionality. exact H. Qed.

Lemma over_swap : forall {B C} (m : samp (B * out C)) a cs (G : list cgpm -> B -> R),
  over (fun c => hit (method a c)) cs (fun l => hit m (fun b => G l b)) = hit m (fun b => over (fun c => hit (method a c)) cs (fun l => G l b)).
Proof.
  intros B C m a cs. induction cs as [|c cs IH]; intros G; cbn [over]; [reflexivity|].
  rewrite <- hit_swap. apply hit_same. intros c'. apply (IH (fun l b => G (c' :: l) b)).
Qed.

Lemma over_split : forall a L cs G, over (fun c => hit (call_all method (a :: L) c)) cs G =
  over (fun c => hit (method a c)) cs (fun cs1 => over (fun c => hit (call_all method L c)) cs1 G).
Proof.
  intros a L cs. induction cs as [|c cs IH]; intros G; cbn [over]; [reflexivity|].
  rewrite call_all_cons. apply hit_same. intros c1.
  rewrite (hit_same _ _ (fun c' => over (fun c0 => hit (method a c0)) cs (fun cs1 => over (fun c0 => hit (call_all method L c0)) cs1 (fun l => G (c' :: l))))) by (intros; apply IH).
  rewrite <- over_swap. reflexivity.
Qed.

Lemma over_len : forall a cs F G, (forall l, List.length l = List.length cs -> F l = G l) ->
  over (fun c => hit (method a c)) cs F = over (fun c => hit (method a c)) cs G.
Proof.
  intros a cs. induction cs as [|c cs IH]; intros F G H; cbn; [apply H; reflexivity|]. apply hit_same. intros c'. apply IH.
  intros l E. apply H. cbn. congruence.
Qed.

Lemma over_id : forall cs (G : list cgpm -> R), over (fun c g => g c) cs G = G cs.
Proof. induction cs as [|c cs IH]; intros G; cbn; [reflexivity|]. apply (IH (fun l => G (c :: l))). Qed.

Lemma bulk_law : forall args L e mp mp' (G : ensemble -> R), whole e -> make_args_list args = Ok L ->
  hit (ens_modify e mp (modify_bulk method args)) G =
  hit (ens_calls (map (fun a d => ens_modify d mp' (modify method a)) L) e) G.
Proof.
  intros args L e mp mp' G W E. rewrite ens_modify_nest by exact W.
  rewrite (nest_over _ (fun c => hit (call_all method L c))) by (intros; now apply bulk_ans).
  clear E args. revert e W. induction L as [|a L IH]; intros e W; cbn [map ens_calls].
  - unfold hit at 2. cbn [expect left_by fst snd].
    transitivity (over (fun c g => g c) (cgpms e) (fun cs => G (with_cgpms e cs))).
    + reflexivity.
    + transitivity (G (with_cgpms e (cgpms e))); [|now rewrite with_same].
      apply (over_id (cgpms e) (fun cs => G (with_cgpms e cs))).
  - rewrite over_split.
    transitivity (hit (ens_modify e mp' (modify method a)) (fun e1 => hit (ens_calls (map (fun a d => ens_modify d mp' (modify method a)) L) e1) G)).
    + rewrite ens_modify_nest by exact W. rewrite (nest_over _ (fun c => hit (method a c))) by (intros; apply modify_ans).
      apply over_len. intros l EL. rewrite <- (IH (with_cgpms e l)) by (unfold whole in *; cbn; congruence). reflexivity.
    + unfold hit. rewrite expect_bind. apply expect_same. intros [e1 [[]|x]]; reflexivity.
Qed.
End bulk.
