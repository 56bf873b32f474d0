(** Proof of C74, continued: states, counts and exact means. *)
From Coq Require Import List ZArith QArith Qcanon Reals Bool String Permutation Lia Lra FunctionalExtensionality.
From Verif Require Import Base Xr Samp Lgamma Prims Cgpm Lib SpecPrims PrimsInv PrimsDens PrimsThm PrimsThm2
  SpecComp CompInv CompDens CompThm SpecSim SimShape SimLaw SimTotal ChainLaw SpecMany ManyLaw ManyLaw2 ManyLaw3.
Import ListNotations.
Local Open Scope Z_scope.

Lemma ready_child : forall cs rid ts C c, wf (CProd cs) -> ready (CProd cs) rid ts C -> In c cs -> ready c rid ts C.
Proof.
  intros cs rid ts C c W (U & LB & NC & NT & X & SD & P & DI) Hc. inversion W as [|cs' Wc ND| |]; subst.
  cbn [unknown labelled solid discrete] in U, LB, SD, DI. rewrite each_In in U, LB, SD, DI.
  split; [apply U; exact Hc|]. split; [apply LB; exact Hc|]. split; [exact NC|]. split; [exact NT|]. split; [exact X|].
  split; [apply SD; exact Hc|]. split; [|apply DI; exact Hc].
  cbn [dens] in P. apply (rprod_pos (map (fun c' => dens c' C) cs)); auto.
  - intros r Hr. apply in_map_iff in Hr. destruct Hr as (c' & <- & Hc'). apply dens_nonneg. auto.
  - apply in_map_iff. exists c. split; [reflexivity|exact Hc].
Qed.

(** The samples of a Product, seen through the columns of one child, are the samples of
    that child. *)
Lemma prod_pick : forall cs rid ts C n v g, wf (CProd cs) -> ready (CProd cs) rid ts C -> n <> 0%nat -> In v cs ->
  (forall k, In k ts -> In k (flat_map outputs cs)) -> reads (outputs v) g ->
  expect (simulate (CProd cs) rid ts C [] (Some n)) (total g) = expect (ask v rid ts C n) (total g).
Proof.
  intros cs rid ts C n v g W Q Hn Hv ST RD. inversion W as [|cs' Wc ND| |]; subst cs'.
  pose proof Q as (U & _ & _ & NT & _). cbn [unknown] in U. rewrite each_In in U.
  assert (CA : forall c, In c cs -> calm (ask c rid ts C n)).
  { intros c Hc. apply calm_ask; auto. eapply ready_child; eauto. }
  destruct (In_nth_error _ _ Hv) as (j & Ej).
  cbn [simulate]. unfold prod_simulate. rewrite map_map, expect_sobind. cbn [expect].
  assert (EA : map (fun c => simulate_one (outputs c) (inputs c) (simulate c) rid ts C [] (Some n)) cs = map (fun c => ask c rid ts C n) cs).
  { apply map_ext_in. intros c Hc. unfold ask. rewrite (wf_inputs c (Wc c Hc)). reflexivity. }
  rewrite EA. rewrite total_on_ok.
  rewrite <- (soseq_pick (fun c => ask c rid ts C n) (tot g) (SMany []) cs j v Ej CA).
  assert (CS : calm (soseq (map (fun c => ask c rid ts C n) cs))).
  { apply calm_soseq. intros q Hq. apply in_map_iff in Hq. destruct Hq as (p & <- & Hp). auto. }
  assert (AM : always (soseq (map (fun c => ask c rid ts C n) cs)) (if_ok (Forall2 (fun c => well_shaped (interl (outputs c) ts) (Some n)
        (fun s => cells_of (outputs c) s = [] \/ sample_ok c rid (cells_of (outputs c) C) s)) cs))).
  { apply always_soseq. intros c Hc. apply child_shape; auto. congruence. }
  apply (expect_calm _ _ _ _ CS AM). intros l F.
  destruct (shaped_list _ _ _ _ _ F) as (ds & ->).
  assert (NE : ds <> []).
  { intros ->. inversion F; subst. destruct Hv. }
  assert (LE : forall d, In d ds -> List.length d = n).
  { clear - F. revert cs F. induction ds as [|d ds IH]; intros cs F x Hx; [destruct Hx|]. cbn [map] in F.
    inversion F as [|c r cs' l' Y F']; subst. destruct Hx as [<-|Hx]; [apply Y|eapply IH; eauto]. }
  rewrite (merge_many n ds NE LE). cbn [on_ok tot]. rewrite map_map.
  assert (Lj : (j < List.length ds)%nat).
  { assert (LF : List.length cs = List.length (map SMany ds)) by (clear - F; induction F; cbn; auto).
    rewrite map_length in LF. rewrite <- LF. apply nth_error_Some. congruence. }
  rewrite (map_nth SMany ds [] j). cbn [tot].
  set (dv := nth j ds []). assert (Hdv : In dv ds) by (apply nth_In; exact Lj).
  transitivity (rsum (map (fun i => g (nth i dv [])) (seq 0 n))).
  - apply rsum_ext. intros i Hi. apply in_seq in Hi. apply RD. intros k Hk.
    set (row_i := map (fun l => nth i l []) ds).
    assert (PF : Forall2 (piece ts rid C) cs row_i).
    { unfold row_i. clear - F Hi. revert cs F. induction ds as [|d ds IH]; intros cs F; cbn [map] in *.
      - inversion F. constructor.
      - inversion F as [|c r cs' l' Y F']; subst. constructor; [|apply IH; exact F'].
        destruct Y as [L Y]. apply Y. apply nth_In. exact (eq_ind_r (fun x => (i < x)%nat) (proj2 Hi) L). }
    assert (PM : Permutation (keys (List.concat row_i)) ts).
    { rewrite <- (interl_parts cs ts ND NT ST). rewrite keys_concat. apply concat_perm. clear - PF.
      induction PF as [|c0 s0 cs0 ds0 [P _] F0 IH0]; cbn; constructor; auto. }
    rewrite mergedl_concat by (apply (Permutation_NoDup (Permutation_sym PM)); exact NT).
    apply (lookup_concat _ _ _ _ _ PF ND v (nth i dv []) k); [|exact Hk].
    assert (Ei : nth_error row_i j = Some (nth i dv [])).
    { exact (map_nth_error (fun l => nth i l []) j ds (nth_error_nth' ds [] Lj)). }
    assert (ZZ : forall (d0 : row) cs ri j, nth_error cs j = Some v -> nth_error ri j = Some d0 -> In (v, d0) (combine cs ri)); [|exact (ZZ _ _ _ _ Ej Ei)].
    clear. intros d0. induction cs as [|c cs IH]; intros [|s ss] [|j] E1 E2; try discriminate; cbn in *.
    + injection E1 as ->. injection E2 as ->. now left.
    + right. eapply IH; eauto.
  - assert (Ln : List.length dv = n) by (apply LE; exact Hdv). f_equal. rewrite <- Ln. clear.
    induction dv as [|d dv IH]; [reflexivity|]. cbn [List.length seq map nth]. f_equal. rewrite <- seq_shift, map_map. exact IH.
Qed.

(** What a state is made of is linear. *)
Lemma part_linear : forall c, wf c -> view c \/ (exists d, c = CDist d) -> linear c.
Proof.
  intros c W [V|(d & ->)]; [apply view_linear; assumption|]. apply flat_linear; [exact W|constructor].
Qed.

Lemma state_linear : forall cs rid ts C v g, wf (CProd cs) -> state (CProd cs) -> ready (CProd cs) rid ts C -> In v cs ->
  (forall k, In k ts -> In k (flat_map outputs cs)) -> reads (outputs v) g ->
  exists B, forall n, n <> 0%nat -> expect (simulate (CProd cs) rid ts C [] (Some n)) (total g) = (INR n * B)%R.
Proof.
  intros cs rid ts C v g W (cs' & E & ST) Q Hv SUB RD. injection E as <-.
  inversion W as [|cs' Wc ND| |]; subst cs'.
  destruct (linear_ask v (Wc v Hv) (part_linear v (Wc v Hv) (ST v Hv)) rid ts C g (ready_child cs rid ts C v W Q Hv)) as (B & HB).
  exists B. intros n Hn. rewrite (prod_pick cs rid ts C n v g); auto.
Qed.
