(** Proof of C74, continued: sums over the samples of views and states. *)
From Coq Require Import List ZArith QArith Qcanon Reals Bool String Permutation Lia Lra FunctionalExtensionality.
From Verif Require Import Base Xr Samp Lgamma Prims Cgpm Lib SpecPrims PrimsInv PrimsDens PrimsThm PrimsThm2
  SpecComp CompInv CompDens CompThm SpecSim SimShape SimLaw SimTotal ChainLaw SpecMany ManyLaw ManyLaw2 ManyLaw3 ManyLaw4 ManyLaw5.
From Verif Require EntropyThm ViewsThm2.
Import ListNotations.
Local Open Scope Z_scope.

Lemma rsum_map_sum : forall {A B} (h : A -> B -> R) (l : list A) (l' : list B),
  rsum (map (fun b => rsum (map (fun a => h a b) l)) l') = rsum (map (fun a => rsum (map (h a) l')) l).
Proof.
  intros A B h l l'. induction l' as [|b l' IH]; cbn [map].
  - change (rsum []) with 0%R. symmetry. rewrite rsum_const. lra.
  - change (rsum (?x :: ?y)) with (x + rsum y)%R. rewrite IH. clear. induction l as [|a l IH]; cbn [map].
    + change (rsum []) with 0%R. lra.
    + change (rsum (?x :: ?y)) with (x + rsum y)%R. change (rsum (h a b :: map (h a) l')) with (h a b + rsum (map (h a) l'))%R. lra.
Qed.

Lemma total_pieces : forall (gs : list (cgpm * (row -> R))) g, (forall s, g s = rsum (map (fun p => snd p s) gs)) ->
  forall r, total g r = rsum (map (fun p => total (snd p) r) gs).
Proof.
  intros gs g E [[s|l]|e]; cbn [total].
  - apply E.
  - rewrite (rsum_ext g (fun s => rsum (map (fun p => snd p s) gs))) by (intros; apply E).
    apply (rsum_map_sum (fun p s => snd p s) gs l).
  - symmetry. rewrite rsum_const. lra.
Qed.

Lemma separate_reads : forall cs g, separate cs g -> reads (flat_map outputs cs) g.
Proof.
  intros cs g (gs & H & E) s s' L. rewrite !E. apply rsum_ext. intros [v h] Hp. destruct (H v h Hp) as [Hv RD]. cbn [snd].
  apply RD. intros k Hk. apply L. apply in_flat_map. eauto.
Qed.

Lemma additive_reads : forall m g, additive m g -> reads (outputs m) g.
Proof. intros m g [[_ H]|(cs & -> & _ & H)]; [exact H|]. apply separate_reads. exact H. Qed.

Lemma additive_linear : forall m rid ts C g, wf m -> additive m g -> ready m rid ts C -> ts <> [] ->
  (forall k, In k ts -> In k (outputs m)) -> (forall k, In k (keys C) -> In k (outputs m)) ->
  forall n, n <> 0%nat -> expect (simulate m rid ts C [] (Some n)) (total g) =
    (INR n * expect (simulate m rid ts C [] (Some 1%nat)) (total g))%R.
Proof.
  intros m rid ts C g W AD Q NE S1 S2 n Hn.
  assert (L : exists B, forall n, n <> 0%nat -> expect (simulate m rid ts C [] (Some n)) (total g) = (INR n * B)%R).
  { destruct AD as [[V _]|(cs & -> & ST & (gs & H & E))].
    - apply (view_linear m W V); auto.
    - clear n Hn. assert (L : forall gs', (forall p, In p gs' -> In p gs) -> exists B, forall n, n <> 0%nat ->
        rsum (map (fun p => expect (simulate (CProd cs) rid ts C [] (Some n)) (total (snd p))) gs') = (INR n * B)%R).
      { induction gs' as [|[v h] gs' IH]; intros Hg.
        - exists 0%R. intros. cbn. lra.
        - destruct (IH (fun p Hp => Hg p (or_intror Hp))) as (B & HB).
          destruct (H v h (Hg _ (or_introl eq_refl))) as [Hv RD].
          destruct (state_linear cs rid ts C v h W ST Q Hv S1 RD) as (B' & HB').
          exists (B' + B)%R. intros n Hn. cbn [map snd]. change (rsum (?x :: ?y)) with (x + rsum y)%R. rewrite (HB n Hn), (HB' n Hn). lra. }
      destruct (L gs (fun p Hp => Hp)) as (B & HB). exists B. intros n Hn. rewrite <- (HB n Hn).
      rewrite <- (expect_total_sum (simulate (CProd cs) rid ts C [] (Some n)) (fun p => total (snd p)) gs).
      apply expect_eq; intros r; apply (total_pieces gs g E). }
  destruct L as (B & HB). rewrite (HB n Hn), (HB 1%nat) by discriminate. change (INR 1) with 1%R. lra.
Qed.

Lemma additive_mean : forall m ts C V g, wf m -> additive m g -> ready m None ts C -> ts <> [] ->
  (forall k, In k ts -> In k (outputs m)) -> (forall k, In k (keys C) -> In k (outputs m)) -> exhausts m ts C V ->
  forall n, n <> 0%nat -> expect (simulate m None ts C [] (Some n)) (total g) =
    (INR n * rsum (map (fun T => prob m T C * g T) V))%R.
Proof.
  intros m ts C V g W AD Q NE S1 S2 EX n Hn. rewrite (additive_linear m None ts C g); auto. f_equal.
  apply one_mean; auto. apply additive_reads. exact AD.
Qed.

(** ** Functions that can be averaged *)

Lemma additive_plus : forall m g h, additive m g -> additive m h -> additive m (fun s => g s + h s)%R.
Proof.
  intros m g h [[V RG]|(cs & E & ST & (gs & HG & EG))] H.
  - left. split; [exact V|]. destruct H as [[_ RH]|(cs & -> & _ & _)].
    + intros s s' L. rewrite (RG s s' L), (RH s s' L). reflexivity.
    + destruct V as (a & b & c & d & V & _). discriminate V.
  - right. exists cs. split; [exact E|]. split; [exact ST|]. destruct H as [[V _]|(cs' & E' & _ & (hs & HH & EH))].
    + destruct V as (a & b & c & d & V & _). congruence.
    + assert (cs' = cs) by congruence. subst cs'. exists (gs ++ hs). split.
      * intros v f Hf. apply in_app_or in Hf. destruct Hf; eauto.
      * intros s. rewrite map_app, rsum_app, <- EG, <- EH. reflexivity.
Qed.

Lemma additive_scale : forall m g a, additive m g -> additive m (fun s => a * g s)%R.
Proof.
  intros m g a [[V RG]|(cs & E & ST & (gs & HG & EG))].
  - left. split; [exact V|]. intros s s' L. rewrite (RG s s' L). reflexivity.
  - right. exists cs. split; [exact E|]. split; [exact ST|]. exists (map (fun p => (fst p, fun s => a * snd p s)%R) gs). split.
    + intros v f Hf. apply in_map_iff in Hf. destruct Hf as ([v' f'] & Q & Hf). cbn [fst snd] in Q. injection Q as <- <-.
      destruct (HG v' f' Hf) as [Hv RD]. split; [exact Hv|]. intros s s' L. rewrite (RD s s' L). reflexivity.
    + intros s. rewrite EG, map_map. cbn [fst snd]. clear. induction gs as [|p gs IH]; cbn [map].
      * cbn. lra.
      * change (rsum (?x :: ?y)) with (x + rsum y)%R. rewrite <- IH. lra.
Qed.

(** The log density of a sample, written as a sum over the children of a state. *)
Definition logd (m : cgpm) (C s : row) : R :=
  match m with
  | CProd cs => rsum (map (fun v => ln (dens v (s ++ C) / dens v C)) cs)
  | _ => ln (dens m (s ++ C) / dens m C)
  end.

Lemma ln_rprod : forall l, (forall p, In p l -> (0 < p)%R) -> ln (rprod l) = rsum (map ln l).
Proof.
  induction l as [|p l IH]; intros H; [apply ln_1|]. change (rprod (p :: l)) with (p * rprod l)%R. cbn [map].
  change (rsum (?x :: ?y)) with (x + rsum y)%R. rewrite ln_mult, IH; auto.
  - intros q Hq. apply H. now right.
  - apply H. now left.
  - apply rprod_pos_all. intros q Hq. apply H. now right.
Qed.

Lemma child_pos : forall cs S, wf (CProd cs) -> (0 < dens (CProd cs) S)%R -> forall c, In c cs -> (0 < dens c S)%R.
Proof.
  intros cs S W PS c Hc. inversion W as [|cs' Wc ND| |]; subst cs'. apply (rprod_pos (map (fun c' => dens c' S) cs)); auto.
  - intros p Hp. apply in_map_iff in Hp. destruct Hp as (c' & <- & Hc'). apply dens_nonneg. auto.
  - apply in_map_iff. eauto.
Qed.

Lemma logd_ok : forall m C s, wf m -> (0 < dens m C)%R -> (0 < dens m (s ++ C))%R -> logd m C s = ln (dens m (s ++ C) / dens m C).
Proof.
  intros m C s W P Ps. destruct m as [d|cs| | |]; try reflexivity. unfold logd.
  assert (PC := child_pos cs C W P). assert (PS := child_pos cs (s ++ C) W Ps).
  transitivity (rsum (map ln (map (fun v => (dens v (s ++ C) / dens v C)%R) cs))); [rewrite map_map; reflexivity|].
  rewrite <- ln_rprod.
  - f_equal. cbn [dens] in *. clear Ps P W PS. induction cs as [|c cs IH]; cbn [map].
    + unfold rprod. cbn. lra.
    + change (rprod (?x :: ?y)) with (x * rprod y)%R. rewrite IH by (intros; apply PC; now right).
      assert (H1 := PC c (or_introl eq_refl)).
      assert (H2 : (0 < rprod (map (fun c' => dens c' C) cs))%R).
      { apply rprod_pos_all. intros p Hp. apply in_map_iff in Hp. destruct Hp as (c' & <- & Hc'). apply PC. now right. }
      field. split; lra.
  - intros p Hp. apply in_map_iff in Hp. destruct Hp as (c & <- & Hc). apply Rdiv_lt_0_compat; auto.
Qed.

Lemma additive_logd : forall m C (f : row -> row), wf m -> view m \/ state m ->
  (forall s s' cols, (forall k, In k cols -> lookup k s = lookup k s') -> forall k, In k cols -> lookup k (f s) = lookup k (f s')) ->
  additive m (fun s => logd m C (f s)).
Proof.
  intros m C f W VS F.
  assert (X : forall c, wf c -> reads (outputs c) (fun s => ln (dens c (f s ++ C) / dens c C))).
  { intros c Wc s s' L. rewrite (dens_ext c Wc (f s ++ C) (f s' ++ C)); [reflexivity|]. intros k Hk. rewrite !lookup_app.
    rewrite (F s s' _ L k Hk). reflexivity. }
  destruct VS as [V|ST].
  - left. split; [exact V|]. destruct V as (a & b & c & d & -> & _). apply (X _ W).
  - right. destruct ST as (cs & -> & H). exists cs. split; [reflexivity|]. split; [exists cs; split; [reflexivity|exact H]|].
    inversion W as [|cs' Wc ND| |]; subst cs'.
    exists (map (fun v => (v, fun s => ln (dens v (f s ++ C) / dens v C))) cs). split.
    + intros v h Hv. apply in_map_iff in Hv. destruct Hv as (v' & Q & Hv). injection Q as <- <-. split; [exact Hv|]. apply X. auto.
    + intros s. rewrite map_map. reflexivity.
Qed.

Lemma at_columns_reads : forall ts (s s' : row) cols, (forall k, In k cols -> lookup k s = lookup k s') ->
  forall k, In k cols -> lookup k (at_columns ts s) = lookup k (at_columns ts s').
Proof.
  intros ts s s' cols L k Hk. induction ts as [|t ts IH]; [reflexivity|]. cbn [at_columns map].
  destruct (Z.eq_dec k t) as [->|N].
  - rewrite !lookup_cons_eq, (L t Hk). reflexivity.
  - rewrite !lookup_cons_neq by exact N. exact IH.
Qed.
