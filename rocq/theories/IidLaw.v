(** Proof of C77: the samples of a view drawn at once are independent draws. *)
From Coq Require Import List ZArith QArith Qcanon Reals Bool String Permutation Lia Lra FunctionalExtensionality.
From Verif Require Import Base Xr Samp Lgamma Prims Cgpm Lib SpecPrims PrimsInv PrimsDens PrimsThm PrimsThm2
  SpecComp CompInv CompDens CompThm SpecSim SimShape SimLaw SimTotal ChainLaw SpecMany SpecError ManyLaw ManyLaw2 ManyLaw3.
From Verif Require EnsembleThm3.
Import ListNotations.
Local Open Scope Z_scope.

Definition prodt (g : row -> R) (r : sres) : R := match r with SOne s => g s | SMany l => rprod (map g l) end.

Lemma product_on_ok : forall g, product_over g = on_ok (prodt g).
Proof. intros g. apply functional_extensionality. intros [[s|l]|e]; reflexivity. Qed.

Lemma rprod_ext : forall {A} (f g : A -> R) l, (forall a, In a l -> f a = g a) -> rprod (map f l) = rprod (map g l).
Proof. intros A f g l H. f_equal. apply map_ext_in. exact H. Qed.

Lemma rprod_app : forall a b, rprod (a ++ b) = (rprod a * rprod b)%R.
Proof.
  induction a as [|x a IH]; intros b; cbn [app].
  - change (rprod []) with 1%R. lra.
  - change (rprod (?x :: ?y)) with (x * rprod y)%R. rewrite IH. lra.
Qed.

Lemma rprod_const : forall {A} (x : R) (l : list A), rprod (map (fun _ => x) l) = (x ^ List.length l)%R.
Proof. intros A x l. induction l as [|a l IH]; [reflexivity|]. cbn [map List.length pow]. change (rprod (?x :: ?y)) with (x * rprod y)%R. rewrite IH. reflexivity. Qed.

Lemma soseq_prod : forall {A B} (M : A -> samp (out B)) (f : B -> R) cs, (forall c, In c cs -> calm (M c)) ->
  expect (soseq (map M cs)) (on_ok (fun l => rprod (map f l))) = rprod (map (fun c => expect (M c) (on_ok f)) cs).
Proof.
  intros A B M f cs. induction cs as [|c cs IH]; intros H; [cbn; reflexivity|]. cbn [map soseq].
  change (rprod (?x :: ?y)) with (x * rprod y)%R. rewrite <- IH by (intros; apply H; now right). rewrite expect_sobind.
  rewrite (Rmult_comm (expect (M c) (on_ok f))), <- expect_scale. apply expect_eq; [|intros e; cbn; lra].
  intros b. rewrite expect_sobind. cbn [on_ok]. rewrite Rmult_comm, <- expect_scale. apply expect_eq; [reflexivity|intros e; cbn; lra].
Qed.

Lemma srepeat_prod : forall {A} (m : samp (out A)) (f : A -> R) n, calm m ->
  expect (srepeat n m) (on_ok (fun l => rprod (map f l))) = (expect m (on_ok f) ^ n)%R.
Proof.
  intros A m f n H. induction n as [|n IH]; [cbn; reflexivity|]. cbn [srepeat pow]. rewrite <- IH, expect_sobind.
  rewrite (Rmult_comm (expect m (on_ok f))), <- expect_scale. apply expect_eq; [|intros e; cbn; lra].
  intros b. rewrite expect_sobind. cbn [on_ok]. rewrite Rmult_comm, <- expect_scale. apply expect_eq; [reflexivity|intros e; cbn; lra].
Qed.

(** The lists of the children, read across, are independent draws of all of them. *)
Lemma soseq_across : forall {A B} (M : A -> samp (out B)) (d : B) n cs, (forall c, In c cs -> calm (M c)) ->
  forall G : list (list B) -> R,
  expect (soseq (map (fun c => srepeat (Datatypes.S n) (M c)) cs)) (on_ok G) =
  expect (soseq (map M cs)) (on_ok (fun s => expect (soseq (map (fun c => srepeat n (M c)) cs)) (on_ok (fun ls =>
    G (map (fun p => fst p :: snd p) (combine s ls)))))).
Proof.
  intros A B M d n. induction cs as [|c cs IH]; intros H G; [reflexivity|]. cbn [map soseq].
  assert (IH' := IH (fun c' Hc' => H c' (or_intror Hc'))). clear IH.
  set (Rn := soseq (map (fun c => srepeat n (M c)) cs)) in *. set (Rs := soseq (map M cs)) in *.
  set (RS := soseq (map (fun c => srepeat (Datatypes.S n) (M c)) cs)) in *.
  (* both sides read a, l of the first child and s, ls of the others *)
  transitivity (expect (M c) (on_ok (fun a => expect (srepeat n (M c)) (on_ok (fun l =>
     expect Rs (on_ok (fun s => expect Rn (on_ok (fun ls => G ((a :: l) :: map (fun p => fst p :: snd p) (combine s ls))))))))))).
  - cbn [srepeat]. rewrite !expect_sobind. apply expect_eq; [|reflexivity]. intros a. rewrite expect_sobind. cbn [on_ok].
    apply expect_eq; [|reflexivity]. intros l. cbn [expect]. rewrite expect_sobind. cbn [on_ok].
    rewrite <- (IH' (fun x => G ((a :: l) :: x))). apply expect_eq; reflexivity.
  - rewrite expect_sobind. apply expect_eq; [|reflexivity]. intros a. rewrite expect_sobind. cbn [on_ok].
    transitivity (expect (srepeat n (M c)) (fun rl => expect Rs (fun rs => match rl, rs with Ok l, Ok s =>
       expect Rn (on_ok (fun ls => G ((a :: l) :: map (fun p => fst p :: snd p) (combine s ls)))) | _, _ => 0%R end))).
    + apply expect_eq.
      * intros l. cbn [on_ok]. apply expect_eq; reflexivity.
      * intros e. cbn [on_ok]. symmetry. etransitivity; [|apply (EnsembleThm3.expect_none Rs)]. apply expect_eq; reflexivity.
    + rewrite EnsembleThm3.expect_swap. apply expect_eq.
      * intros s. cbn [expect on_ok]. rewrite expect_sobind. apply expect_eq; [|reflexivity]. intros l.
        rewrite expect_sobind. apply expect_eq; reflexivity.
      * intros e. cbn [on_ok]. etransitivity; [|apply (EnsembleThm3.expect_none (srepeat n (M c)))]. apply expect_eq; reflexivity.
Qed.

Lemma across_nth : forall {B} (d : B) i (s : list B) (ls : list (list B)), List.length s = List.length ls ->
  map (fun l => nth (Datatypes.S i) l d) (map (fun p => fst p :: snd p) (combine s ls)) = map (fun l => nth i l d) ls /\
  map (fun l => nth 0 l d) (map (fun p => fst p :: snd p) (combine s ls)) = s.
Proof.
  intros B d i. induction s as [|b s IH]; intros [|l ls] E; try discriminate; [split; reflexivity|].
  cbn in E. injection E as E. destruct (IH ls E) as [H1 H2]. cbn [combine map fst snd nth]. rewrite H1, H2. split; reflexivity.
Qed.

Lemma soseq_length : forall {A B} (M : A -> samp (out B)) cs, always (soseq (map M cs)) (if_ok (fun ls => List.length ls = List.length cs)).
Proof.
  intros A B M cs. assert (T : forall m : samp (out B), always m (if_ok (fun _ => True))).
  { intros m. induction m as [a|ws k IH|l k IH|n p k IH|lo hi k IH|n k IH]; cbn; auto. destruct a; exact I. }
  generalize (always_soseq M (fun _ _ => True) cs (fun c _ => T (M c))). apply always_imp. intros [ls|e]; [|auto]. cbn.
  intros F. clear - F. induction F; cbn; congruence.
Qed.

Lemma soseq_columns : forall {A B} (M : A -> samp (out B)) (d : B) n cs, (forall c, In c cs -> calm (M c)) ->
  forall F : list B -> R,
  expect (soseq (map (fun c => srepeat n (M c)) cs)) (on_ok (fun ls => rprod (map (fun i => F (map (fun l => nth i l d) ls)) (seq 0 n)))) =
  (expect (soseq (map M cs)) (on_ok F) ^ n)%R.
Proof.
  intros A B M d n cs H F. 
  assert (CM : forall k, calm (soseq (map (fun c => srepeat k (M c)) cs))).
  { intros k. apply calm_soseq. intros m Hm. apply in_map_iff in Hm. destruct Hm as (c & <- & Hc). apply calm_srepeat. auto. }
  assert (CS : calm (soseq (map M cs))).
  { apply calm_soseq. intros m Hm. apply in_map_iff in Hm. destruct Hm as (c & <- & Hc). auto. }
  induction n as [|n IH].
  - cbn [seq map pow]. change (rprod []) with 1%R. rewrite calm_const by apply CM. reflexivity.
  - rewrite (soseq_across M d n cs H). cbn [pow]. rewrite <- IH, (Rmult_comm (expect (soseq (map M cs)) (on_ok F))), <- expect_scale.
    apply (expect_calm _ _ _ _ CS (soseq_length M cs)). intros s Ls. cbn [on_ok]. rewrite Rmult_comm, <- expect_scale.
    apply (expect_calm _ _ _ _ (CM n) (soseq_length (fun c => srepeat n (M c)) cs)). intros ls Ll. cbn [on_ok].
    assert (E : List.length s = List.length ls) by congruence. cbn [seq map].
    change (rprod (?x :: ?y)) with (x * rprod y)%R. rewrite (proj2 (across_nth d 0 s ls E)). f_equal.
    rewrite <- seq_shift, map_map. apply rprod_ext. intros i _. rewrite (proj1 (across_nth d i s ls E)). reflexivity.
Qed.

(** A model whose samples, asked for together, are independent. *)
Definition free (c : cgpm) : Prop := forall rid ts C g, ready c rid ts C -> ts <> [] ->
  (forall k, In k ts -> In k (outputs c)) -> (forall k, In k (keys C) -> In k (outputs c)) ->
  exists B, forall n, n <> 0%nat -> expect (simulate c rid ts C [] (Some n)) (product_over g) = (B ^ n)%R.

Lemma free_ask : forall c, wf c -> free c -> forall rid ts C g, ready c rid ts C ->
  exists B, forall n, n <> 0%nat -> expect (ask c rid ts C n) (product_over g) = (B ^ n)%R.
Proof.
  intros c W L rid ts C g Q. unfold ask, simulate_one. destruct (interl (outputs c) ts) as [|t0 tc] eqn:E.
  - exists (g []). intros n Hn. cbn [expect empty_samples product_over].
    transitivity (rprod (map (fun _ : row => g []) (repeat ([] : row) n))).
    + apply rprod_ext. intros s Hs. apply repeat_spec in Hs. now subst.
    + rewrite rprod_const, repeat_length. reflexivity.
  - assert (NE : interl (outputs c) ts <> []) by congruence. rewrite <- E.
    change (interd [] (@nil (Z * val))) with (@nil (Z * val)). apply L; auto using ready_part.
    + intros k Hk. apply filter_In in Hk. apply memb_In. tauto.
    + intros k Hk. apply In_keys_interd in Hk. tauto.
Qed.

Lemma leaf_free : forall d, dinv d -> free (CDist d).
Proof.
  intros d D rid ts C g Q NE S1 S2. destruct (leaf_draws d rid ts C D Q) as (m & H & E).
  exists (expect m (on_ok g)). intros n Hn. rewrite <- (whole_part (CDist d)) by assumption. rewrite E.
  unfold listed. rewrite expect_sobind, <- (srepeat_prod m g n H). apply expect_eq; reflexivity.
Qed.

Lemma leaves_free : forall ds, (forall d, In d ds -> dinv d) -> NoDup (flat_map outputs (map CDist ds)) -> free (CProd (map CDist ds)).
Proof.
  intros ds D ND rid ts C g Q NE S1 S2.
  assert (W : wf (CProd (map CDist ds))).
  { constructor; [|exact ND]. intros c Hc. apply in_map_iff in Hc. destruct Hc as (d & <- & Hd). constructor. auto. }
  assert (QD : forall d, In d ds -> dinv d /\ ready (CDist d) rid ts C).
  { intros d Hd. split; [auto|]. destruct Q as (U & LB & NC & NT & X & SD & P & DI).
    cbn [unknown labelled solid discrete] in U, LB, SD, DI. rewrite each_In in U, LB, SD, DI.
    assert (Hc : In (CDist d) (map CDist ds)) by (apply in_map; exact Hd).
    split; [apply U; exact Hc|]. split; [apply LB; exact Hc|]. split; [exact NC|]. split; [exact NT|]. split; [exact X|].
    split; [apply SD; exact Hc|]. split; [|apply DI; exact Hc].
    cbn [dens] in P. apply (rprod_pos (map (fun c' => dens c' C) (map CDist ds))); auto.
    - intros r Hr. apply in_map_iff in Hr. destruct Hr as (c' & <- & Hc'). apply dens_nonneg.
      apply in_map_iff in Hc'. destruct Hc' as (d' & <- & Hd'). constructor. auto.
    - apply in_map_iff. exists (CDist d). split; [reflexivity|exact Hc]. }
  destruct (leaves_draws ds rid ts C QD) as (Ms & CM & LM & EM).
  assert (NM : Ms <> []).
  { intros ->. destruct ds; [|discriminate LM]. destruct ts as [|k ts]; [congruence|]. exact (S1 k (or_introl eq_refl)). }
  exists (expect (soseq (map (fun m => m) Ms)) (on_ok (fun s => g (mergedl s)))). intros n Hn.
  cbn [simulate]. unfold prod_simulate. rewrite (map_map (fun c' => (outputs c', inputs c', simulate c'))).
  assert (EA : map (fun c => simulate_one (outputs c) (inputs c) (simulate c) rid ts C [] (Some n)) (map CDist ds) =
               map (fun m => listed m n) Ms).
  { rewrite <- EM. apply map_ext_in. intros c Hc. apply in_map_iff in Hc. destruct Hc as (d & <- & _). reflexivity. }
  cbv beta iota in EA |- *. rewrite EA, expect_sobind. cbn [expect]. rewrite listed_soseq.
  assert (CS : calm (soseq (map (srepeat n) Ms))).
  { apply calm_soseq. intros m Hm. apply in_map_iff in Hm. destruct Hm as (m' & <- & Hm'). apply calm_srepeat. auto. }
  assert (SH : always (soseq (map (srepeat n) Ms)) (if_ok (fun ls => ls <> [] /\ forall l, In l ls -> List.length l = n))).
  { generalize (always_soseq (srepeat n) (fun (_ : samp (out row)) (l : list row) => List.length l = n) Ms). intros AS.
    assert (AS' : always (soseq (map (srepeat n) Ms)) (if_ok (Forall2 (fun (_ : samp (out row)) (l : list row) => List.length l = n) Ms))).
    { apply AS. intros m Hm. assert (T : always m (if_ok (fun _ => True))).
      { destruct (CM m Hm) as [_ F]. revert F. apply always_imp. intros [a|e] _; exact I. }
      generalize (always_srepeat m (fun _ => True) n T). apply always_imp. intros [l|e]; [|auto]. cbn. tauto. }
    revert AS'. apply always_imp. intros [ls|e]; [|auto]. cbn [if_ok]. intros F. split.
    - destruct F; [congruence|discriminate].
    - clear - F. induction F as [|m l Ms ls E F IH]; intros x [<-|Hx] || intros x []; auto. }
  transitivity (expect (soseq (map (srepeat n) Ms)) (on_ok (fun ls => rprod (map (fun i => g (mergedl (map (fun l => nth i l []) ls))) (seq 0 n))))).
  - apply (expect_calm _ _ _ _ CS SH). intros ls [H1 H2]. cbn [omap obind on_ok]. rewrite (merge_many n ls H1 H2). cbn [product_over].
    rewrite map_map. reflexivity.
  - exact (soseq_columns (fun m : samp (out row) => m) [] n Ms CM (fun s => g (mergedl s))).
Qed.

Lemma flat_free : forall c, wf c -> flat c -> free c.
Proof.
  intros c W F. destruct F as [d|ds].
  - inversion W; subst. apply leaf_free. assumption.
  - inversion W as [|cs Wc ND| |]; subst. apply leaves_free; [|exact ND].
    intros d Hd. specialize (Wc (CDist d) (in_map CDist _ _ Hd)). inversion Wc. assumption.
Qed.

(** The product over the groups is the product over the draws. *)
Lemma counts_prod : forall (K zs : list Z) (h : Z -> R), NoDup K -> (forall z, In z zs -> In z K) ->
  rprod (map (fun p => h (fst p) ^ snd p)%R (cluster_counts K zs)) = rprod (map h zs).
Proof.
  intros K zs h ND. unfold cluster_counts.
  assert (X : forall l, rprod (map (fun p : Z * nat => h (fst p) ^ snd p)%R (filter (fun p => negb (Nat.eqb (snd p) 0)) l)) =
              rprod (map (fun p : Z * nat => h (fst p) ^ snd p)%R l)).
  { induction l as [|[z n] l IH]; [reflexivity|]. cbn [filter snd]. destruct n as [|n]; cbn [Nat.eqb negb map fst snd].
    - change (rprod (?x :: ?y)) with (x * rprod y)%R. rewrite IH. cbn. lra.
    - change (rprod (?x :: ?y)) with (x * rprod y)%R. rewrite IH. reflexivity. }
  rewrite X, map_map. cbn [fst snd]. clear X. induction zs as [|z zs IH]; intros H.
  - cbn [count_occ map]. transitivity (rprod (map (fun _ : Z => 1%R) K)); [apply rprod_ext; reflexivity|rewrite rprod_const; apply pow1].
  - cbn [map]. change (rprod (h z :: ?y)) with (h z * rprod y)%R. rewrite <- IH by (intros; apply H; now right).
    assert (Hz : In z K) by (apply H; now left). clear IH H. revert ND Hz. induction K as [|x K IHK]; intros ND Hz; [destruct Hz|].
    inversion ND as [|? ? NI ND']; subst. cbn [map].
    change (rprod (?x :: ?y)) with (x * rprod y)%R. destruct (Z.eq_dec z x) as [<-|N].
    + rewrite (rprod_ext (fun x => h x ^ count_occ Z.eq_dec (z :: zs) x)%R (fun x => h x ^ count_occ Z.eq_dec zs x)%R).
      2:{ intros y Hy. cbn [count_occ]. destruct (Z.eq_dec z y) as [<-|]; [contradiction|reflexivity]. }
      cbn [count_occ]. destruct (Z.eq_dec z z); [|congruence]. cbn [pow]. ring.
    + destruct Hz as [->|Hz]; [congruence|]. rewrite (IHK ND' Hz). cbn [count_occ]. destruct (Z.eq_dec z x); [congruence|]. ring.
Qed.

Section Mixture.
Variables (flex : bool) (div : dist) (arr : cgpm) (r2c : dict Z val).
Let m := CMix flex div arr r2c.
Let ix := dist_o div.
Hypothesis W : wf m.

Lemma grp_free : forall rid ts C g t c, component arr t = Some c -> free c -> ready c rid ts C ->
  exists B, forall n, n <> 0%nat -> expect (grp div arr rid ts C n t) (product_over g) = (B ^ n)%R.
Proof.
  intros rid ts C g t c E L Q. 
  destruct (wf_mix _ _ _ _ W) as (_ & _ & A & NI & CO & _ & _). destruct (CO c (comp_In _ _ _ E)) as [Wc Oc].
  destruct (free_ask c Wc L rid ts C (fun s => g (if memb ix ts then dset ix (vz t) s else s)) Q) as (B & HB).
  exists B. intros n Hn. rewrite <- HB by exact Hn. rewrite (grp_ask flex div arr r2c W rid ts C n t c E), expect_sobind. cbn [expect].
  pose proof Q as (U & _ & _ & NT & _).
  eapply (expect_calm (ask c rid ts C n)); [apply calm_ask; assumption|apply (child_shape c rid ts C (Some n) Wc U ltac:(congruence) NT)|].
  intros r Hr. cbn [well_shaped] in Hr. destruct r as [s|l]; [contradiction|]. unfold add_cluster. fold ix.
  destruct (memb ix ts); cbn [product_over]; [rewrite map_map; reflexivity|reflexivity].
Qed.

Lemma mix_free : (forall c, In c (components arr) -> free c) -> free m.
Proof.
  intros LC rid ts C g Q NE S1 S2. pose proof Q as (U & LB & NC & NT & X & SD & P & DI).
  destruct (wf_mix _ _ _ _ W) as (D & (K & SU) & A & NI & CO & CE & _). pose proof LB as [LB1 LB2].
  assert (KN : NoDup K) by (eapply support_NoDup; eauto).
  assert (RC : (match rid with None => None | Some r => lookup r r2c end) = None).
  { destruct U as (_ & U & _). destruct rid as [r|]; [|reflexivity]. apply lookup_None. exact U. }
  assert (QC : forall t c, component arr t = Some c -> (0 < dens c C)%R -> ready c rid ts C).
  { intros t c E Pc. assert (Ic := comp_In _ _ _ E). split; [eapply unknown_comp; eauto; apply U|].
    split; [exact (labelled_comp arr _ c LB2 Ic)|]. split; [exact NC|]. split; [exact NT|]. split; [exact X|].
    split; [apply (solid_comp arr C c SD Ic)|]. split; [exact Pc|exact (discrete_comp arr _ c DI Ic)]. }
  destruct (lookup ix C) as [x|] eqn:LX.
  - destruct (LB1 x LX) as (t & -> & LZ). destruct (CE t LZ) as [c E].
    assert (DC : dens m C = (cell_density div (vz t) * dens c C)%R).
    { unfold m. rewrite (dens_mix_some flex div arr r2c W t C LX), (q_comp flex div arr r2c W t c C E). reflexivity. }
    assert (Wc : wf c) by (apply CO; eapply comp_In; eauto).
    assert (P1 := cell_nonneg div (vz t) D). assert (P2 := dens_nonneg c Wc C).
    assert (PP : (0 < cell_density div (vz t))%R /\ (0 < dens c C)%R).
    { rewrite DC in P. split.
      - destruct P1 as [|Z0]; [auto|rewrite <- Z0 in P; lra].
      - destruct P2 as [|Z0]; [auto|rewrite <- Z0 in P; lra]. }
    destruct (grp_free rid ts C g t c E (LC c (comp_In _ _ _ E)) (QC t c E (proj2 PP))) as (B & HB).
    exists B. intros n Hn. rewrite <- HB by exact Hn. unfold m. cbn [simulate]. unfold mix_simulate. rewrite RC.
    unfold ix in LX. rewrite LX, SU. replace (in_support (vz t) K) with true; [reflexivity|].
    symmetry. apply in_support_spec. apply (support_pos div K t D SU). apply PP.
  - assert (LCk : ~ In ix (keys C)) by (apply lookup_None; exact LX).
    set (pr := fun t => (dens m ((ix, vz t) :: C) / dens m C)%R).
    assert (EP : forall t c, component arr t = Some c -> pr t = (cell_density div (vz t) * dens c C / dens m C)%R).
    { intros t c E. unfold pr, m. rewrite (dens_mix_some flex div arr r2c W t _ (lookup_cons_eq _ _ _)).
      rewrite (q_comp flex div arr r2c W t c _ E). f_equal. f_equal.
      destruct (CO c (comp_In _ _ _ E)) as [Wc Oc]. apply dens_ext; auto.
      intros k Hk. apply lookup_cons_neq. intros ->. rewrite Oc in Hk. contradiction. }
    assert (PN : forall t, In t K -> (0 <= pr t)%R) by (intros; apply ratio_nonneg; auto).
    assert (PS : rsum (map pr K) = 1%R).
    { unfold pr. rewrite (rsum_div (fun t => dens m ((ix, vz t) :: C))). unfold m, ix.
      rewrite (cluster_marginal flex div arr r2c K C W SU LCk). fold m. field. lra. }
    set (ws := map (fun t => xlog (pr t)) K).
    set (h := fun z => expect (grp div arr rid ts C 1 z) (product_over g)).
    exists (expect (log_pflip ws) (on_ok (fun i => h (nth i K 0)))). intros n Hn.
    assert (GP : forall z, In z K -> (0 < pr z)%R -> exists c, component arr z = Some c /\ ready c rid ts C).
    { intros z Hz Pz. destruct (CE z (or_intror (ex_intro _ K (conj SU Hz)))) as [c E]. exists c. split; [exact E|].
      apply (QC z c E). rewrite (EP _ _ E) in Pz. assert (Wc : wf c) by (apply CO; eapply comp_In; eauto).
      destruct (dens_nonneg c Wc C) as [|Z0]; [auto|]. rewrite <- Z0 in Pz. unfold Rdiv in Pz. lra. }
    assert (GL : forall z k, In z K -> (0 < pr z)%R -> k <> 0%nat -> expect (grp div arr rid ts C k z) (product_over g) = (h z ^ k)%R).
    { intros z k Hz Pz Hk. destruct (GP z Hz Pz) as (c & E & Qc).
      destruct (grp_free rid ts C g z c E (LC c (comp_In _ _ _ E)) Qc) as (B & HB). unfold h.
      rewrite (HB k Hk), (HB 1%nat ltac:(discriminate)). rewrite pow_1. reflexivity. }
    assert (PF : calm (log_pflip ws)).
    { split; [apply choices_log_pflip|]. apply pflip_ok. apply pos_term; [exact PN|]. rewrite PS. lra. }
    unfold m. cbn [simulate]. unfold mix_simulate. rewrite RC. unfold ix in LX. rewrite LX, SU. cbn [obind]. fold ix.
    rewrite (oseq_map_ok _ (fun t => xlog (pr t))).
    2:{ intros t Ht. apply (mixture_density flex div arr r2c rid [(ix, vz t)] C); auto.
        - cbn [app]. apply labelled_add; eauto.
        - unfold disjoint_rows. cbn. constructor; auto. }
    cbn [obind]. fold ws.
    replace (match n with O => 1%nat | Datatypes.S _ => n end) with n by (destruct n; [congruence|reflexivity]).
    rewrite expect_sobind.
    assert (R1 := srepeat_prod (log_pflip ws) (fun i => h (nth i K 0)) n PF).
    etransitivity; [|exact R1].
    apply (expect_calm _ _ _ _ (calm_srepeat (log_pflip ws) n PF) (always_srepeat _ _ n (flip_index ws))).
    intros is [LI HI]. set (zs := map (fun i => nth i K 0) is).
    assert (HZ : forall z, In z zs -> In z K /\ (0 < pr z)%R).
    { intros z Hz. apply in_map_iff in Hz. destruct Hz as (i & <- & Hi). destruct (HI i Hi) as [Li (w & Hw)].
      unfold ws in Li, Hw. rewrite map_length in Li. split; [apply nth_In; auto|]. rewrite nth_error_map in Hw.
      destruct (nth_error K i) as [z|] eqn:En; [|discriminate]. rewrite (nth_error_nth _ _ 0 En).
      cbn in Hw. injection Hw as Hw. unfold xlog in Hw. destruct (Rlt_dec 0 (pr z)); [auto|discriminate]. }
    assert (CG : forall p, In p (cluster_counts K zs) -> snd p <> 0%nat /\ In (fst p) K /\ (0 < pr (fst p))%R).
    { intros p Hp. destruct (cluster_counts_pos _ _ _ Hp) as (P0 & PK & PZ). destruct (HZ _ PZ) as [_ PP]. auto. }
    rewrite expect_sobind. cbn [expect].
    set (M := fun p : Z * nat => mix_simulate_one ix (outputs arr) (simulate arr) rid ts C [] (Some (snd p)) (vz (fst p))).
    assert (CM : forall p, In p (cluster_counts K zs) -> calm (M p)).
    { intros p Hp. destruct (CG p Hp) as (H0 & H1 & H2). destruct (GP _ H1 H2) as (c & E & Qc).
      exact (grp_calm flex div arr r2c W rid ts C (snd p) (fst p) c E Qc H0). }
    transitivity (rprod (map (fun p => h (fst p) ^ snd p)%R (cluster_counts K zs))).
    2:{ rewrite (counts_prod K zs h KN); [unfold zs; rewrite map_map; reflexivity|intros z Hz; apply HZ; exact Hz]. }
    transitivity (rprod (map (fun p => expect (M p) (on_ok (prodt g))) (cluster_counts K zs))).
    2:{ apply rprod_ext. intros p Hp. destruct (CG p Hp) as (H0 & H1 & H2). rewrite <- product_on_ok. apply GL; assumption. }
    rewrite <- (soseq_prod M (prodt g) _ CM).
    assert (AM : always (soseq (map M (cluster_counts K zs)))
         (if_ok (Forall2 (fun p => well_shaped ts (Some (snd p)) (cluster_ok div arr rid C (vz (fst p)))) (cluster_counts K zs)))).
    { apply always_soseq. intros p Hp. destruct (CG p Hp) as (P0 & _ & _).
      apply (mix_simulate_one_shape flex div arr r2c W); auto.
      - intros c' Hc' rid' ts' C' N' H1 H2 H3 H4. apply simulate_shape; auto. apply CO. exact Hc'.
      - congruence.
      - apply unknown_uc. apply U. }
    assert (CS : calm (soseq (map M (cluster_counts K zs)))).
    { apply calm_soseq. intros q Hq. apply in_map_iff in Hq. destruct Hq as (p & <- & Hp). auto. }
    apply (expect_calm _ _ _ _ CS AM). intros l F.
    assert (DS : exists ds, l = map SMany ds).
    { clear - F. induction F as [|p r ps rs Y F IH]; [exists []; auto|]. destruct IH as (ds & ->).
      destruct r as [|rows]; [destruct Y|]. exists (rows :: ds). reflexivity. }
    destruct DS as (ds & ->). unfold chain_samples. rewrite all_many_ok. cbn [omap obind product_over on_ok]. rewrite map_map. cbn [prodt].
    clear. induction ds as [|d ds IH]; [reflexivity|]. cbn [List.concat map]. rewrite map_app, rprod_app.
    change (rprod (?x :: ?y)) with (x * rprod y)%R. rewrite IH. reflexivity.
Qed.
End Mixture.

Lemma view_free : forall m, wf m -> view m -> free m.
Proof.
  intros m W (flex & div & arr & r2c & -> & F). apply mix_free; [exact W|]. intros c Hc.
  destruct (wf_mix _ _ _ _ W) as (_ & _ & _ & _ & CO & _ & _). apply flat_free; [apply CO; exact Hc|apply F; exact Hc].
Qed.
