(** C78: hyperparameter inference done again and again converges to the posterior. *)
From Coq Require Import List ZArith QArith Qcanon Reals Bool String Permutation Lia Lra.
From Verif Require Import Base Xr Samp Lgamma Prims Cgpm Lib SpecPrims PrimsInv PrimsDens PrimsThm PrimsThm2
  SpecComp CompInv CompDens SimLaw SimShape CompThm PropPrims DemoComp SpecBook Book SpecWalks WalksThm Walks Hypers HypersThm Crosscat HypersThm2
  PropHypers ConvThm SpecHypers SpecConv.
Import ListNotations.
Local Open Scope Z_scope.

(** The names in the order of a permutation. *)
Definition renamed (d0 : dist) (l : list nat) : list string := map (fun i => nth i (hyper_names d0) ""%string) l.

Lemma renamed_perm : forall d0 l, Permutation (seq 0 (List.length (hyper_names d0))) l -> Permutation (hyper_names d0) (renamed d0 l).
Proof. intros d0 l HP. apply permuted_names. exact HP. Qed.

Lemma names_nodup : forall d0, NoDup (hyper_names d0).
Proof. intros d0. destruct d0; cbn; repeat constructor; cbn; intuition discriminate. Qed.

Lemma class_pos : forall d0, incl (positive_names d0) (hyper_names d0).
Proof. intros d0 k Hk. destruct d0; cbn in *; intuition. Qed.

Lemma on_grids_good : forall d0 gs h, good_grids d0 gs -> on_grids gs (hyper_names d0) h -> good_hypers d0 h.
Proof.
  intros d0 gs h (_ & G2) (K & V). split.
  - intros k Hk. destruct (V k Hk) as (v & L & _). eauto.
  - intros k v Hk L. destruct (V k (class_pos d0 k Hk)) as (v' & L' & Hv). assert (v' = v) by congruence. subst v'. exact (G2 k v Hk Hv).
Qed.

Section Column.
Variables (ds : list dist) (d0 : dist) (rest : list dist) (gs : grids).
Hypotheses (ED : ds = d0 :: rest) (CL : forall d, In d ds -> same_class d d0 = true) (NU : forall s, d0 <> DNuc s)
  (DI : forall d, In d ds -> dinv d) (GG : good_grids d0 gs).

Lemma retuned_first : forall h, first_of (map (retune h) ds) = Ok (retune h d0).
Proof.
  intros h. apply (first_tunable _ _ (map (retune h) rest)); [rewrite ED; reflexivity|].
  intros d Hd. apply in_map_iff in Hd. destruct Hd as (d1 & <- & H1). assert (C := CL d1 H1).
  destruct (retune_class h d1) as [A _], (retune_class h d0) as [B _].
  destruct d1, d0; try discriminate C; destruct (retune h _) in A |- *; try discriminate A; destruct (retune h _) in B |- *; try discriminate B; reflexivity.
Qed.

(** One call, on the components as they are after other calls. *)
Lemma one_call : forall ds' d1 h l, Forall2 adjusted ds ds' -> first_of ds' = Ok d1 -> dist_get_hypers d1 = h ->
  keys h = hyper_names d0 -> good_hypers d0 h -> Permutation (seq 0 (List.length (hyper_names d0))) l ->
  let m := in_order l (transition_hypers ds' gs) in
  always m (fun r => exists h', r = (map (retune h') ds, Ok h') /\ on_grids gs (hyper_names d0) h') /\
  forall F, expect m F = gibbs_law (weight ds) gs (renamed d0 l) (fun h' => F (map (retune h') ds, Ok h')) h.
Proof.
  intros ds' d1 h l AD FO EH K GH HP m. subst m. unfold transition_hypers. rewrite FO, EH. cbn [in_order]. rewrite K.
  fold (renamed d0 l). assert (PN := renamed_perm d0 l HP). destruct GG as (G1 & G2).
  assert (OL : forall F, _) by (intros F; exact (order_law d0 ds gs F (renamed d0 l) ds' h AD (fun d Hd => conj (DI d Hd) (CL d Hd)) GH
    (fun k Hk => G1 k (Permutation_in k (Permutation_sym PN) Hk)) (fun k v _ Hp Hv => G2 k v Hp Hv))).
  cbn zeta in OL. split.
  - destruct (OL (fun _ => 0%R)) as (_ & A & _).
    assert (IN : incl (renamed d0 l) (keys h)) by (rewrite K; intros k Hk; apply (Permutation_in k (Permutation_sym PN) Hk)).
    assert (B := in_order_main ds' h gs (renamed d0 l) IN). eapply always_imp; [|exact (always_and _ _ _ A B)].
    cbn beta. intros r ((h' & ->) & _ & C). exists h'. split; [reflexivity|]. destruct (C h' eq_refl) as ((C1 & C2 & _) & _).
    split; [congruence|]. intros k Hk. apply C2. apply (Permutation_in k PN Hk).
  - intros F. destruct (OL F) as (_ & _ & B). exact B.
Qed.

Lemma law_of_calls : forall orders ds' d1 h f, Forall2 adjusted ds ds' -> first_of ds' = Ok d1 -> common ds' = h -> dist_get_hypers d1 = h ->
  keys h = hyper_names d0 -> good_hypers d0 h -> (forall l, In l orders -> Permutation (seq 0 (List.length (hyper_names d0))) l) ->
  expect (inferred ds' gs orders) (on_result f) = laws (weight ds) gs (map (renamed d0) orders) f h.
Proof.
  induction orders as [|l orders IH]; intros ds' d1 h f AD FO CO EH K GH HP; cbn [inferred map laws].
  - cbn [expect]. unfold on_result. cbn [snd]. rewrite CO. reflexivity.
  - rewrite expect_bind. assert (Hl := HP l (or_introl eq_refl)).
    destruct (one_call ds' d1 h l AD FO EH K GH Hl) as [_ L]. rewrite L. cbn [fst snd].
    assert (PN := renamed_perm d0 l Hl). apply (law_ext (weight ds) gs (hyper_names d0)).
    + intros k Hk. apply (Permutation_in k (Permutation_sym PN) Hk).
    + exact K.
    + intros k Hk N. exfalso. apply N. apply (Permutation_in k PN Hk).
    + intros h' Ph. assert (G' := on_grids_good d0 gs h' GG Ph).
      assert (RS := restart d0 h' NU G' (proj1 Ph)).
      apply (IH _ (retune h' d0)); auto.
      * clear. induction ds as [|d l IH]; constructor; auto. right. eauto.
      * apply retuned_first.
      * rewrite ED. exact RS.
      * apply Ph.
      * intros x Hx. apply HP. now right.
Qed.

Lemma calls_return : forall orders ds' d1 h l, Forall2 adjusted ds ds' -> first_of ds' = Ok d1 -> dist_get_hypers d1 = h ->
  keys h = hyper_names d0 -> good_hypers d0 h -> (forall x, In x (l :: orders) -> Permutation (seq 0 (List.length (hyper_names d0))) x) ->
  always (inferred ds' gs (l :: orders)) (fun r => exists h', r = (map (retune h') ds, Ok h') /\ on_grids gs (hyper_names d0) h').
Proof.
  induction orders as [|l' orders IH]; intros ds' d1 h l AD FO EH K GH HP; cbn [inferred]; apply always_bind;
  (eapply always_imp; [|apply (one_call ds' d1 h l AD FO EH K GH (HP l (or_introl eq_refl)))]);
  intros r (h' & -> & Ph); cbn [fst snd]; assert (G' := on_grids_good d0 gs h' GG Ph); assert (RS := restart d0 h' NU G' (proj1 Ph)).
  - cbn [always]. exists h'. split; [|exact Ph]. f_equal. rewrite ED. cbn [map common]. rewrite RS. reflexivity.
  - apply (IH _ (retune h' d0) h'); auto.
    + clear. induction ds as [|d x IH]; constructor; auto. right. eauto.
    + apply retuned_first.
    + apply Ph.
    + intros x Hx. apply HP. now right.
Qed.
End Column.

(** ** The theorems *)

(** However often it is called on a column of a reachable model, and whatever permutations
    are drawn, transition_hypers returns each time, and leaves a point of the grids. *)
Theorem C78_returns : forall X o ds d0 gs, grown X -> get_cgpms_by_output_index X o = Ok ds -> tunable ds d0 -> good_grids d0 gs ->
  forall l orders, (forall x, In x (l :: orders) -> Permutation (seq 0 (List.length (hyper_names d0))) x) ->
  always (inferred ds gs (l :: orders)) (fun r => exists h, r = (map (retune h) ds, Ok h) /\ on_grids gs (hyper_names d0) h) /\
  expect (inferred ds gs (l :: orders)) (on_result (fun _ => 1%R)) = 1%R.
Proof.
  intros X o ds d0 gs G E ((rest & ED) & CL & NU) GG l orders HP. assert (DI := column_dinv X (grown_wf X G) o ds E).
  assert (D0 : dinv d0) by (apply DI; rewrite ED; now left). destruct (own_hypers_good d0 D0 NU) as [GH KH].
  assert (DI' : forall d, In d ds -> dinv d) by (intros d Hd; apply DI; exact Hd). split.
  - apply (calls_return ds d0 rest gs ED CL NU DI' GG orders ds d0 (dist_get_hypers d0)); auto using adjusted_all.
    apply (first_tunable ds d0 rest ED CL).
  - rewrite (law_of_calls ds d0 rest gs ED CL NU DI' GG (l :: orders) ds d0 (dist_get_hypers d0)); auto using adjusted_all;
      [|apply (first_tunable ds d0 rest ED CL)|rewrite ED; reflexivity].
    generalize (dist_get_hypers d0). clear GH KH. set (os := l :: orders) in *. clearbody os. clear l orders.
    assert (W : forall h, (0 < weight ds h)%R) by (intros h; apply weight_pos; exact DI').
    induction os as [|x os IH]; intros h; [reflexivity|]. cbn [map laws].
    assert (PN := renamed_perm d0 x (HP x (or_introl eq_refl))).
    transitivity (gibbs_law (weight ds) gs (renamed d0 x) (fun _ => (1 + 0 * 0)%R) h).
    + assert (EQ : forall names h, gibbs_law (weight ds) gs names (laws (weight ds) gs (map (renamed d0) os) (fun _ => 1%R)) h =
        gibbs_law (weight ds) gs names (fun _ => (1 + 0 * 0)%R) h).
      { induction names as [|k ks IHn]; intros h1; cbn [gibbs_law].
        - rewrite IH by (intros y Hy; apply HP; now right). ring.
        - apply f_equal. apply map_ext. intros v. rewrite IHn. reflexivity. }
      apply EQ.
    + rewrite (law_affine (weight ds) gs (hyper_names d0) W (proj1 GG) (renamed d0 x) (fun _ => 0%R) h 1 0); [ring|].
      intros k Hk. apply (Permutation_in k (Permutation_sym PN) Hk).
Qed.
Print Assumptions C78_returns.

(** There is a factor [q] below 1, depending on the column and the grids only, such that each
    further call brings the mean of any function of the hyperparameters closer to its mean
    under the posterior over the grids by the factor [q], wherever the hyperparameters started
    and whatever permutations are drawn. *)
Theorem C78_converges : forall X o ds d0 gs, grown X -> get_cgpms_by_output_index X o = Ok ds -> tunable ds d0 -> good_grids d0 gs ->
  exists q, (0 <= q < 1)%R /\
  forall f B, (forall h, on_grids gs (hyper_names d0) h -> (Rabs (f h - grid_posterior ds gs (hyper_names d0) f) <= B)%R) ->
  forall ds' l orders, started ds d0 ds' -> (forall x, In x (l :: orders) -> Permutation (seq 0 (List.length (hyper_names d0))) x) ->
    (Rabs (expect (inferred ds' gs (l :: orders)) (on_result f) - grid_posterior ds gs (hyper_names d0) f) <= q ^ List.length orders * B)%R.
Proof.
  intros X o ds d0 gs G E ((rest & ED) & CL & NU) GG. assert (DI := column_dinv X (grown_wf X G) o ds E).
  assert (D0 : dinv d0) by (apply DI; rewrite ED; now left). destruct (own_hypers_good d0 D0 NU) as [GH KH].
  assert (DI' : forall d, In d ds -> dinv d) by (intros d Hd; apply DI; exact Hd).
  assert (W : forall h, (0 < weight ds h)%R) by (intros h; apply weight_pos; exact DI').
  destruct (sweeps_converge (weight ds) gs (hyper_names d0) (dist_get_hypers d0) W (names_nodup d0) KH (proj1 GG)) as (q & Q & C).
  exists q. split; [exact Q|]. intros f B FB ds' l orders ST HP.
  assert (PE : pi (weight ds) gs (hyper_names d0) (dist_get_hypers d0) f = grid_posterior ds gs (hyper_names d0) f).
  { unfold pi, grid_posterior. rewrite ED. reflexivity. }
  rewrite <- PE in *.
  assert (LW : exists h, keys h = hyper_names d0 /\ expect (inferred ds' gs (l :: orders)) (on_result f) =
    laws (weight ds) gs (map (renamed d0) (l :: orders)) f h).
  { destruct ST as [->|(h & K & Gh & ->)].
    - exists (dist_get_hypers d0). split; [exact KH|]. apply (law_of_calls ds d0 rest gs ED CL NU DI' GG (l :: orders) ds d0); auto using adjusted_all.
      + apply (first_tunable ds d0 rest ED CL).
      + rewrite ED. reflexivity.
    - assert (RS := restart d0 h NU Gh K). exists h. split; [exact K|].
      apply (law_of_calls ds d0 rest gs ED CL NU DI' GG (l :: orders) (map (retune h) ds) (retune h d0) h); auto.
      + clear. induction ds as [|d x IH]; constructor; auto. right. eauto.
      + eapply retuned_first; eauto.
      + rewrite ED. exact RS. }
  destruct LW as (h & K & ->). cbn [map].
  destruct (C f B FB (map (renamed d0) orders)) as [_ C2].
  { intros y Hy. apply in_map_iff in Hy. destruct Hy as (x & <- & Hx). apply renamed_perm. apply HP. now right. }
  specialize (C2 (renamed d0 l) h (renamed_perm d0 l (HP l (or_introl eq_refl))) K). rewrite map_length in C2. exact C2.
Qed.
Print Assumptions C78_converges.

(** So the mean of any function of the hyperparameters tends to its mean under the posterior as
    calls are added. *)
Theorem C78_limit : forall X o ds d0 gs, grown X -> get_cgpms_by_output_index X o = Ok ds -> tunable ds d0 -> good_grids d0 gs ->
  forall f eps, (0 < eps)%R -> exists N, forall ds' orders, started ds d0 ds' -> (N < List.length orders)%nat ->
    (forall x, In x orders -> Permutation (seq 0 (List.length (hyper_names d0))) x) ->
    (Rabs (expect (inferred ds' gs orders) (on_result f) - grid_posterior ds gs (hyper_names d0) f) < eps)%R.
Proof.
  intros X o ds d0 gs G E T GG f eps EP. destruct (C78_converges X o ds d0 gs G E T GG) as (q & (Q0 & Q1) & C).
  destruct T as ((rest & ED) & CL & NU). assert (DI := column_dinv X (grown_wf X G) o ds E).
  assert (D0 : dinv d0) by (apply DI; rewrite ED; now left). destruct (own_hypers_good d0 D0 NU) as [GH KH].
  destruct (bounded gs (hyper_names d0) (dist_get_hypers d0) (names_nodup d0) KH
    (fun h => (f h - grid_posterior ds gs (hyper_names d0) f)%R)) as (B & B0 & FB).
  destruct (pow_lt_1_zero q ltac:(rewrite Rabs_right; lra) (eps / (B + 1))) as (N & HN).
  { apply Rdiv_lt_0_compat; lra. }
  exists N. intros ds' [|l orders] ST LE HP; [cbn in LE; lia|]. apply Rle_lt_trans with (1 := C f B FB ds' l orders ST HP).
  assert (X1 := HN (List.length orders) ltac:(cbn in LE; lia)). assert (Y := pow_le q (List.length orders) Q0). rewrite Rabs_right in X1 by lra.
  apply Rle_lt_trans with (q ^ List.length orders * (B + 1))%R; [apply Rmult_le_compat_l; lra|].
  apply (Rmult_lt_compat_r (B + 1)) in X1; [|lra]. unfold Rdiv in X1. rewrite Rmult_assoc, Rinv_l, Rmult_1_r in X1 by lra. exact X1.
Qed.
Print Assumptions C78_limit.

(** ** Worked case *)

(** The Bernoulli column of the demonstration view, which has two hyperparameters: its
    components with values set that are not on the grids. *)
Definition ber_column : list dist := match get_cgpms_by_output_index demo_view 2 with Ok ds => ds | Err _ => [] end.
Definition ber_first : dist := hd ber2 ber_column.
Definition ber_grids : grids := [("alpha"%string, [half; 1%Qc]); ("beta"%string, [1%Qc; qz 3])].
Definition ber_far : hypers := [("alpha"%string, qz 7); ("beta"%string, qz 7)].

Example C78_converges_case : grown demo_view /\ get_cgpms_by_output_index demo_view 2 = Ok ber_column /\
  map (fun d => List.length (dist_data d)) ber_column = [1; 1; 0]%nat /\
  tunable ber_column ber_first /\ good_grids ber_first ber_grids /\ hyper_names ber_first = ["alpha"; "beta"]%string /\
  started ber_column ber_first (map (retune ber_far) ber_column) /\ ~ on_grids ber_grids (hyper_names ber_first) ber_far /\
  on_grids ber_grids (hyper_names ber_first) [("alpha"%string, half); ("beta"%string, qz 3)] /\
  Permutation (seq 0 (List.length (hyper_names ber_first))) [1; 0]%nat.
Proof.
  assert (HN : hyper_names ber_first = ["alpha"; "beta"]%string) by (vm_compute; reflexivity).
  assert (PN : positive_names ber_first = ["alpha"; "beta"]%string) by (vm_compute; reflexivity).
  split; [exact (creachable_grown _ (proj1 demo_view_reachable))|]. split; [vm_compute; reflexivity|]. split; [vm_compute; reflexivity|].
  split; [|split; [|split; [exact HN|split; [|rewrite HN; split; [|split]]]]].
  - split; [eexists; vm_compute; reflexivity|]. split.
    + intros d Hd. assert (X : forallb (fun d => same_class d ber_first) ber_column = true) by (vm_compute; reflexivity).
      rewrite forallb_forall in X. exact (X d Hd).
    + intros s. vm_compute. discriminate.
  - split; [rewrite HN|rewrite PN].
    + intros k [<-|[<-|[]]]; vm_compute; discriminate.
    + intros k v [<-|[<-|[]]] Hv; unfold grid_of, ber_grids in Hv; cbn in Hv; destruct Hv as [<-|[<-|[]]]; try exact half_pos; try exact one_pos.
      rewrite qr_qz. lra.
  - right. exists ber_far. split; [rewrite HN; reflexivity|]. split; [|reflexivity]. split; [rewrite HN|rewrite PN].
    + intros k [<-|[<-|[]]]; eexists; reflexivity.
    + intros k v [<-|[<-|[]]] L; cbn in L; injection L as <-; rewrite qr_qz; lra.
  - intros (_ & V). destruct (V "alpha"%string (or_introl eq_refl)) as (v & L & Hv). cbn in L. injection L as <-.
    unfold grid_of, ber_grids in Hv. cbn in Hv. destruct Hv as [Hv|[Hv|[]]]; vm_compute in Hv; discriminate Hv.
  - split; [reflexivity|]. intros k [<-|[<-|[]]]; eexists; (split; [reflexivity|]); unfold grid_of, ber_grids; cbn; auto.
  - apply perm_swap.
Qed.
