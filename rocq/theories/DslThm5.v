(** Random ASTs. *)
From Coq Require Import List ZArith QArith Qcanon Reals Bool String Ascii Permutation Sorted Lia Lra.
From Verif Require Import Base Xr Samp Lgamma Prims Cgpm Lib SpecPrims PrimsInv PrimsDens PrimsThm PrimsThm2
  SpecComp CompInv CompDens CompThm SpecSim SimShape SpecBook Book SpecTable Trans SpecHist Table Gibbs Hist Walks SpecWalks WalksThm Views SpecViews ViewsThm
  Crosscat Sample SpecSample SampleThm SampleThm2 SampleThm3 Dsl SpecDsl DslThm DslThm2 DslThm3 DslThm4.
Import ListNotations.
Local Open Scope string_scope.
Local Open Scope Z_scope.

Lemma then_always : forall {A B} (m : samp (out A)) (k : A -> samp (out B)) (Q : A -> Prop) (P : out B -> Prop),
  always m (fun r => exists a, r = Ok a /\ Q a) -> (forall a, Q a -> always (k a) P) -> always (sobind m k) P.
Proof. intros A B m k Q P M K. unfold sobind. apply always_bind. eapply always_imp; [|exact M]. intros r (a & -> & Qa). now apply K. Qed.

Lemma round6_nonneg : forall q, (0 < qr q)%R -> (0 <= qr (round6 q))%R.
Proof.
  intros q Q. unfold round6. rewrite qr_parts in Q.
  assert (N : 0 <= Qnum (this q)).
  { destruct (Z_lt_le_dec (Qnum (this q)) 0) as [L|L]; [|exact L]. exfalso. apply IZR_lt in L.
    assert (D : (0 < IZR (Zpos (Qden (this q))))%R) by (apply IZR_lt; lia).
    assert (X : (IZR (Qnum (this q)) / IZR (Zpos (Qden (this q))) <= 0)%R).
    { apply Rinv_0_lt_compat in D. unfold Rdiv. nra. }
    lra. }
  assert (Z0 : qz 1000000 <> 0%Qc).
  { intros X. apply (f_equal qr) in X. rewrite qr_qz, qr_0 in X. lra. }
  rewrite qr_div by exact Z0. rewrite !qr_qz. apply Rmult_le_pos; [|lra]. apply IZR_le. apply Z.div_pos; lia.
Qed.

Lemma sample_hypers_ok : forall names, always (sample_hyperparameters names) (fun h => keys h = names /\ forall k q, In (k, q) h -> (0 <= qr q)%R).
Proof.
  induction names as [|k names IH]; [split; [reflexivity|intros ? ? []]|].
  cbn [sample_hyperparameters]. apply always_bind. unfold sample_hyperparameter. cbn. intros q Q.
  apply always_bind. eapply always_imp; [|exact IH]. intros h [E F]. cbn. split; [now f_equal|].
  intros k' q' [X|X]; [injection X as <- <-; now apply round6_nonneg|eauto].
Qed.

Lemma always_smap : forall {A B} (f : A -> B) m P, always m (fun a => P (f a)) -> always (smap f m) P.
Proof. intros A B f m P M. unfold smap. apply always_bind. exact M. Qed.

Lemma random_hypers_ok : forall name, In name ["normal"; "categorical"; "poisson"; "crp"] ->
  always (generate_random_hyperparameters name) (fun r => exists h, r = Ok h /\ keys h = hyper_names name /\ forall k q, In (k, q) h -> (0 <= qr q)%R).
Proof.
  intros name N. cbn in N. unfold generate_random_hyperparameters.
  destruct N as [<-|[<-|[<-|[<-|[]]]]]; cbn [String.eqb Ascii.eqb Bool.eqb]; apply always_smap;
    (eapply always_imp; [|apply sample_hypers_ok]); intros h [E F]; exists h; auto.
Qed.

Lemma row_dividers_ok : forall n fresh, fresh + Z.of_nat n <= 1000000 ->
  always (generate_row_dividers fresh n) (fun r => exists ds, r = Ok ds /\
    map ast_output ds = map (fun i => fresh + Z.of_nat i) (seq 0 n) /\
    forall d, In d ds -> ast_name d = "crp" /\ ast_distargs d = None /\ drawn_hypers d).
Proof.
  induction n as [|n IH]; intros fresh L; [exists []; split; [reflexivity|split; [reflexivity|intros ? []]]|].
  cbn [generate_row_dividers]. apply then_always with (Q := fun d => ast_output d = fresh /\ ast_name d = "crp" /\ ast_distargs d = None /\ drawn_hypers d).
  - unfold generate_random_row_divider. rewrite (proj2 (Z.leb_gt 1000000 fresh)) by lia.
    eapply then_always; [apply random_hypers_ok; cbn; tauto|]. intros h (E & F). cbn.
    eexists. split; [reflexivity|]. repeat split. exists h. auto.
  - intros d (O & Nm & Ar & Hy). eapply then_always; [apply (IH (fresh + 1)); lia|]. intros ds (E & F). cbn.
    eexists. split; [reflexivity|]. split.
    + cbn [map seq]. rewrite O, E. f_equal; [lia|]. rewrite <- seq_shift, map_map. apply map_ext. intros i. lia.
    + intros d' [<-|D']; auto.
Qed.

Lemma primitives_ok : forall dists output, Forall known_distribution dists ->
  always (generate_primitives output dists) (fun r => exists ps, r = Ok ps /\
    Forall2 (fun d p => ast_name p = fst d /\ ast_distargs p = snd d /\ drawn_hypers p) dists ps /\
    map ast_output ps = map (fun i => output + Z.of_nat i) (seq 0 (List.length dists))).
Proof.
  induction dists as [|d dists IH]; intros output K; [exists []; repeat split; constructor|]. inversion K as [|? ? Kd Ks]; subst.
  cbn [generate_primitives]. eapply then_always; [apply random_hypers_ok, Kd|]. intros h (E & F).
  eapply then_always; [apply (IH (output + 1) Ks)|]. intros ps (G & O). cbn.
  eexists. split; [reflexivity|]. split.
  - constructor; [|exact G]. repeat split. exists h. auto.
  - cbn [map]. rewrite O. f_equal; [cbn; lia|]. rewrite <- seq_shift, map_map. apply map_ext. intros i. lia.
Qed.

Lemma random_ast_ok : forall fresh dists, Forall known_distribution dists -> fresh + Z.of_nat (List.length dists) <= 1000000 ->
  always (generate_random_ast fresh dists) (fun r => exists ast, r = Ok ast /\ random_ast fresh dists ast).
Proof.
  intros fresh dists K L. unfold generate_random_ast. cbn [always]. intros alpha A. cbn [law_ok] in A.
  eapply then_always; [apply partition_total, A|]. intros p (PP & BA).
  assert (LE : (List.length p <= List.length dists)%nat).
  { destruct PP as (NE & ND & M).
    assert (X : (List.length (List.concat p) <= List.length dists)%nat).
    { rewrite <- (seq_length (List.length dists) 0), <- (map_length Z.of_nat). apply NoDup_incl_length; [exact ND|].
      intros z Hz. apply M in Hz. apply in_map_iff. exists (Z.to_nat z). split; [lia|]. apply in_seq. lia. }
    assert (Y : (List.length p <= List.length (List.concat p))%nat); [|lia].
    clear - NE. induction p as [|b p IH]; [cbn; lia|]. cbn [List.concat]. rewrite app_length. cbn [List.length].
    assert (b <> []) by (apply NE; now left). destruct b; [congruence|]. cbn [List.length].
    assert (List.length p <= List.length (List.concat p))%nat by (apply IH; intros; apply NE; now right). lia. }
  eapply then_always; [apply (row_dividers_ok (List.length p) fresh); lia|]. intros ds (EO & DD).
  eapply then_always; [apply (primitives_ok dists 0 K)|]. intros ps (FP & OP). cbn [always].
  assert (LD : List.length ds = List.length p).
  { apply (f_equal (@List.length Z)) in EO. rewrite !map_length, seq_length in EO. exact EO. }
  assert (LP : List.length ps = List.length dists) by (clear - FP; induction FP; cbn; congruence).
  assert (AT : forall z, 0 <= z < Z.of_nat (List.length dists) -> exists q, primitive_at ps z = Ok q /\ ast_output q = z /\
     nth_error dists (Z.to_nat z) = Some (ast_name q, ast_distargs q) /\ drawn_hypers q).
  { intros z Hz. unfold primitive_at. destruct (nth_error ps (Z.to_nat z)) as [q|] eqn:E.
    2: { apply nth_error_None in E. lia. }
    exists q. split; [reflexivity|]. split.
    - apply (map_nth_error ast_output) in E. rewrite OP in E.
      assert (X : nth_error (seq 0 (List.length dists)) (Z.to_nat z) = Some (Z.to_nat z)).
      { rewrite nth_error_nth' with (d := O); [|rewrite seq_length; lia]. rewrite seq_nth by lia. reflexivity. }
      rewrite (map_nth_error _ _ _ X) in E. injection E as E. lia.
    - clear - FP E. revert E. generalize (Z.to_nat z). induction FP as [|d p dists ps (A & B & C) F IH]; intros n E; [destruct n; discriminate|].
      destruct n as [|n]; [injection E as <-; cbn; rewrite A, B; destruct d; auto|]. now apply IH. }
  assert (BL : forall b, In b p -> exists qs, oseq (map (primitive_at ps) b) = Ok qs /\ map ast_output qs = b /\
     forall q, In q qs -> nth_error dists (Z.to_nat (ast_output q)) = Some (ast_name q, ast_distargs q) /\ drawn_hypers q).
  { intros b Hb. assert (R : forall z, In z b -> 0 <= z < Z.of_nat (List.length dists)).
    { intros z Hz. apply PP. apply in_concat. eauto. }
    clear - R AT. induction b as [|z b IH]; [exists []; split; [reflexivity|split; [reflexivity|intros ? []]]|].
    destruct (AT z (R z (or_introl eq_refl))) as (q & E & O & N & D). destruct IH as (qs & E' & O' & F); [intros; apply R; now right|].
    exists (q :: qs). split; [cbn [map oseq]; rewrite E, E'; reflexivity|]. split; [cbn; congruence|].
    intros q' [<-|Q']; [rewrite O; auto|now apply F]. }
  assert (AS : exists ast, oseq (map (fun p0 : ast_primitive * list Z => do ds0 <- oseq (map (primitive_at ps) (snd p0)); Ok (fst p0, ds0)) (combine ds p)) = Ok ast /\
     map (fun v : ast_view => map ast_output (snd v)) ast = p /\ map fst ast = ds /\
     forall v q, In v ast -> In q (snd v) -> nth_error dists (Z.to_nat (ast_output q)) = Some (ast_name q, ast_distargs q) /\ drawn_hypers q).
  { clear - BL LD. revert ds LD. induction p as [|b p IH]; intros [|d ds] LD; try discriminate.
    - exists []. split; [reflexivity|split; [reflexivity|split; [reflexivity|intros ? ? []]]].
    - destruct (BL b (or_introl eq_refl)) as (qs & E & O & F).
      destruct (IH (fun b' B' => BL b' (or_intror B')) ds) as (ast & E' & O' & D' & F'); [now injection LD|].
      exists ((d, qs) :: ast). split; [cbn [combine map oseq fst snd]; rewrite E; cbn [obind]; rewrite E'; reflexivity|].
      split; [cbn [map snd]; congruence|]. split; [cbn; congruence|].
      intros v q [<-|V] Q; [now apply F|eapply F'; eassumption]. }
  destruct AS as (ast & E & O & D & F). exists ast. split; [exact E|]. unfold random_ast. rewrite O.
  split; [exact PP|]. split; [exact BA|]. split; [|split; [|exact F]].
  - assert (LA : List.length ast = List.length p) by (rewrite <- O, map_length; reflexivity).
    transitivity (map ast_output ds); [rewrite <- D, map_map; reflexivity|]. rewrite EO. do 2 f_equal. symmetry. exact LA.
  - intros v V. apply DD. rewrite <- D. now apply in_map.
Qed.

Lemma keys_perm : forall (h : dict string Qc) k, keys h = [k] -> exists q, h = [(k, q)].
Proof. intros [|[k' q] [|? ?]] k E; try discriminate. injection E as ->. now exists q. Qed.

(** A random AST without very small hyperparameters can be built. *)
Lemma random_ast_describes : forall fresh dists ast, Forall column_distribution dists -> dists <> [] ->
  Z.of_nat (List.length dists) <= fresh -> random_ast fresh dists ast ->
  (forall v p h k q, In v ast -> In p (fst v :: snd v) -> ast_hypers p = Some h -> In (k, q) h -> k <> "m" -> visible q) ->
  describes_model ast.
Proof.
  intros fresh dists ast C NE L (PP & BA & RD & RV & PR) V. split; [|split].
  - intros ->. destruct PP as (_ & _ & M). destruct dists; [congruence|]. apply (proj2 (M 0)). cbn [List.length]. lia.
  - rewrite flat_map_concat_map, concat_map, map_map.
    apply (Permutation_NoDup (l := map (fun v : ast_view => ast_output (fst v)) ast ++ List.concat (map (fun v : ast_view => map ast_output (snd v)) ast))).
    + clear. induction ast as [|v ast IH]; [constructor|]. cbn [map List.concat app].
      apply perm_skip. rewrite app_assoc. eapply Permutation_trans; [|apply Permutation_app_head, IH]. rewrite !app_assoc. apply Permutation_app_tail, Permutation_app_comm.
    + destruct PP as (_ & ND & M). rewrite RD.
      assert (NDs : forall n i, NoDup (map (fun i => fresh + Z.of_nat i) (seq i n))).
      { induction n as [|n IH]; intros i; [constructor|]. cbn. constructor; [|apply IH].
        intros X. apply in_map_iff in X as (j & X & Hj). apply in_seq in Hj. lia. }
      assert (DJ : forall z, In z (map (fun i => fresh + Z.of_nat i) (seq 0 (List.length ast))) -> In z (List.concat (map (fun v : ast_view => map ast_output (snd v)) ast)) -> False).
      { intros z Z1 Z2. apply M in Z2. apply in_map_iff in Z1 as (j & <- & _). lia. }
      revert DJ. generalize (NDs (List.length ast) O). generalize (map (fun i => fresh + Z.of_nat i) (seq 0 (List.length ast))).
      intros l NDl DJ. induction l as [|a l IH]; [exact ND|]. inversion NDl as [|? ? NI NDl']; subst. cbn. constructor.
      * rewrite in_app_iff. intros [X|X]; [contradiction|]. apply (DJ a); [now left|exact X].
      * apply IH; auto. intros z Z1 Z2. apply (DJ z); [now right|exact Z2].
  - intros v Hv. destruct (RV v Hv) as (N & AR & h & EH & K & P0). split.
    { rewrite N in K. destruct (keys_perm h "alpha" K) as [q ->]. exists q. split; [exact N|]. split; [now left|]. split; [exact EH|].
      eapply (V v (fst v)); [exact Hv|now left|exact EH|now left|discriminate]. }
    split.
    { intros X. destruct PP as (NB & _). apply (NB (map ast_output (snd v))); [|now rewrite X]. now apply in_map with (f := fun v : ast_view => map ast_output (snd v)). }
    intros p Hp. destruct (PR v p Hv Hp) as (NT & h' & EH' & K' & P').
    assert (Vp : forall k q, In (k, q) h' -> k <> "m" -> visible q) by (intros; eapply (V v p); eauto; now right).
    apply nth_error_In in NT. rewrite Forall_forall in C. specialize (C _ NT). unfold column_distribution in C. cbn [fst snd] in C.
    destruct C as [(Nc & n & Pn & Ec)|(Nc & NA)].
    + rewrite Nc in K'. destruct (keys_perm h' "alpha" K') as [q ->]. exists (KCategory n).
      apply (describes_categorical p n q); auto. apply (Vp "alpha"); [now left|discriminate].
    + destruct Nc as [Nc|[Nc|[]]]; symmetry in Nc; rewrite Nc in K'.
      * destruct h' as [|[k1 q1] [|[k2 q2] [|[k3 q3] [|[k4 q4] [|? ?]]]]]; try discriminate K'. injection K' as -> -> -> ->.
        exists (KReal true). eapply describes_normal; [exact Nc|exact NA|exact EH'|apply Permutation_refl| | |].
        -- apply (Vp "r"); [right; now left|discriminate].
        -- apply (Vp "s"); [do 2 right; now left|discriminate].
        -- apply (Vp "nu"); [do 3 right; now left|discriminate].
      * destruct h' as [|[k1 q1] [|[k2 q2] [|? ?]]]; try discriminate K'. injection K' as -> ->.
        exists KCount. eapply describes_poisson; [exact Nc|exact NA|exact EH'|apply Permutation_refl| |].
        -- apply (Vp "a"); [now left|discriminate].
        -- apply (Vp "b"); [right; now left|discriminate].
Qed.
