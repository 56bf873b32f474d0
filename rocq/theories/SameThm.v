(** Views with the same table and settings answer alike. *)
From Coq Require Import List ZArith QArith Qcanon Reals Bool String Permutation Lia Lra FunctionalExtensionality.
From Verif Require Import Base Xr Samp Lgamma Prims Cgpm Lib SpecPrims PrimsInv PrimsDens PrimsThm PrimsThm2
  SpecComp CompInv CompDens CompThm SpecBook Book SpecTable Trans SpecHist Table Gibbs Hist SpecSame.
Import ListNotations.
Local Open Scope Z_scope.

(** ** Primitives *)

Definition agree (d d' : dist) : Prop := dist_o d' = dist_o d /\ same_answers d d'.

Lemma settings_o : forall d d', settings d' = settings d -> dist_o d' = dist_o d.
Proof. intros d d' E. destruct d, d'; cbn [settings dist_o] in *; try discriminate; injection E; auto. Qed.

Lemma NoDup_pairs : forall {K V} (d : dict K V), NoDup (keys d) -> NoDup d.
Proof.
  intros K V d. induction d as [|[k v] d IH]; intros N; [constructor|]. cbn in N. inversion N; subst. constructor; [|auto].
  intros J. apply H1. apply in_map_iff. exists (k, v). auto.
Qed.

Lemma lookup_permutation : forall {K V} `{EqDec K} (a b : dict K V), NoDup (keys a) -> NoDup (keys b) ->
  (forall k, lookup k b = lookup k a) -> Permutation a b.
Proof.
  intros K V E a b NA NB L. apply NoDup_Permutation; [apply NoDup_pairs; exact NA|apply NoDup_pairs; exact NB|].
  intros [k v]. split; intros J; apply lookup_In; [rewrite L|rewrite <- L]; apply In_lookup; assumption.
Qed.

Lemma agree_data : forall d d', dinv d -> dinv d' -> settings d' = settings d ->
  (forall r, lookup r (dist_data d') = lookup r (dist_data d)) -> agree d d'.
Proof.
  intros d d' D D' SE L. split; [apply settings_o; exact SE|].
  apply (exchangeable d d' D D' (eq_sym SE)). apply lookup_permutation; [apply D|apply D'|exact L].
Qed.

Lemma agree_logpdf : forall d d', agree d d' -> dist_logpdf d' = dist_logpdf d.
Proof. intros d d' (_ & A & _). extensionality rid. extensionality T. extensionality C. extensionality ins. symmetry. apply A. Qed.

Lemma agree_simulate : forall d d', agree d d' -> dist_simulate d' = dist_simulate d.
Proof. intros d d' (_ & _ & A & _). extensionality rid. extensionality ts. extensionality C. extensionality ins. extensionality N. symmetry. apply A. Qed.

Lemma agree_support : forall d d', agree d d' -> dist_support d' = dist_support d.
Proof. intros d d' (_ & _ & _ & _ & A & _). symmetry. exact A. Qed.

Lemma agree_score : forall d d', agree d d' -> prim_score d' = prim_score d.
Proof. intros d d' (_ & _ & _ & A & _). unfold prim_score. rewrite A. reflexivity. Qed.

(** ** Components *)

Lemma agree_prods : forall ds ds', Forall2 agree ds ds' ->
  outputs (CProd (map CDist ds')) = outputs (CProd (map CDist ds)) /\
  logpdf (CProd (map CDist ds')) = logpdf (CProd (map CDist ds)) /\
  simulate (CProd (map CDist ds')) = simulate (CProd (map CDist ds)) /\
  total_score (CProd (map CDist ds')) = total_score (CProd (map CDist ds)).
Proof.
  intros ds ds' F. split; [|split; [|split]].
  - cbn [outputs]. induction F as [|d d' l l' A F IH]; [reflexivity|]. cbn [map flat_map outputs]. destruct A as [-> _]. f_equal. exact IH.
  - cbn [logpdf]. f_equal. rewrite !map_map. cbn [outputs inputs logpdf]. induction F as [|d d' l l' A F IH]; [reflexivity|]. cbn [map].
    rewrite (agree_logpdf d d' A), (proj1 A). f_equal. exact IH.
  - cbn [simulate]. f_equal. rewrite !map_map. cbn [outputs inputs simulate]. induction F as [|d d' l l' A F IH]; [reflexivity|]. cbn [map].
    rewrite (agree_simulate d d' A), (proj1 A). f_equal. exact IH.
  - cbn [total_score]. f_equal. rewrite !map_map. cbn [total_score]. induction F as [|d d' l l' A F IH]; [reflexivity|]. cbn [map].
    rewrite (agree_score d d' A). f_equal. exact IH.
Qed.

(** ** Mixtures *)

Lemma mix_logpdf_alike : forall div div' ox r2c r2c' farr, agree div div' -> (forall r, lookup r r2c' = lookup r r2c) ->
  mix_logpdf div' ox r2c' farr = mix_logpdf div ox r2c farr.
Proof.
  intros div div' ox r2c r2c' farr A L. extensionality rid. extensionality T. extensionality C. extensionality ins.
  unfold mix_logpdf, mix_logpdf0, mix_logpdf_z0, mix_logpdf_marg. rewrite (proj1 A), (agree_logpdf _ _ A), (agree_support _ _ A).
  destruct rid as [r|]; [rewrite L|]; reflexivity.
Qed.

Lemma mix_simulate_alike : forall div div' ox r2c r2c' farr sarr, agree div div' -> (forall r, lookup r r2c' = lookup r r2c) ->
  mix_simulate div' ox r2c' farr sarr = mix_simulate div ox r2c farr sarr.
Proof.
  intros div div' ox r2c r2c' farr sarr A L. extensionality rid. extensionality ts. extensionality C. extensionality ins. extensionality N.
  unfold mix_simulate. rewrite (mix_logpdf_alike div div' ox r2c r2c' farr A L). rewrite (proj1 A), (agree_support _ _ A).
  destruct rid as [r|]; [rewrite L|]; reflexivity.
Qed.

(** ** Views *)

Lemma read_component : forall {A} (g : cgpm -> A) ix b (cs : dict val cgpm) r2i i,
  match lookup i (map (fun p => let '(k, c) := p in (k, g c)) cs) with Some f => f | None => g b end = g (component_at (CFlexArr ix b cs r2i) i).
Proof.
  intros A g ix b cs r2i i. cbn [component_at]. induction cs as [|[k c] cs IH]; [reflexivity|]. cbn [map lookup].
  destruct (eq_dec i k); [reflexivity|exact IH].
Qed.

Definition parts_agree (bs bs' : list dist) (cs cs' : dict val cgpm) : Prop :=
  forall k, Forall2 agree (cols bs cs k) (cols bs' cs' k).

Lemma map_F2 : forall {A B} (f : A -> B) l l', map f l' = map f l -> Forall2 (fun x y => f y = f x) l l'.
Proof.
  intros A B f l. induction l as [|a l IH]; intros [|b l'] E; try discriminate; [constructor|]. injection E as E1 E2. constructor; auto.
Qed.

Lemma column_lookup : forall ds d r, NoDup (map dist_o ds) -> In d ds -> in_column ds r (dist_o d) = lookup r (dist_data d).
Proof.
  intros ds d r. unfold in_column. induction ds as [|d0 ds IH]; [intros _ []|]. cbn [map find]. intros ND H. inversion ND as [|? ? NI ND']; subst.
  destruct H as [->|H]; [rewrite Z.eqb_refl; reflexivity|].
  destruct (Z.eqb_spec (dist_o d0) (dist_o d)) as [E|NE]; [|auto]. exfalso. apply NI. rewrite E. apply in_map. exact H.
Qed.

Lemma same_parts : forall s bs cs r2i r2c s' bs' cs' r2i' r2c',
  let m := mkview s bs cs r2i r2c in let m' := mkview s' bs' cs' r2i' r2c' in
  wf m -> wf m' -> sheet m -> sheet m' -> consistent m -> consistent m' -> same_rows m m' -> same_settings m m' ->
  agree (DCrp s) (DCrp s') /\ (forall r, lookup r r2c' = lookup r r2c) /\ parts_agree bs bs' cs cs'.
Proof.
  intros s bs cs r2i r2c s' bs' cs' r2i' r2c' m m' W W' S S' K K' [SR CR] [SD SC].
  apply sheet_shaped in S, S'. assert (S0 := S). assert (S0' := S'). destruct S as (NB & B & C), S' as (NB' & B' & C').
  apply (consistent_parts s bs cs r2i r2c S0) in K. apply (consistent_parts s' bs' cs' r2i' r2c' S0') in K'.
  destruct (view_parts _ _ _ _ _ W) as (D & Db & NDb & NI & NDk & Dc). destruct (view_parts _ _ _ _ _ W') as (D' & Db' & NDb' & NI' & NDk' & Dc').
  assert (L : forall r, lookup r r2c' = lookup r r2c) by exact SR.
  split; [|split; [exact L|]].
  - apply agree_data; [exact D|exact D'|exact SD|]. intros r. destruct K as (_ & _ & A & _), K' as (_ & _ & A' & _). rewrite A, A'. apply L.
  - intros k. specialize (SC k). rewrite (component_cols _ _ _ _ k C), (component_cols _ _ _ _ k C'), !leaves_prod in SC.
    destruct (cols_good s bs cs r2i r2c W B C k) as (G & GN & GO). destruct (cols_good s' bs' cs' r2i' r2c' W' B' C' k) as (G' & GN' & GO').
    assert (LK : forall d d', In d (cols bs cs k) -> In d' (cols bs' cs' k) -> dist_o d' = dist_o d -> forall r, lookup r (dist_data d') = lookup r (dist_data d)).
    { intros d d' Hd Hd' EO r. rewrite <- (column_lookup _ d r GN Hd), <- (column_lookup _ d' r GN' Hd'), EO.
      assert (DD : {lookup r r2c = Some k} + {lookup r r2c <> Some k}).
      { destruct (lookup r r2c) as [v|]; [destruct (eq_dec v k); [left|right]; congruence|right; discriminate]. }
      destruct DD as [E|NE].
      - assert (X := CR r (dist_o d)). rewrite (cell_parts s bs cs r2i r2c r _ S0), (cell_parts s' bs' cs' r2i' r2c' r _ S0'), L, E in X. apply X.
        unfold m, mkview. cbn [columns_of outputs]. change (flat_map outputs (map CDist bs)) with (outputs (CProd (map CDist bs))).
        rewrite outputs_prod, <- GO. apply in_map. exact Hd.
      - rewrite (in_column_unseated s bs cs r2i r2c k r _ K NE). apply (in_column_unseated s' bs' cs' r2i' r2c' k r _ K'). rewrite L. exact NE. }
    apply map_F2 in SC. revert LK. revert G G'. clear - SC. induction SC as [|d d' l l' E F IH]; intros G G' LK; constructor.
    + apply agree_data; [apply G; now left|apply G'; now left|exact E|]. apply LK; [now left|now left|apply settings_o; exact E].
    + apply IH; intros; [apply G; now right|apply G'; now right|apply LK; (now right) || assumption].
Qed.

Lemma rsum_filter_zero : forall {A} (f : A -> R) (P : A -> bool) l, (forall a, In a l -> P a = false -> f a = 0%R) ->
  rsum (map f l) = rsum (map f (filter P l)).
Proof.
  intros A f P l. induction l as [|a l IH]; intros H; [reflexivity|]. cbn [map filter]. change (rsum (?x :: ?y)) with (x + rsum y)%R.
  rewrite IH by (intros; apply H; [now right|assumption]). destruct (P a) eqn:E; [reflexivity|]. rewrite (H a (or_introl eq_refl) E). lra.
Qed.

Lemma rsum_perm' : forall l l', Permutation l l' -> rsum l = rsum l'.
Proof.
  intros l l' P. induction P; [reflexivity| | |congruence]; cbn [map]; repeat change (rsum (?x :: ?y)) with (x + rsum y)%R; lra.
Qed.

(** A sum over two lists of keys is the same if the terms vanish where one has not got the key. *)
Lemma rsum_keys : forall {A} `{EqDec A} (f : A -> R) l l', NoDup l -> NoDup l' ->
  (forall a, In a l -> ~ In a l' -> f a = 0%R) -> (forall a, In a l' -> ~ In a l -> f a = 0%R) -> rsum (map f l) = rsum (map f l').
Proof.
  intros A E f l l' N N' Z Z'. rewrite (rsum_filter_zero f (fun a => memb a l') l), (rsum_filter_zero f (fun a => memb a l) l').
  - apply rsum_perm', Permutation_map, NoDup_Permutation; [now apply NoDup_filter|now apply NoDup_filter|].
    intros a. rewrite !filter_In, !memb_In. tauto.
  - intros a Ha M. apply Z'; [exact Ha|]. intros J. apply memb_In in J. congruence.
  - intros a Ha M. apply Z; [exact Ha|]. intros J. apply memb_In in J. congruence.
Qed.

Lemma empty_prods : forall ds, (forall d, In d ds -> dinv d /\ dist_data d = []) -> total_score (CProd (map CDist ds)) = 0%R.
Proof.
  intros ds. cbn [total_score]. rewrite map_map. cbn [total_score]. induction ds as [|d ds IH]; intros H; [reflexivity|]. cbn [map].
  change (rsum (?x :: ?y)) with (x + rsum y)%R. rewrite IH by (intros; apply H; now right). destruct (H d (or_introl eq_refl)) as [D E].
  rewrite (prim_score_vacant d D E). lra.
Qed.

Lemma view_score_keys : forall s bs cs r2i r2c, wf (mkview s bs cs r2i r2c) -> shaped bs cs ->
  total_score (mkview s bs cs r2i r2c) = (prim_score (DCrp s) + rsum (map (fun k => total_score (CProd (map CDist (cols bs cs k)))) (keys cs)))%R.
Proof.
  intros s bs cs r2i r2c W (_ & _ & C). destruct (view_parts _ _ _ _ _ W) as (_ & _ & _ & _ & ND & _).
  unfold mkview. cbn [total_score]. f_equal. f_equal. unfold keys. rewrite map_map. apply map_ext_in. intros [k c] H. cbn [fst].
  destruct (C k c H) as (ds & -> & _). unfold cols. rewrite (In_lookup cs k _ ND H). rewrite leaves_prod. reflexivity.
Qed.

Lemma view_flexible : forall s bs cs r2i r2c, shaped bs cs -> flexible (mkview s bs cs r2i r2c).
Proof.
  intros s bs cs r2i r2c (_ & _ & C). assert (X : forall ds, flexible (CProd (map CDist ds))).
  { intros ds. cbn [flexible]. apply each_In. intros c H. apply in_map_iff in H. destruct H as (d & <- & _). exact Logic.I. }
  split; [apply X|]. apply each_In. intros [k c] H. destruct (C k c H) as (ds & -> & _). apply X.
Qed.

Theorem views_alike : forall m m', wf m -> wf m' -> sheet m -> sheet m' -> consistent m -> consistent m' ->
  same_rows m m' -> same_settings m m' -> outputs m' = outputs m /\ answer_alike m m'.
Proof.
  intros m m' W W' S S' K K' SR SS.
  destruct (sheet_inv m S) as (s & bs & cs & r2i & r2c & -> & _). destruct (sheet_inv m' S') as (s' & bs' & cs' & r2i' & r2c' & -> & _).
  destruct (same_parts s bs cs r2i r2c s' bs' cs' r2i' r2c' W W' S S' K K' SR SS) as (AD & L & PA).
  apply sheet_shaped in S, S'. assert (C := proj2 (proj2 S)). assert (C' := proj2 (proj2 S')).
  assert (EO : crp_o s' = crp_o s) by exact (proj1 AD).
  assert (CO : forall k, component_at (CFlexArr (crp_o s) (CProd (map CDist bs)) cs r2i) k = CProd (map CDist (cols bs cs k))) by (intros; apply component_cols; exact C).
  assert (CO' : forall k, component_at (CFlexArr (crp_o s') (CProd (map CDist bs')) cs' r2i') k = CProd (map CDist (cols bs' cs' k))) by (intros; apply component_cols; exact C').
  assert (OU : outputs (CProd (map CDist bs')) = outputs (CProd (map CDist bs))).
  { assert (X := cols_good s bs cs r2i r2c W (proj1 (proj2 S)) C (vz 0)). assert (X' := cols_good s' bs' cs' r2i' r2c' W' (proj1 (proj2 S')) C' (vz 0)).
    rewrite !outputs_prod. rewrite <- (proj2 (proj2 X)), <- (proj2 (proj2 X')), <- !outputs_prod. apply agree_prods. apply PA. }
  assert (LA : logpdf (CFlexArr (crp_o s') (CProd (map CDist bs')) cs' r2i') = logpdf (CFlexArr (crp_o s) (CProd (map CDist bs)) cs r2i)).
  { cbn [logpdf]. unfold flexarr_logpdf. extensionality rid. extensionality T. extensionality Cn. extensionality ins. rewrite EO.
    destruct (lookup (crp_o s) ins) as [i|]; [|reflexivity].
    change (prod_logpdf (map (fun c' => (outputs c', inputs c', logpdf c')) (map CDist bs'))) with (logpdf (CProd (map CDist bs'))).
    change (prod_logpdf (map (fun c' => (outputs c', inputs c', logpdf c')) (map CDist bs))) with (logpdf (CProd (map CDist bs))).
    rewrite (read_component logpdf (crp_o s') _ cs' r2i' i), (read_component logpdf (crp_o s) _ cs r2i i), CO, CO'.
    destruct (agree_prods _ _ (PA i)) as (_ & -> & _). reflexivity. }
  assert (SA : simulate (CFlexArr (crp_o s') (CProd (map CDist bs')) cs' r2i') = simulate (CFlexArr (crp_o s) (CProd (map CDist bs)) cs r2i)).
  { cbn [simulate]. unfold flexarr_simulate. extensionality rid. extensionality T. extensionality Cn. extensionality ins. extensionality N. rewrite EO.
    destruct (lookup (crp_o s) ins) as [i|]; [|reflexivity].
    change (prod_simulate (map (fun c' => (outputs c', inputs c', simulate c')) (map CDist bs'))) with (simulate (CProd (map CDist bs'))).
    change (prod_simulate (map (fun c' => (outputs c', inputs c', simulate c')) (map CDist bs))) with (simulate (CProd (map CDist bs))).
    rewrite (read_component simulate (crp_o s') _ cs' r2i' i), (read_component simulate (crp_o s) _ cs r2i i), CO, CO'.
    destruct (agree_prods _ _ (PA i)) as (_ & _ & -> & _). reflexivity. }
  assert (OA : outputs (CFlexArr (crp_o s') (CProd (map CDist bs')) cs' r2i') = outputs (CFlexArr (crp_o s) (CProd (map CDist bs)) cs r2i)) by exact OU.
  split; [|split; [|split]].
  - unfold mkview. change (outputs (CMix true ?d ?a ?r)) with (dist_o d :: outputs a). rewrite OA, (proj1 AD). reflexivity.
  - intros rid T Cn ins. unfold mkview. change (logpdf (CMix true ?d ?a ?r)) with (mix_logpdf d (outputs a) r (logpdf a)).
    rewrite OA, LA. rewrite (mix_logpdf_alike _ _ _ _ _ _ AD L). reflexivity.
  - intros rid ts Cn ins N. unfold mkview. change (simulate (CMix true ?d ?a ?r)) with (mix_simulate d (outputs a) r (logpdf a) (simulate a)).
    rewrite OA, LA, SA. rewrite (mix_simulate_alike _ _ _ _ _ _ _ AD L). reflexivity.
  - rewrite (score_total _ W (view_flexible _ _ _ _ _ S)), (score_total _ W' (view_flexible _ _ _ _ _ S')). do 2 f_equal.
    rewrite (view_score_keys s bs cs r2i r2c W S), (view_score_keys s' bs' cs' r2i' r2c' W' S'). rewrite (agree_score _ _ AD). f_equal.
    assert (E : forall k, total_score (CProd (map CDist (cols bs' cs' k))) = total_score (CProd (map CDist (cols bs cs k)))) by (intros k; apply (agree_prods _ _ (PA k))).
    rewrite (map_ext _ _ E). destruct (view_parts _ _ _ _ _ W) as (_ & Db & _ & _ & NDk & _). destruct (view_parts _ _ _ _ _ W') as (_ & Db' & _ & _ & NDk' & _).
    apply rsum_keys; [exact NDk'|exact NDk| |].
    + intros k _ N. unfold cols. rewrite (proj2 (lookup_None cs k) N). apply empty_prods. intros d Hd. split; [apply Db; exact Hd|apply S; exact Hd].
    + intros k _ N. rewrite <- E. unfold cols. rewrite (proj2 (lookup_None cs' k) N). apply empty_prods. intros d Hd. split; [apply Db'; exact Hd|apply S'; exact Hd].
Qed.
