(** Proofs about the inference of hyperparameters. *)
From Coq Require Import List ZArith QArith Qcanon Reals Bool String Permutation Lia Lra.
From Verif Require Import Base Xr Samp Lgamma Prims Cgpm Lib SpecPrims PrimsInv PrimsDens PrimsThm PrimsThm2
  SpecComp CompInv CompDens SimLaw SpecBook Book Gibbs ChainLaw Hypers SpecHypers.
Import ListNotations.
Local Open Scope Z_scope.

Lemma dset_swap : forall {V} (d : dict string V) k k' v v', k <> k' -> In k (keys d) ->
  dset k v (dset k' v' d) = dset k' v' (dset k v d).
Proof.
  intros V. induction d as [|[k0 v0] d IH]; intros k k' v v' N H; [destruct H|]. cbn [dset].
  destruct (eq_dec k' k0) as [->|N1], (eq_dec k k0) as [->|N2]; cbn [dset]; try congruence.
  - destruct (eq_dec k k0); [congruence|]. destruct (eq_dec k0 k0); congruence.
  - destruct (eq_dec k0 k0); [|congruence]. destruct (eq_dec k' k0); congruence.
  - destruct (eq_dec k k0); [congruence|]. destruct (eq_dec k' k0); [congruence|]. f_equal. apply IH; auto.
    destruct H as [H|H]; [cbn in H; congruence|exact H].
Qed.

Lemma set_four : forall {V} (h : dict string V) m r s n m' r' s' n',
  (dset "nu" n (dset "s" s (dset "r" r (dset "m" m (dset "nu" n' (dset "s" s' (dset "r" r' (dset "m" m' h))))))) =
   dset "nu" n (dset "s" s (dset "r" r (dset "m" m h))))%string.
Proof.
  intros. 
  assert (M : forall (k k' : string) (v : V) d, In k (keys d) -> In k (keys (dset k' v d))).
  { intros k k' v d H. apply keys_dset_In. auto. }
  assert (SK : forall (k : string) (v : V) d, In k (keys (dset k v d))) by (intros; apply keys_dset_In; auto).
  rewrite (dset_swap _ "m" "nu")%string by (auto; discriminate).
  rewrite (dset_swap _ "m" "s")%string by (auto; discriminate).
  rewrite (dset_swap _ "m" "r")%string by (auto; discriminate). rewrite dset_dset.
  rewrite (dset_swap _ "r" "nu")%string by (auto; discriminate).
  rewrite (dset_swap _ "r" "s")%string by (auto; discriminate). rewrite dset_dset.
  rewrite (dset_swap _ "s" "nu")%string by (auto; discriminate). rewrite dset_dset.
  rewrite dset_dset. reflexivity.
Qed.

(** ** Setting hyperparameters twice *)

Lemma overwrite : forall d h h', dist_set_hypers (retune h' d) h =
  match snd (dist_set_hypers d h) with Ok _ => dist_set_hypers d h | Err e => (retune h' d, Err e) end.
Proof.
  intros d h h'. unfold retune. destruct d; cbn [dist_set_hypers].
  - destruct (do _ <- hpos "alpha"%string h'; dget "alpha"%string h') as [a'|e']; cbn [fst dist_set_hypers];
      destruct (do _ <- hpos "alpha"%string h; dget "alpha"%string h) as [a|e]; reflexivity.
  - destruct (do _ <- hpos "alpha"%string h'; dget "alpha"%string h') as [a'|e']; cbn [fst dist_set_hypers];
      destruct (do _ <- hpos "alpha"%string h; dget "alpha"%string h) as [a|e]; reflexivity.
  - destruct (do _ <- hpos "alpha" h'; do _ <- hpos "beta" h'; do a <- dget "alpha" h'; do b <- dget "beta" h'; Ok (a, b))%string as [[a' b']|e'];
      cbn [fst dist_set_hypers];
      destruct (do _ <- hpos "alpha" h; do _ <- hpos "beta" h; do a <- dget "alpha" h; do b <- dget "beta" h; Ok (a, b))%string as [[a b]|e]; reflexivity.
  - destruct (do _ <- hpos "a" h'; do _ <- hpos "b" h'; do a <- dget "a" h'; do b <- dget "b" h'; Ok (a, b))%string as [[a' b']|e'];
      cbn [fst dist_set_hypers];
      destruct (do _ <- hpos "a" h; do _ <- hpos "b" h; do a <- dget "a" h; do b <- dget "b" h; Ok (a, b))%string as [[a b]|e]; reflexivity.
  - destruct (do _ <- hpos "r" h'; do _ <- hpos "s" h'; do _ <- hpos "nu" h';
           do m <- dget "m" h'; do r <- dget "r" h'; do s' <- dget "s" h'; do nu <- dget "nu" h';
           Ok (m, r, s', nu))%string as [[[[? ?] ?] ?]|e']; cbn [fst dist_set_hypers];
    destruct (do _ <- hpos "r" h; do _ <- hpos "s" h; do _ <- hpos "nu" h;
           do m <- dget "m" h; do r <- dget "r" h; do s' <- dget "s" h; do nu <- dget "nu" h;
           Ok (m, r, s', nu))%string as [[[[? ?] ?] ?]|e]; reflexivity.
  - destruct (do _ <- hpos "r" h'; do _ <- hpos "s" h'; do _ <- hpos "nu" h';
           do m <- dget "m" h'; do r <- dget "r" h'; do s' <- dget "s" h'; do nu <- dget "nu" h';
           Ok (m, r, s', nu))%string as [[[[? ?] ?] ?]|e']; cbn [fst dist_set_hypers];
    destruct (do _ <- hpos "r" h; do _ <- hpos "s" h; do _ <- hpos "nu" h;
           do m <- dget "m" h; do r <- dget "r" h; do s' <- dget "s" h; do nu <- dget "nu" h;
           Ok (m, r, s', nu))%string as [[[[? ?] ?] ?]|e];
    cbn [nuc_o nuc_data nuc_N nuc_sum nuc_sumsq nuc_mu nuc_var nuc_hypers snd]; try rewrite set_four; reflexivity.
Qed.

(** [d'] is [d], possibly with other hyperparameters. *)
Definition adjusted (d d' : dist) : Prop := d' = d \/ exists h, d' = retune h d.

Lemma adjusted_refl : forall d, adjusted d d.
Proof. left. reflexivity. Qed.

Lemma adjusted_set : forall d d' h, adjusted d d' -> adjusted d (retune h d').
Proof.
  intros d d' h [->|[h' ->]]; [right; eauto|]. right. unfold retune at 1. rewrite overwrite.
  destruct (snd (dist_set_hypers d h)) as [u|e] eqn:E; [exists h; reflexivity|exists h'; reflexivity].
Qed.

Lemma adjusted_ok : forall d d' h d'' u, adjusted d d' -> dist_set_hypers d' h = (d'', Ok u) ->
  dist_set_hypers d h = (d'', Ok u).
Proof.
  intros d d' h d'' u [->|[h' ->]] E; [exact E|]. rewrite overwrite in E.
  destruct (dist_set_hypers d h) as [d3 [u'|e]]; cbn [snd] in E; [exact E|discriminate].
Qed.

Lemma adjusted_ok' : forall d d' h d'' u, adjusted d d' -> dist_set_hypers d h = (d'', Ok u) ->
  dist_set_hypers d' h = (d'', Ok u).
Proof.
  intros d d' h d'' u [->|[h' ->]] E; [exact E|]. rewrite overwrite, E. reflexivity.
Qed.

Lemma retune_class : forall h d, same_class (retune h d) d = true /\ params_of (retune h d) = params_of d.
Proof.
  intros h d. unfold retune. destruct d; cbn [dist_set_hypers];
  match goal with |- context [match ?x with Ok _ => _ | Err _ => _ end] => destruct x as [v|e]; [|split; reflexivity] end;
  repeat match goal with |- context [let (_, _) := ?x in _] => destruct x end; try (split; reflexivity).
Qed.

Lemma adjusted_untouched : forall d d', adjusted d d' -> untouched d d'.
Proof.
  intros d d' [->|[h ->]].
  - repeat (split; [reflexivity|]). split; [destruct d; reflexivity|]. repeat split.
  - destruct (set_hypers_frame d h) as (A & B & C & D & _). destruct (retune_class h d) as [E F]. repeat split; assumption.
Qed.

(** ** Every outcome: only hyperparameters change *)

Lemma adjusted_all : forall ds, Forall2 adjusted ds ds.
Proof. induction ds; constructor; auto using adjusted_refl. Qed.

Lemma set_and_score_adjusted : forall h ds0 ds logp, Forall2 adjusted ds0 ds -> Forall2 adjusted ds0 (fst (set_and_score ds h logp)).
Proof.
  intros h ds0 ds logp F. revert logp. induction F as [|d0 d ds0 ds A F IH]; intros logp; [constructor|]. cbn [set_and_score].
  assert (A' := adjusted_set _ _ h A). unfold retune in A'.
  destruct (dist_set_hypers d h) as [d' [u|e]]; cbn [fst] in *; [|constructor; auto].
  destruct (dist_score d') as [s|e]; [|constructor; auto]. specialize (IH (xadd logp s)).
  destruct (set_and_score ds h (xadd logp s)) as [ds' r]. constructor; auto.
Qed.

Lemma set_and_score_set : forall h ds logp ds' s, set_and_score ds h logp = (ds', Ok s) -> ds' = map (retune h) ds /\
  forall d, In d ds -> snd (dist_set_hypers d h) = Ok tt.
Proof.
  intros h. induction ds as [|d ds IH]; intros logp ds' s E; cbn [set_and_score] in E; [injection E as <- _; split; [reflexivity|intros d []]|].
  destruct (dist_set_hypers d h) as [d' [[]|e]] eqn:SE; [|discriminate]. destruct (dist_score d') as [x|e]; [|discriminate].
  destruct (set_and_score ds h (xadd logp x)) as [ds2 r] eqn:E2. injection E as <- ->. destruct (IH _ _ _ E2) as [-> H].
  split; [cbn [map]; unfold retune at 2; rewrite SE; reflexivity|]. intros x0 [<-|Hx]; [rewrite SE; reflexivity|auto].
Qed.

Lemma score_grid_adjusted : forall h k grid ds0 ds, Forall2 adjusted ds0 ds -> Forall2 adjusted ds0 (fst (score_grid ds h k grid)).
Proof.
  intros h k. induction grid as [|g grid IH]; intros ds0 ds F; [exact F|]. cbn [score_grid].
  assert (A := set_and_score_adjusted (dset k g h) ds0 ds (Fin 0) F).
  destruct (set_and_score ds (dset k g h) (Fin 0)) as [ds' [s|e]]; [|exact A]. cbn [fst] in A.
  specialize (IH ds0 ds' A). destruct (score_grid ds' h k grid) as [ds2 r]. exact IH.
Qed.

Lemma score_grid_length : forall h k grid ds ds' ws, score_grid ds h k grid = (ds', Ok ws) -> List.length ws = List.length grid.
Proof.
  intros h k. induction grid as [|g grid IH]; intros ds ds' ws E; cbn [score_grid] in E; [injection E as _ <-; reflexivity|].
  destruct (set_and_score ds (dset k g h) (Fin 0)) as [ds1 [s|e]]; [|discriminate].
  destruct (score_grid ds1 h k grid) as [ds2 [r|e]] eqn:E2; [|discriminate]. injection E as _ <-. cbn [List.length]. rewrite (IH _ _ _ E2). reflexivity.
Qed.

Lemma log_pflip_index : forall ws, always (log_pflip ws) (fun r => forall i, r = Ok i -> (i < List.length ws)%nat).
Proof.
  intros ws. unfold log_pflip. destruct (existsb is_bad ws); [cbn; discriminate|]. destruct (existsb is_fin ws); [|cbn; discriminate].
  cbn [always]. intros i Hi _ j [= <-]. rewrite map_length in Hi. exact Hi.
Qed.

(** The hyperparameters after the sweep: [names] from the grids, the others as they were. *)
Definition swept (gs : grids) (names : list string) (h h' : hypers) : Prop :=
  keys h' = keys h /\ (forall k, In k names -> exists v, lookup k h' = Some v /\ In v (grid_of gs k)) /\
  (forall k, ~ In k names -> lookup k h' = lookup k h).

Lemma sweep_adjusted : forall gs names ds0 ds h, Forall2 adjusted ds0 ds -> incl names (keys h) ->
  always (sweep_hypers ds h names gs) (fun p => Forall2 adjusted ds0 (fst p) /\ forall h', snd p = Ok h' -> swept gs names h h').
Proof.
  intros gs. induction names as [|k names IH]; intros ds0 ds h F IN; cbn [sweep_hypers].
  - cbn [always fst snd]. split; [exact F|]. intros h' [= <-]. split; [reflexivity|]. split; [intros k []|auto].
  - destruct (dget k gs) as [grid|e] eqn:EG; [|cbn [always fst snd]; split; [exact F|discriminate]].
    apply dget_ok in EG. assert (A := score_grid_adjusted h k grid ds0 ds F).
    destruct (score_grid ds h k grid) as [ds' [ws|e]] eqn:ES; [|cbn [always fst snd]; split; [exact A|discriminate]]. cbn [fst] in A.
    assert (L := score_grid_length _ _ _ _ _ _ ES). apply always_bind. eapply always_imp; [|apply log_pflip_index].
    intros [i|e] Hi; [|cbn [always fst snd]; split; [exact A|discriminate]]. specialize (Hi i eq_refl). rewrite L in Hi.
    assert (Hk : In k (keys h)) by (apply IN; now left).
    eapply always_imp; [|apply IH; [exact A|rewrite keys_dset_mem by exact Hk; intros x Hx; apply IN; now right]].
    intros p (B1 & B2). split; [exact B1|]. intros h' E. destruct (B2 h' E) as (C1 & C2 & C3).
    rewrite keys_dset_mem in C1 by exact Hk. split; [exact C1|]. split.
    + intros k' [<-|Hk']; [|auto]. destruct (in_dec string_dec k names) as [Hn|Hn]; [auto|].
      rewrite (C3 k Hn), lookup_dset_eq. exists (nth i grid 0%Qc). split; [reflexivity|]. unfold grid_of. rewrite EG. apply nth_In. exact Hi.
    + intros k' Hk'. rewrite (C3 k') by (intros X; apply Hk'; now right). apply lookup_dset_neq. intros ->. apply Hk'. now left.
Qed.

Lemma set_all_adjusted : forall h ds0 ds, Forall2 adjusted ds0 ds -> Forall2 adjusted ds0 (fst (set_all_hypers ds h)).
Proof.
  intros h ds0 ds F. induction F as [|d0 d ds0 ds A F IH]; [constructor|]. cbn [set_all_hypers].
  assert (A' := adjusted_set _ _ h A). unfold retune in A'.
  destruct (dist_set_hypers d h) as [d' [u|e]]; cbn [fst] in *; [|constructor; auto].
  destruct (set_all_hypers ds h) as [ds' r]. constructor; auto.
Qed.

Lemma set_all_set : forall h ds0 ds ds' u, Forall2 adjusted ds0 ds -> set_all_hypers ds h = (ds', Ok u) -> ds' = map (retune h) ds0 /\
  forall d, In d ds0 -> good_hypers d h.
Proof.
  intros h ds0 ds ds' u F. revert ds' u. induction F as [|d0 d ds0 ds A F IH]; intros ds' u E; cbn [set_all_hypers] in E.
  - injection E as <- _. split; [reflexivity|intros d []].
  - destruct (dist_set_hypers d h) as [d' [u'|e]] eqn:SE; [|discriminate]. assert (X := adjusted_ok _ _ _ _ _ A SE).
    destruct (set_all_hypers ds h) as [ds2 [u2|e]] eqn:E2; [|discriminate]. injection E as <- _. destruct (IH ds2 u2 eq_refl) as [-> H].
    split; [cbn [map]; unfold retune at 2; rewrite X; reflexivity|]. intros x [<-|Hx]; [|auto].
    apply (set_hypers_spec _ _ _ _ X). destruct u'. reflexivity.
Qed.

Lemma permuted_names : forall (ks : list string) l, Permutation (seq 0 (List.length ks)) l -> Permutation ks (map (fun i => nth i ks ""%string) l).
Proof.
  intros ks l P. rewrite <- P. clear P. match goal with |- Permutation ?a ?b => assert (E : a = b); [|rewrite <- E; apply Permutation_refl] end.
  induction ks as [|k ks IH]; [reflexivity|]. cbn [List.length seq map nth]. rewrite <- seq_shift, map_map. cbn [nth]. f_equal. exact IH.
Qed.

Lemma in_order_main : forall ds h gs names, incl names (keys h) ->
  always (transition_hypers_in_order ds h gs names) (fun r => Forall2 adjusted ds (fst r) /\
    forall h', snd r = Ok h' -> swept gs names h h' /\ fst r = map (retune h') ds /\ forall d, In d ds -> good_hypers d h').
Proof.
  intros ds h gs names IN. unfold transition_hypers_in_order. apply always_bind.
  eapply always_imp; [|apply (sweep_adjusted gs names ds ds h (adjusted_all ds) IN)].
  intros [ds1 [h1|e]] (A & B); cbn [fst snd] in *; [|cbn [always fst snd]; split; [exact A|discriminate]].
  assert (C := set_all_adjusted h1 ds ds1 A). destruct (set_all_hypers ds1 h1) as [ds2 [u|e]] eqn:E; cbn [always fst snd omap] in *; (split; [exact C|]); [|discriminate].
  intros h' [= <-]. split; [apply B; reflexivity|]. exact (set_all_set _ _ _ _ _ A E).
Qed.

(** ** The law of the outcome *)

Definition lsum (ds : list dist) (h : hypers) : R := rsum (map (fun d => prim_score (retune h d)) ds).

Lemma retune_dinv : forall h d, dinv d -> dinv (retune h d).
Proof. intros h d D. apply set_hypers_dinv. exact D. Qed.

Lemma weight_exp : forall ds h, (forall d, In d ds -> dinv d) -> weight ds h = exp (lsum ds h).
Proof.
  intros ds h D. unfold lsum. induction ds as [|d ds IH]; [cbn; symmetry; apply exp_0|]. cbn [weight fold_right map].
  change (fold_right _ 1%R ds) with (weight ds h). rewrite IH by (intros x Hx; apply D; now right).
  destruct (score_fin (retune h d)) as [r E]; [apply retune_dinv; apply D; now left|].
  unfold prim_score at 2. rewrite E. cbn [xexp rsum fold_right]. change (fold_right Rplus 0%R ?l) with (rsum l). rewrite exp_plus. reflexivity.
Qed.

Lemma weight_pos : forall ds h, (forall d, In d ds -> dinv d) -> (0 < weight ds h)%R.
Proof. intros ds h D. rewrite weight_exp by exact D. apply exp_pos. Qed.

Lemma score_ok : forall h ds0 ds a, Forall2 adjusted ds0 ds -> (forall d, In d ds0 -> dinv d /\ good_hypers d h) ->
  set_and_score ds h (Fin a) = (map (retune h) ds0, Ok (Fin (a + lsum ds0 h))).
Proof.
  intros h ds0 ds a F. revert a. induction F as [|d0 d ds0 ds A F IH]; intros a H.
  - cbn. unfold lsum. cbn. rewrite Rplus_0_r. reflexivity.
  - cbn [set_and_score]. destruct (H d0 (or_introl eq_refl)) as [D G].
    destruct (dist_set_hypers d0 h) as [d' res] eqn:E. assert (X := set_hypers_spec _ _ _ _ E). destruct X as (X1 & _). apply X1 in G. subst res.
    rewrite (adjusted_ok' _ _ _ _ _ A E). assert (RE : retune h d0 = d') by (unfold retune; rewrite E; reflexivity).
    destruct (score_fin d') as [r SR]; [rewrite <- RE; apply retune_dinv; exact D|]. rewrite SR. cbn [xadd].
    rewrite IH by (intros x Hx; apply H; now right). cbn [map]. rewrite RE. do 3 f_equal. unfold lsum. cbn [map rsum fold_right].
    change (fold_right Rplus 0%R ?l) with (rsum l). rewrite RE. unfold prim_score at 2. rewrite SR. ring.
Qed.

Lemma score_grid_ok : forall h k grid ds0 ds, Forall2 adjusted ds0 ds ->
  (forall g d, In g grid -> In d ds0 -> dinv d /\ good_hypers d (dset k g h)) ->
  exists ds', score_grid ds h k grid = (ds', Ok (map (fun g => Fin (lsum ds0 (dset k g h))) grid)) /\ Forall2 adjusted ds0 ds'.
Proof.
  intros h k. induction grid as [|g grid IH]; intros ds0 ds F H; [exists ds; split; [reflexivity|exact F]|]. cbn [score_grid].
  rewrite (score_ok (dset k g h) ds0 ds 0 F) by (intros d Hd; apply H; [now left|exact Hd]).
  destruct (IH ds0 (map (retune (dset k g h)) ds0)) as (ds' & E & A).
  - clear. induction ds0; constructor; auto. right. eauto.
  - intros g' d Hg Hd. apply H; [now right|exact Hd].
  - exists ds'. rewrite E. cbn [omap map]. rewrite Rplus_0_l. split; [reflexivity|exact A].
Qed.

Lemma log_pflip_fin : forall {A} (w : A -> R) (l : list A), l <> [] ->
  log_pflip (map (fun a => Fin (w a)) l) = Flip (map (fun a => exp (w a)) l) (fun i => Ret (Ok i)).
Proof.
  intros A w l N. unfold log_pflip.
  assert (B : existsb is_bad (map (fun a => Fin (w a)) l) = false) by (induction l as [|a l IH]; [reflexivity|]; destruct l; [reflexivity|]; apply IH; discriminate).
  rewrite B. destruct l as [|a l]; [congruence|]. cbn [map existsb is_fin orb]. rewrite map_map. reflexivity.
Qed.

Lemma rsum_nth : forall {A} (w G : A -> R) (l : list A) d,
  rsum (map (fun i => (nth i (map w l) 0 / rsum (map w l) * G (nth i l d))%R) (seq 0 (List.length (map w l)))) =
  rsum (map (fun a => (w a / rsum (map w l) * G a)%R) l).
Proof.
  intros A w G l d. rewrite map_length. set (Z := rsum (map w l)). clearbody Z. induction l as [|a l IH]; [reflexivity|].
  cbn [List.length seq map rsum fold_right nth]. rewrite <- seq_shift, map_map. f_equal. exact IH.
Qed.

(** Values acceptable for the class of the first component. *)
Lemma class_names : forall d d', same_class d d' = true -> hyper_names d = hyper_names d' /\ positive_names d = positive_names d'.
Proof. intros d d' E. destruct d, d'; try discriminate E; split; reflexivity. Qed.

Lemma good_class : forall d d' h, same_class d d' = true -> good_hypers d' h -> good_hypers d h.
Proof. intros d d' h E G. destruct (class_names _ _ E) as [A B]. unfold good_hypers. rewrite A, B. exact G. Qed.

Lemma good_dset : forall d h k g, good_hypers d h -> (In k (positive_names d) -> (0 < qr g)%R) -> good_hypers d (dset k g h).
Proof.
  intros d h k g (G1 & G2) P. split.
  - intros k' Hk'. rewrite lookup_dset. destruct (eq_dec k' k); [eauto|]. apply G1. exact Hk'.
  - intros k' v Hk' L. rewrite lookup_dset in L. destruct (eq_dec k' k) as [->|N]; [injection L as <-; auto|]. eapply G2; eauto.
Qed.

(** The sweep followed by the final assignment. *)
Lemma order_law : forall d0 ds0 gs F names ds h, Forall2 adjusted ds0 ds ->
  (forall d, In d ds0 -> dinv d /\ same_class d d0 = true) -> good_hypers d0 h ->
  (forall k, In k names -> grid_of gs k <> []) ->
  (forall k v, In k names -> In k (positive_names d0) -> In v (grid_of gs k) -> (0 < qr v)%R) ->
  let m := let! p := sweep_hypers ds h names gs in
    match snd p with
    | Err e => Ret (fst p, Err e)
    | Ok h' => let (ds', r) := set_all_hypers (fst p) h' in Ret (ds', omap (fun _ => h') r)
    end in
  finite_choices m /\ always m (fun r => exists h', r = (map (retune h') ds0, Ok h')) /\
  expect m F = gibbs_law (weight ds0) gs names (fun h' => F (map (retune h') ds0, Ok h')) h.
Proof.
  intros d0 ds0 gs F. induction names as [|k names IH]; intros ds h A D G GN GP m; subst m; cbn [sweep_hypers].
  - cbn [sbind fst snd]. assert (X : set_all_hypers ds h = (map (retune h) ds0, Ok tt)).
    { clear - A D G. induction A as [|d1 d ds0 ds A1 A IH]; [reflexivity|]. cbn [set_all_hypers].
      destruct (D d1 (or_introl eq_refl)) as [D1 C1]. destruct (dist_set_hypers d1 h) as [d' res] eqn:E.
      assert (X := set_hypers_spec _ _ _ _ E). destruct X as (X1 & _). destruct X1 as [X1 _].
      rewrite X1 in E by (eapply good_class; eauto). rewrite (adjusted_ok' _ _ _ _ _ A1 E).
      rewrite IH by (intros x Hx; apply D; now right). cbn [map]. unfold retune at 2. rewrite E. reflexivity. }
    rewrite X. cbn [omap]. split; [exact Logic.I|]. split; [exists h; reflexivity|]. reflexivity.
  - assert (GK := GN k (or_introl eq_refl)). unfold grid_of in GK. unfold dget. destruct (lookup k gs) as [grid|] eqn:EG; [|congruence].
    assert (Ek : grid_of gs k = grid) by (unfold grid_of; rewrite EG; reflexivity).
    assert (GG : forall g, In g grid -> good_hypers d0 (dset k g h)).
    { intros g Hg. apply good_dset; [exact G|]. intros Hk. apply (GP k g); [now left|exact Hk|rewrite Ek; exact Hg]. }
    destruct (score_grid_ok h k grid ds0 ds A) as (ds' & E & A').
    { intros g d Hg Hd. destruct (D d Hd) as [D1 C1]. split; [exact D1|]. eapply good_class; eauto. }
    rewrite E. rewrite log_pflip_fin by exact GK. cbn [sbind].
    assert (W : map (fun a => exp (lsum ds0 (dset k a h))) grid = map (fun g => weight ds0 (dset k g h)) grid).
    { apply map_ext. intros g. rewrite weight_exp; [reflexivity|]. intros d Hd. apply D. exact Hd. }
    rewrite W. assert (PW : forall g, (0 < weight ds0 (dset k g h))%R) by (intros g; apply weight_pos; intros d Hd; apply D; exact Hd).
    assert (II : forall i, (i < List.length grid)%nat -> good_hypers d0 (dset k (nth i grid 0%Qc) h)) by (intros i Hi; apply GG; apply nth_In; exact Hi).
    assert (IH' : forall i, (i < List.length grid)%nat -> _) by (intros i Hi; exact (IH ds' (dset k (nth i grid 0%Qc) h) A' D (II i Hi)
      (fun k' Hk' => GN k' (or_intror Hk')) (fun k' v Hk' => GP k' v (or_intror Hk')))). cbn zeta in IH'. clear IH.
    split; [|split].
    + cbn [finite_choices]. split; [intros w Hw; apply in_map_iff in Hw; destruct Hw as (g & <- & _); apply Rlt_le; apply PW|].
      split; [apply rsum_pos; auto|]. rewrite map_length. intros i Hi. apply IH'. exact Hi.
    + cbn [always]. rewrite map_length. intros i Hi _. apply IH'. exact Hi.
    + cbn [expect gibbs_law]. rewrite Ek. set (w := fun g => weight ds0 (dset k g h)).
      change (map (fun g => weight ds0 (dset k g h)) grid) with (map w grid).
      rewrite <- (rsum_nth w (fun g => gibbs_law (weight ds0) gs names (fun h' => F (map (retune h') ds0, Ok h')) (dset k g h)) grid 0%Qc).
      apply rsum_ext. intros i Hi. apply in_seq in Hi. rewrite map_length in Hi. f_equal. apply IH'. lia.
Qed.

(** ** The posterior over the grids is invariant *)

Lemma over_grids_ext : forall gs names F G h, (forall h, F h = G h) -> over_grids gs names F h = over_grids gs names G h.
Proof.
  intros gs. induction names as [|k names IH]; intros F G h H; [apply H|]. cbn [over_grids]. apply rsum_ext. intros g _. apply IH. exact H.
Qed.

Lemma over_grids_swap : forall gs k k' names F h, k <> k' -> In k (keys h) ->
  over_grids gs (k :: k' :: names) F h = over_grids gs (k' :: k :: names) F h.
Proof.
  intros gs k k' names F h N H. cbn [over_grids]. rewrite rsum_swap. apply rsum_ext. intros g' _. apply rsum_ext. intros g _.
  rewrite (dset_swap h k k') by assumption. reflexivity.
Qed.

Lemma over_grids_front : forall gs k names1 names2 F h, ~ In k names1 -> In k (keys h) ->
  over_grids gs (names1 ++ k :: names2) F h = over_grids gs (k :: names1 ++ names2) F h.
Proof.
  intros gs k. induction names1 as [|k1 names1 IH]; intros names2 F h N H; [reflexivity|]. cbn [app].
  rewrite (over_grids_swap gs k k1) by (auto; intros ->; apply N; now left). cbn [over_grids]. apply rsum_ext. intros g _.
  rewrite IH; [reflexivity|intros X; apply N; now right|]. apply keys_dset_In. auto.
Qed.

Lemma over_grids_back : forall gs k names F h, ~ In k names -> In k (keys h) ->
  over_grids gs (k :: names) F h = over_grids gs names (fun h => rsum (map (fun g => F (dset k g h)) (grid_of gs k))) h.
Proof.
  intros gs k names F h N H. rewrite <- (app_nil_r names) at 1. rewrite <- over_grids_front by assumption.
  clear N H. revert h. induction names as [|k1 names IH]; intros h; cbn [app over_grids]; [reflexivity|]. apply rsum_ext. intros g _. apply IH.
Qed.

Lemma over_grids_keys : forall gs names F G h, incl names (keys h) -> (forall h', keys h' = keys h -> F h' = G h') ->
  over_grids gs names F h = over_grids gs names G h.
Proof.
  intros gs. induction names as [|k names IH]; intros F G h IN H; [apply H; reflexivity|]. cbn [over_grids]. apply rsum_ext. intros g _.
  assert (Hk : In k (keys h)) by (apply IN; now left). assert (K : keys (dset k g h) = keys h) by (apply keys_dset_mem; exact Hk).
  apply IH; [rewrite K; intros x Hx; apply IN; now right|]. rewrite K. exact H.
Qed.

Lemma gibbs_invariant : forall w gs all f h, NoDup all -> incl all (keys h) -> (forall h, (0 < w h)%R) ->
  forall names, incl names all -> (forall k, In k names -> grid_of gs k <> []) ->
  over_grids gs all (fun h => (w h * gibbs_law w gs names f h)%R) h = over_grids gs all (fun h => (w h * f h)%R) h.
Proof.
  intros w gs all f h ND IN W. induction names as [|k names IH]; intros SUB GN; [reflexivity|].
  rewrite <- IH by (try (intros x Hx; apply SUB; now right); intros x Hx; apply GN; now right).
  set (Q := gibbs_law w gs names f). assert (Hk : In k all) by (apply SUB; now left).
  destruct (in_split _ _ Hk) as (l1 & l2 & ->). assert (N1 : ~ In k (l1 ++ l2)) by (apply NoDup_remove_2; exact ND).
  assert (Kh : In k (keys h)) by (apply IN; exact Hk).
  assert (NL : ~ In k l1) by (intros X; apply N1; apply in_or_app; now left).
  rewrite !over_grids_front by assumption. rewrite !over_grids_back by assumption.
  apply over_grids_ext. intros h1. cbn [gibbs_law]. fold Q.
  set (Z := rsum (map (fun g => w (dset k g h1)) (grid_of gs k))).
  assert (PZ : (0 < Z)%R) by (apply rsum_pos; [apply GN; now left|auto]).
  assert (E : forall g0, gibbs_law w gs (k :: names) f (dset k g0 h1) =
    rsum (map (fun g => (w (dset k g h1) / Z * Q (dset k g h1))%R) (grid_of gs k))).
  { intros g0. cbn [gibbs_law]. fold Q.
    rewrite (map_ext (fun g => w (dset k g (dset k g0 h1))) (fun g => w (dset k g h1))) by (intros; rewrite dset_dset; reflexivity).
    fold Z. apply rsum_ext. intros g _. rewrite dset_dset. reflexivity. }
  transitivity (rsum (map (fun g0 => (w (dset k g0 h1) * rsum (map (fun g => (w (dset k g h1) / Z * Q (dset k g h1))%R) (grid_of gs k)))%R) (grid_of gs k))).
  { apply rsum_ext. intros g0 _. f_equal. rewrite <- (E g0). reflexivity. }
  set (Y := rsum (map (fun g => (w (dset k g h1) / Z * Q (dset k g h1))%R) (grid_of gs k))).
  rewrite (map_ext (fun g0 => (w (dset k g0 h1) * Y)%R) (fun g0 => (Y * w (dset k g0 h1))%R)) by (intros; apply Rmult_comm).
  rewrite rsum_scal. fold Z. unfold Y. rewrite Rmult_comm, <- rsum_scal. apply rsum_ext. intros g _. field. lra.
Qed.

(** ** The exhaustive search *)

Lemma product_sum : forall gs F gs' h, (forall k g, In (k, g) gs' -> lookup k gs = Some g) -> NoDup (keys gs') ->
  (forall k, In k (keys gs') -> ~ In k (keys h)) ->
  rsum (map (fun c => F (h ++ combine (keys gs') c)) (product_of (map snd gs'))) = over_grids gs (keys gs') F h.
Proof.
  intros gs F. induction gs' as [|[k g] gs' IH]; intros h L ND FR.
  - cbn. rewrite app_nil_r. lra.
  - cbn [keys map fst snd product_of over_grids]. change (map fst gs') with (keys gs').
    assert (EG : grid_of gs k = g) by (unfold grid_of; rewrite (L k g (or_introl eq_refl)); reflexivity). rewrite EG.
    rewrite rsum_flat_map. apply rsum_ext. intros a _. rewrite map_map. cbn [combine keys map fst].
    cbn [keys map fst] in ND, FR. inversion ND as [|? ? N1 N2]; subst.
    rewrite dset_fresh by (apply lookup_None; apply FR; now left).
    rewrite <- IH; auto.
    + apply rsum_ext. intros c _. rewrite <- app_assoc. reflexivity.
    + intros k' g' H. apply L. now right.
    + intros k' H X. unfold keys in X. rewrite map_app in X. apply in_app_or in X. cbn in X. destruct X as [X|[X|[]]].
      * apply (FR k'); [now right|exact X].
      * subst k'. apply N1. exact H.
Qed.

Lemma product_nonempty : forall {A} (ls : list (list A)), (forall l, In l ls -> l <> []) -> product_of ls <> [].
Proof.
  intros A. induction ls as [|l ls IH]; intros H; [discriminate|]. cbn [product_of].
  destruct l as [|a l]; [exfalso; apply (H []); [now left|reflexivity]|]. cbn [flat_map].
  destruct (product_of ls) as [|c cs]; [exfalso; apply IH; [intros l' H'; apply H; now right|reflexivity]|discriminate].
Qed.

Lemma product_members : forall {A} (ls : list (list A)) c, In c (product_of ls) -> Forall2 (fun a l => In a l) c ls.
Proof.
  intros A. induction ls as [|l ls IH]; intros c H; cbn [product_of] in H.
  - destruct H as [<-|[]]. constructor.
  - apply in_flat_map in H. destruct H as (a & Ha & H). apply in_map_iff in H. destruct H as (c' & <- & H). constructor; auto.
Qed.

Lemma score_cells_ok : forall names cells ds0 ds, Forall2 adjusted ds0 ds ->
  (forall c d, In c cells -> In d ds0 -> dinv d /\ good_hypers d (combine names c)) ->
  exists ds', score_cells ds names cells = (ds', Ok (map (fun c => Fin (lsum ds0 (combine names c))) cells)) /\ Forall2 adjusted ds0 ds'.
Proof.
  intros names. induction cells as [|c cells IH]; intros ds0 ds F H; [exists ds; split; [reflexivity|exact F]|]. cbn [score_cells].
  rewrite (score_ok (combine names c) ds0 ds 0 F) by (intros d Hd; apply H; [now left|exact Hd]).
  destruct (IH ds0 (map (retune (combine names c)) ds0)) as (ds' & E & A).
  - clear. induction ds0; constructor; auto. right. eauto.
  - intros c' d Hc Hd. apply H; [now right|exact Hd].
  - exists ds'. rewrite E. cbn [omap map]. rewrite Rplus_0_l. split; [reflexivity|exact A].
Qed.

Lemma set_all_ok : forall h ds0 ds, Forall2 adjusted ds0 ds -> (forall d, In d ds0 -> good_hypers d h) ->
  set_all_hypers ds h = (map (retune h) ds0, Ok tt).
Proof.
  intros h ds0 ds A. induction A as [|d1 d ds0 ds A1 A IH]; intros H; [reflexivity|]. cbn [set_all_hypers].
  destruct (dist_set_hypers d1 h) as [d' res] eqn:E. assert (X := set_hypers_spec _ _ _ _ E). destruct X as ([X1 _] & _).
  rewrite X1 in E by (apply H; now left). rewrite (adjusted_ok' _ _ _ _ _ A1 E).
  rewrite IH by (intros x Hx; apply H; now right). cbn [map]. unfold retune at 2. rewrite E. reflexivity.
Qed.

Lemma combine_lookup : forall (gs : grids) c k, Forall2 (fun a l => In a l) c (map snd gs) -> NoDup (keys gs) -> In k (keys gs) ->
  exists v, lookup k (combine (keys gs) c) = Some v /\ In v (grid_of gs k).
Proof.
  induction gs as [|[k0 g0] gs IH]; intros c k F ND H; [destruct H|]. inversion F as [|a l c' ls Ha F']; subst.
  cbn [keys map fst] in *. inversion ND as [|? ? N1 N2]; subst. cbn [combine lookup]. unfold grid_of. cbn [lookup].
  destruct (eq_dec k k0) as [->|N]; [eauto|]. destruct H as [H|H]; [congruence|]. apply (IH c' k F' N2 H).
Qed.

Lemma full_law : forall d0 ds gs F, ds <> [] -> (forall d, In d ds -> dinv d /\ same_class d d0 = true) -> hd d0 ds = d0 ->
  NoDup (keys gs) -> good_grids d0 gs -> (forall k, In k (keys gs) -> grid_of gs k <> []) ->
  let Z := over_grids gs (keys gs) (weight ds) [] in
  (0 < Z)%R /\ finite_choices (transition_hypers_full ds gs) /\
  always (transition_hypers_full ds gs) (fun r => exists h, r = (map (retune h) ds, Ok h) /\
    forall k, In k (keys gs) -> exists v, lookup k h = Some v /\ In v (grid_of gs k)) /\
  expect (transition_hypers_full ds gs) F =
    over_grids gs (keys gs) (fun h => weight ds h / Z * F (map (retune h) ds, Ok h))%R [].
Proof.
  intros d0 ds gs F NE D HD ND GG GE Z.
  assert (FO : first_of ds = Ok d0).
  { destruct ds as [|d ds]; [congruence|]. cbn [hd] in HD. subst d. cbn [first_of].
    assert (X : forallb (fun d' => same_class d' d0) (d0 :: ds) = true) by (apply forallb_forall; intros d Hd; apply D; exact Hd).
    rewrite X. reflexivity. }
  assert (L : forall k g, In (k, g) gs -> lookup k gs = Some g) by (intros k g H; apply In_lookup; assumption).
  assert (PS : forall G, over_grids gs (keys gs) G [] = rsum (map (fun c => G (combine (keys gs) c)) (product_of (map snd gs)))).
  { intros G. rewrite <- (product_sum gs G gs []); auto. }
  set (cells := product_of (map snd gs)) in *.
  assert (NC : cells <> []).
  { apply product_nonempty. intros l Hl. apply in_map_iff in Hl. destruct Hl as ([k g] & <- & H). cbn [snd].
    assert (X := GE k (in_map fst _ _ H)). unfold grid_of in X. rewrite (L k g H) in X. exact X. }
  assert (CG : forall c, In c cells -> good_hypers d0 (combine (keys gs) c) /\ forall k, In k (keys gs) -> exists v, lookup k (combine (keys gs) c) = Some v /\ In v (grid_of gs k)).
  { intros c Hc. assert (X := product_members _ _ Hc).
    assert (Y : forall k, In k (keys gs) -> exists v, lookup k (combine (keys gs) c) = Some v /\ In v (grid_of gs k)) by (intros k Hk; apply combine_lookup; auto).
    split; [|exact Y]. destruct GG as [G1 G2].
    assert (KK : forall k, In k (hyper_names d0) -> In k (keys gs)).
    { intros k Hk. destruct (in_dec string_dec k (keys gs)) as [i|n]; [exact i|]. apply lookup_None in n. specialize (G1 k Hk). unfold grid_of in G1. rewrite n in G1. congruence. }
    split.
    - intros k Hk. destruct (Y k (KK k Hk)) as (v & E & _). eauto.
    - intros k v Hk E. assert (Hk' : In k (hyper_names d0)) by (destruct d0; cbn in *; intuition). destruct (Y k (KK k Hk')) as (v' & E' & V).
      rewrite E in E'. injection E' as <-. eauto. }
  assert (DG : forall c d, In c cells -> In d ds -> dinv d /\ good_hypers d (combine (keys gs) c)).
  { intros c d Hc Hd. destruct (D d Hd) as [D1 C1]. split; [exact D1|]. eapply good_class; [exact C1|]. apply CG. exact Hc. }
  destruct (score_cells_ok (keys gs) cells ds ds (adjusted_all ds) DG) as (ds' & E & A).
  assert (W : map (fun a => exp (lsum ds (combine (keys gs) a))) cells = map (fun c => weight ds (combine (keys gs) c)) cells).
  { apply map_ext. intros c. rewrite weight_exp; [reflexivity|]. intros d Hd. apply D. exact Hd. }
  assert (PW : forall c, (0 < weight ds c)%R) by (intros c; apply weight_pos; intros d Hd; apply D; exact Hd).
  assert (PZ : (0 < Z)%R) by (unfold Z; rewrite PS; apply rsum_pos; auto).
  split; [exact PZ|].
  assert (T : transition_hypers_full ds gs = Flip (map (fun c => weight ds (combine (keys gs) c)) cells) (fun i =>
    let selected := combine (keys gs) (nth i cells []) in let (ds'', r) := set_all_hypers ds' selected in Ret (ds'', omap (fun _ => selected) r))).
  { unfold transition_hypers_full. fold cells. destruct ds as [|d ds]; [congruence|]. rewrite FO, E, log_pflip_fin, W by exact NC. reflexivity. }
  assert (S1 : forall i, (i < List.length cells)%nat -> set_all_hypers ds' (combine (keys gs) (nth i cells [])) = (map (retune (combine (keys gs) (nth i cells []))) ds, Ok tt)).
  { intros i Hi. apply set_all_ok; [exact A|]. intros d Hd. apply DG; [apply nth_In; exact Hi|exact Hd]. }
  rewrite T. cbn [finite_choices always expect]. split; [|split].
  - split; [intros w Hw; apply in_map_iff in Hw; destruct Hw as (c & <- & _); apply Rlt_le; apply PW|].
    split; [apply rsum_pos; auto|]. rewrite map_length. intros i Hi. cbn zeta. rewrite S1 by exact Hi. exact Logic.I.
  - rewrite map_length. intros i Hi _. cbn zeta. rewrite S1 by exact Hi. cbn [omap always]. eexists. split; [reflexivity|]. apply CG. apply nth_In. exact Hi.
  - rewrite PS. set (w := fun c => weight ds (combine (keys gs) c)).
    assert (EZ : Z = rsum (map w cells)) by (unfold Z; rewrite PS; reflexivity). rewrite EZ.
    transitivity (rsum (map (fun c => w c / rsum (map w cells) * F (map (retune (combine (keys gs) c)) ds, Ok (combine (keys gs) c)))%R cells)); [|reflexivity].
    rewrite <- (rsum_nth w (fun c => F (map (retune (combine (keys gs) c)) ds, Ok (combine (keys gs) c))) cells []).
    apply rsum_ext. intros i Hi. apply in_seq in Hi. rewrite map_length in Hi. f_equal. rewrite S1 by lia. reflexivity.
Qed.
