(** Proofs about the renumbering of clusters (C54). *)
From Coq Require Import List ZArith QArith Qcanon Reals Bool String Permutation Sorted Lia Lra.
From Verif Require Import Base Xr Samp Lgamma Prims Cgpm Lib SpecPrims PrimsInv PrimsDens PrimsThm PrimsThm2
  SpecComp CompInv CompDens CompThm SpecBook Book SpecTable Walks SpecWalks SpecViews Sample SpecSample.
Import ListNotations.
Local Open Scope Z_scope.

(** ** Positions *)

Lemma position_of_nth : forall l t i, In t l -> exists n, nth_error l n = Some t /\ position_of t l i = Ok (i + Z.of_nat n).
Proof.
  induction l as [|u l IH]; intros t i H; [destruct H|]. cbn [position_of]. unfold eqb. destruct (eq_dec t u) as [->|N].
  - exists 0%nat. split; [reflexivity|]. f_equal. lia.
  - destruct H as [->|H]; [congruence|]. destruct (IH t (i + 1) H) as (n & E & P). exists (S n). split; [exact E|]. rewrite P. f_equal. lia.
Qed.

Lemma position_of_at : forall l n t i, NoDup l -> nth_error l n = Some t -> position_of t l i = Ok (i + Z.of_nat n).
Proof.
  intros l n t i ND E. destruct (position_of_nth l t i (nth_error_In _ _ E)) as (m & E' & P). rewrite P. f_equal. f_equal. f_equal.
  apply (proj1 (NoDup_nth_error l) ND); [apply nth_error_Some; congruence|congruence].
Qed.

Definition number (l : list Z) (t : Z) : Z := match position_of t l 0 with Ok i => i | Err _ => 0 end.

Lemma number_ok : forall l t, In t l -> position_of t l 0 = Ok (number l t).
Proof. intros l t H. unfold number. destruct (position_of_nth l t 0 H) as (n & _ & P). rewrite P. reflexivity. Qed.

Lemma number_inj : forall l t u, In t l -> In u l -> number l t = number l u -> t = u.
Proof.
  intros l t u Ht Hu E. unfold number in E. destruct (position_of_nth l t 0 Ht) as (n & En & P). destruct (position_of_nth l u 0 Hu) as (m & Em & Q).
  rewrite P, Q in E. assert (n = m) by lia. subst. congruence.
Qed.

Lemma number_renumbering : forall l ts, NoDup l -> (forall t, In t l <-> In t ts) -> renumbering (number l) ts.
Proof.
  intros l ts ND SE. split; [intros t u Ht Hu; apply number_inj; apply SE; assumption|].
  exists (Z.of_nat (List.length l)). intros z. rewrite in_map_iff. split.
  - intros (t & <- & Ht). apply SE in Ht. unfold number. destruct (position_of_nth l t 0 Ht) as (n & E & ->).
    assert (n < List.length l)%nat by (apply nth_error_Some; congruence). lia.
  - intros B. destruct (nth_error l (Z.to_nat z)) as [t|] eqn:E; [|apply nth_error_None in E; lia].
    exists t. split; [|apply SE; eapply nth_error_In; eauto]. unfold number. rewrite (position_of_at l _ t 0 ND E). lia.
Qed.

Lemma nth_sorted : forall (l : list Z), StronglySorted Z.lt l -> forall n m t u, nth_error l n = Some t -> nth_error l m = Some u -> t < u -> (n < m)%nat.
Proof.
  intros l H. induction H as [|a l H IH F]; intros n m t u En Em L; [destruct n; discriminate|].
  rewrite Forall_forall in F. destruct n, m; cbn in *.
  - assert (t = u) by congruence. lia.
  - lia.
  - injection Em as <-. apply nth_error_In in En. apply F in En. lia.
  - apply -> Nat.succ_lt_mono. eapply IH; eauto.
Qed.

Lemma number_increasing : forall l t u, StronglySorted Z.lt l -> In t l -> In u l -> t < u -> number l t < number l u.
Proof.
  intros l t u ST Ht Hu L. unfold number. destruct (position_of_nth l t 0 Ht) as (n & En & ->). destruct (position_of_nth l u 0 Hu) as (m & Em & ->).
  assert (n < m)%nat by (eapply nth_sorted; eauto). lia.
Qed.

(** ** reindex_crp_observes *)

Definition stmts (o : Z) (ts : list Z) : list (dict Z Z) := map (fun t => [(o, t)]) ts.

Lemma only_key_ok : forall o ts, ts <> [] -> only_key (stmts o ts) = Ok o.
Proof.
  intros o ts NE. destruct ts as [|t ts]; [congruence|]. unfold only_key. cbn [stmts map].
  assert (X : forallb (fun d : dict Z Z => eqb (keys d) [o]) ([(o, t)] :: map (fun t => [(o, t)]) ts) = true).
  { apply forallb_forall. intros d Hd. change ([(o, t)] :: map (fun t => [(o, t)]) ts) with (map (fun t => [(o, t)]) (t :: ts)) in Hd.
    apply in_map_iff in Hd. destruct Hd as (u & <- & _). change (eqb [o] [o] = true). unfold eqb. destruct (eq_dec [o] [o]); [reflexivity|congruence]. }
  rewrite X. reflexivity.
Qed.

Lemma reindex_ok : forall o ts, ts <> [] -> reindex_crp_observes (stmts o ts) = Ok (stmts o (map (number (zsort (dedup ts))) ts)).
Proof.
  intros o ts NE. unfold reindex_crp_observes. rewrite (only_key_ok o ts NE). cbn [obind].
  unfold stmts at 1. rewrite map_map. rewrite (oseq_map_ok _ (fun t => (o, t))) by reflexivity. cbn [obind].
  rewrite (map_map (fun t => (o, t)) snd). cbn [snd]. rewrite map_id, map_map. cbn [snd fst].
  rewrite (oseq_map_ok _ (fun t => [(o, number (zsort (dedup ts)) t)])).
  - unfold stmts. rewrite map_map. reflexivity.
  - intros t Ht. rewrite number_ok; [reflexivity|]. apply zsort_In. apply dedup_In. exact Ht.
Qed.

Lemma reindex_renumbering : forall ts, renumbering (number (zsort (dedup ts))) ts /\
  forall t u, In t ts -> In u ts -> t < u -> number (zsort (dedup ts)) t < number (zsort (dedup ts)) u.
Proof.
  intros ts. assert (S1 : forall t, In t (zsort (dedup ts)) <-> In t ts) by (intros t; rewrite zsort_In; apply dedup_In).
  split.
  - apply number_renumbering; [|exact S1]. apply (Permutation_NoDup (Permutation_sym (zsort_perm _))). apply dedup_NoDup.
  - intros t u Ht Hu. apply number_increasing; [apply zsort_lt; apply dedup_NoDup|apply S1; exact Ht|apply S1; exact Hu].
Qed.

(** ** Ordering by table *)

Definition at_table (t : Z) (l : list (Z * Z)) : list (Z * Z) := filter (fun p => snd p =? t) l.
Definition grouped_by (ks : list Z) (l : list (Z * Z)) : list (Z * Z) := flat_map (fun t => at_table t l) ks.

Lemma filter_perm : forall (l : list (Z * Z)) t ks, ~ In t ks ->
  Permutation (at_table t l ++ filter (fun p => memb (snd p) ks) l) (filter (fun p => memb (snd p) (t :: ks)) l).
Proof.
  intros l t ks N. induction l as [|[r u] l IH]; [constructor|]. unfold at_table in *. cbn [filter snd memb].
  destruct (Z.eqb_spec u t) as [->|NE].
  - destruct (eq_dec t t); [|congruence]. destruct (memb t ks) eqn:M; [apply memb_In in M; contradiction|]. cbn. constructor. exact IH.
  - destruct (eq_dec u t); [congruence|]. destruct (memb u ks) eqn:M; [|exact IH].
    apply Permutation_sym. apply Permutation_cons_app. apply Permutation_sym. exact IH.
Qed.

Lemma grouped_perm : forall ks l, NoDup ks -> Permutation (grouped_by ks l) (filter (fun p => memb (snd p) ks) l).
Proof.
  induction ks as [|t ks IH]; intros l ND; cbn [grouped_by flat_map].
  - assert (X : filter (fun p : Z * Z => memb (snd p) []) l = []) by (induction l; [reflexivity|exact IHl]). rewrite X. constructor.
  - inversion ND; subst. eapply Permutation_trans; [apply Permutation_app_head; apply IH; assumption|]. apply filter_perm. assumption.
Qed.

Lemma filter_all : forall {A} (b : A -> bool) l, (forall a, In a l -> b a = true) -> filter b l = l.
Proof. induction l as [|a l IH]; intros H; [reflexivity|]. cbn. rewrite H by now left. f_equal. apply IH. intros; apply H; now right. Qed.

Lemma filter_none : forall {A} (b : A -> bool) l, (forall a, In a l -> b a = false) -> filter b l = [].
Proof. induction l as [|a l IH]; intros H; [reflexivity|]. cbn. rewrite H by now left. apply IH. intros; apply H; now right. Qed.

Lemma at_table_In : forall t l p, In p (at_table t l) <-> In p l /\ snd p = t.
Proof. intros. unfold at_table. rewrite filter_In, Z.eqb_eq. reflexivity. Qed.

Lemma grouped_ordered : forall ks l, StronglySorted Z.lt ks -> (forall p, In p l -> In (snd p) ks) -> ordered_by_table l (grouped_by ks l).
Proof.
  intros ks l ST C. assert (ND := sorted_lt_NoDup _ ST). split; [|split].
  - eapply Permutation_trans; [apply grouped_perm; exact ND|]. rewrite filter_all; [reflexivity|]. intros p Hp. apply memb_In. apply C. exact Hp.
  - clear C ND. induction ST as [|t ks ST IH F]; [constructor|]. cbn [grouped_by flat_map].
    assert (G : forall p q, In p (at_table t l) -> In q (grouped_by ks l) -> snd p <= snd q).
    { intros p q Hp Hq. apply at_table_In in Hp. apply in_flat_map in Hq. destruct Hq as (u & Hu & Hq). apply at_table_In in Hq.
      rewrite Forall_forall in F. specialize (F u Hu). lia. }
    fold (grouped_by ks l). revert IH G. generalize (grouped_by ks l). intros g IH G.
    assert (E : forall p, In p (at_table t l) -> snd p = t) by (intros p Hp; apply at_table_In in Hp; tauto).
    revert E G. generalize (at_table t l). induction l0 as [|p l0 IH0]; intros E G; [exact IH|]. cbn. constructor.
    + apply IH0; [intros; apply E; now right|intros; apply G; [now right|assumption]].
    + apply Forall_app. split; apply Forall_forall; intros q Hq.
      * rewrite (E p), (E q); [lia|now right|now left].
      * apply G; [now left|exact Hq].
  - intros t. change (at_table t (grouped_by ks l) = at_table t l).
    destruct (in_dec Z.eq_dec t ks) as [I0|N0].
    + clear C ST. induction ks as [|u ks IH]; [destruct I0|]. inversion ND as [|? ? NI ND']; subst. unfold grouped_by. cbn [flat_map]. unfold at_table at 1. rewrite filter_app.
      destruct (Z.eq_dec u t) as [->|NE].
      * rewrite filter_all by (intros p Hp; apply at_table_In in Hp; apply Z.eqb_eq; tauto).
        rewrite filter_none; [apply app_nil_r|]. intros p Hp. apply in_flat_map in Hp. destruct Hp as (u & Hu & Hp). apply at_table_In in Hp.
        apply Z.eqb_neq. intros E. apply NI. destruct Hp as [_ Hp]. congruence.
      * rewrite filter_none; [apply IH; [exact ND'|destruct I0; [congruence|assumption]]|]. intros p Hp. apply at_table_In in Hp. apply Z.eqb_neq. destruct Hp. congruence.
    + unfold at_table. rewrite !filter_none; [reflexivity| |].
      * intros p Hp. apply Z.eqb_neq. intros <-. apply N0. apply C. exact Hp.
      * intros p Hp. apply in_flat_map in Hp. destruct Hp as (u & Hu & Hp). apply at_table_In in Hp. apply Z.eqb_neq. intros <-. apply N0. destruct Hp as [_ ->]. exact Hu.
Qed.

(** The dict made by get_sorted_rowids. *)
Definition stmt_of (o : Z) (p : Z * Z) : Z * dict Z Z := (fst p, [(o, snd p)]).

Lemma rows_by_table_snoc : forall o l p, rows_by_table o (l ++ [p]) =
  (do d <- rows_by_table o l; do table <- dget o (snd p);
   Ok (dset table (match lookup table d with Some l => l | None => [] end ++ [fst p]) d)).
Proof. intros. unfold rows_by_table. rewrite fold_left_app. reflexivity. Qed.

Lemma rows_by_table_ok : forall o pairs, exists d, rows_by_table o (map (stmt_of o) pairs) = Ok d /\
  NoDup (keys d) /\ (forall t, In t (keys d) <-> In t (map snd pairs)) /\
  forall t l, lookup t d = Some l -> l = map fst (at_table t pairs).
Proof.
  intros o pairs. induction pairs as [|[r t] pairs IH] using rev_ind.
  - exists []. split; [reflexivity|]. split; [constructor|]. split; [reflexivity|]. discriminate.
  - destruct IH as (d & E & ND & K & L). rewrite map_app. cbn [map]. rewrite rows_by_table_snoc, E. cbn [obind stmt_of fst snd].
    unfold dget. cbn [lookup]. destruct (eq_dec o o); [|congruence]. cbn [obind].
    eexists. split; [reflexivity|]. split; [apply NoDup_keys_dset; exact ND|]. split.
    + intros u. rewrite keys_dset_In, K, map_app, in_app_iff. cbn. intuition.
    + intros u l. rewrite lookup_dset. unfold at_table. rewrite filter_app, map_app. cbn [filter snd].
      destruct (eq_dec u t) as [->|NE].
      * intros [= <-]. rewrite Z.eqb_refl. cbn [map fst]. f_equal. destruct (lookup t d) as [l|] eqn:LT; [apply L; exact LT|].
        rewrite filter_none; [reflexivity|]. intros [r' t'] Hp. cbn. apply Z.eqb_neq. intros ->.
        apply lookup_None in LT. apply LT. apply K. apply in_map_iff. exists (r', t). auto.
      * intros LU. rewrite (proj2 (Z.eqb_neq t u)) by congruence. cbn. rewrite app_nil_r. apply L. exact LU.
Qed.

Lemma combine_stmts : forall o (rows ts : list Z), combine rows (stmts o ts) = map (stmt_of o) (combine rows ts).
Proof. induction rows as [|r rows IH]; intros [|t ts]; cbn; try reflexivity. f_equal. apply IH. Qed.

Lemma map_snd_combine : forall {A B} (l : list A) (l' : list B), List.length l = List.length l' -> map snd (combine l l') = l'.
Proof. induction l as [|a l IH]; intros [|b l'] E; cbn in *; try reflexivity; try discriminate. f_equal. apply IH. lia. Qed.

Lemma map_fst_combine : forall {A B} (l : list A) (l' : list B), List.length l = List.length l' -> map fst (combine l l') = l.
Proof. induction l as [|a l IH]; intros [|b l'] E; cbn in *; try reflexivity; try discriminate. f_equal. apply IH. lia. Qed.

Lemma sorted_rowids_ok : forall o rows ts, ts <> [] -> List.length rows = List.length ts ->
  exists l, get_sorted_rowids rows (stmts o ts) = Ok (map fst l) /\ ordered_by_table (combine rows ts) l.
Proof.
  intros o rows ts NE EL. unfold get_sorted_rowids. rewrite (only_key_ok o ts NE). cbn [obind].
  assert (X : Nat.eqb (List.length (stmts o ts)) (List.length rows) = true) by (apply Nat.eqb_eq; unfold stmts; rewrite map_length; lia).
  rewrite X. cbn [oassert obind]. rewrite combine_stmts. destruct (rows_by_table_ok o (combine rows ts)) as (d & E & ND & K & L). rewrite E. cbn [obind].
  exists (grouped_by (zsort (keys d)) (combine rows ts)). split.
  - rewrite (oseq_map_ok _ (fun t => map fst (at_table t (combine rows ts)))).
    + cbn. f_equal. unfold grouped_by. rewrite flat_map_concat_map, concat_map, map_map. reflexivity.
    + intros t Ht. apply (proj1 (zsort_In _ _)) in Ht. unfold dget. destruct (lookup t d) as [l|] eqn:LT.
      * rewrite (L t l LT). reflexivity.
      * apply lookup_None in LT. exfalso. exact (LT Ht).
  - apply grouped_ordered; [apply zsort_lt; exact ND|]. intros p Hp. apply zsort_In. apply K. apply in_map. exact Hp.
Qed.

(** ** sorted by table *)

Lemma insert_perm : forall e l, Permutation (insert_by_table e l) (e :: l).
Proof.
  intros e l. induction l as [|f l IH]; cbn; [reflexivity|]. destruct (snd e <=? snd f); [reflexivity|].
  eapply Permutation_trans; [apply perm_skip; exact IH|]. apply perm_swap.
Qed.

Lemma insert_sorted : forall e l, StronglySorted (fun p q : Z * Z => snd p <= snd q) l -> StronglySorted (fun p q => snd p <= snd q) (insert_by_table e l).
Proof.
  intros e l H. induction H as [|f l H IH F]; cbn; [repeat constructor|]. destruct (Z.leb_spec (snd e) (snd f)) as [L|L].
  - constructor; [constructor; assumption|]. constructor; [exact L|]. revert F. apply Forall_impl. intros; lia.
  - constructor; [exact IH|]. apply Forall_forall. intros q Hq. apply (Permutation_in _ (insert_perm e l)) in Hq. destruct Hq as [<-|Hq]; [lia|].
    rewrite Forall_forall in F. apply F. exact Hq.
Qed.

Lemma insert_stable : forall e l t, at_table t (insert_by_table e l) = at_table t (e :: l).
Proof.
  intros e l t. induction l as [|f l IH]; cbn [insert_by_table]; [reflexivity|]. destruct (Z.leb_spec (snd e) (snd f)) as [L|L]; [reflexivity|].
  unfold at_table in *. cbn [filter] in *. rewrite IH. destruct (Z.eqb_spec (snd f) t), (Z.eqb_spec (snd e) t); try reflexivity. lia.
Qed.

Lemma sort_by_table_ok : forall l, ordered_by_table l (sort_by_table l).
Proof.
  intros l. induction l as [|e l (P & ST & F)]; [split; [constructor|split; [constructor|reflexivity]]|].
  change (sort_by_table (e :: l)) with (insert_by_table e (sort_by_table l)). split; [|split].
  - eapply Permutation_trans; [apply insert_perm|]. apply perm_skip. exact P.
  - apply insert_sorted. exact ST.
  - intros t. change (at_table t (insert_by_table e (sort_by_table l)) = at_table t (e :: l)). rewrite insert_stable. unfold at_table. cbn [filter]. rewrite F. reflexivity.
Qed.

(** ** rebase_cgpm_row_assignments *)

Lemma rebase_ok : forall order (Zr : dict Z Z), lists order ->
  rebase_cgpm_row_assignments order Zr = Ok (sort_by_table (map (fun e => (fst e, number (order (values Zr)) (snd e))) Zr)).
Proof.
  intros order Zr LO. unfold rebase_cgpm_row_assignments. rewrite (oseq_map_ok _ (fun e => (fst e, number (order (values Zr)) (snd e)))); [reflexivity|].
  intros e He. rewrite number_ok; [reflexivity|]. apply LO. unfold values. now apply in_map.
Qed.

Lemma rebase_renumbering : forall order (Zr : dict Z Z), lists order -> renumbering (number (order (values Zr))) (values Zr).
Proof. intros order Zr LO. apply number_renumbering; apply LO. Qed.

(** ** Acceptance by the CRP *)

(** The tables of [l] are 0..K-1, the rows different, in the order of their tables. *)
Definition well_ordered (l : list (Z * Z)) : Prop :=
  NoDup (map fst l) /\ StronglySorted (fun p q : Z * Z => snd p <= snd q) l /\ exists K, forall z, In z (map snd l) <-> 0 <= z < K.

Definition as_data (l : list (Z * Z)) : dict Z val := map (fun p : Z * Z => (fst p, vz (snd p))) l.

Lemma as_data_occupied : forall l t, occupied (as_data l) t <-> In t (map snd l).
Proof.
  intros l t. unfold occupied, as_data. split.
  - intros (r & H). apply in_map_iff in H. destruct H as ((r' & t') & E & H). cbn in E. assert (vz t' = vz t) by congruence.
    assert (t' = t) by (apply qz_inj; unfold vz in *; congruence). subst. apply in_map_iff. exists (r', t). auto.
  - intros H. apply in_map_iff in H. destruct H as ((r & t') & <- & H). exists r. apply in_map_iff. exists (r, t'). auto.
Qed.

Lemma sorted_app_le : forall (l1 l2 : list (Z * Z)), StronglySorted (fun p q => snd p <= snd q) (l1 ++ l2) -> forall p q, In p l1 -> In q l2 -> snd p <= snd q.
Proof.
  induction l1 as [|a l1 IH]; intros l2 H p q Hp Hq; [destruct Hp|]. cbn in H. inversion H as [|? ? H1 H2]; subst. destruct Hp as [->|Hp].
  - rewrite Forall_forall in H2. apply H2. apply in_or_app. now right.
  - eapply IH; eauto.
Qed.

Lemma sorted_app_r : forall (l1 l2 : list (Z * Z)), StronglySorted (fun p q => snd p <= snd q) (l1 ++ l2) -> StronglySorted (fun p q => snd p <= snd q) l2.
Proof. induction l1 as [|a l1 IH]; intros l2 H; [exact H|]. cbn in H. inversion H; subst. apply IH. assumption. Qed.

(** The table of the next row is occupied or the next one. *)
Lemma next_accepted : forall l1 r t l2, well_ordered (l1 ++ (r, t) :: l2) -> in_domain KTable (as_data l1) (vz t).
Proof.
  intros l1 r t l2 (ND & ST & K & HK). unfold vz. cbn [in_domain]. rewrite trunc_qz.
  assert (Bt : 0 <= t < K) by (apply HK; rewrite map_app; apply in_or_app; right; now left).
  assert (TS : forall z, 0 <= z < K -> In z (map snd l1) \/ t <= z).
  { intros z Hz. apply HK in Hz. rewrite map_app in Hz. apply in_app_or in Hz. destruct Hz as [Hz|[<-|Hz]]; [now left|right; cbn; lia|].
    right. apply in_map_iff in Hz. destruct Hz as (q & <- & Hq). assert (X := sorted_app_r _ _ ST). inversion X as [|? ? _ F]; subst.
    rewrite Forall_forall in F. apply (F q Hq). }
  assert (UP : forall z, In z (map snd l1) -> 0 <= z <= t).
  { intros z Hz. split.
    - assert (X : In z (map snd (l1 ++ (r, t) :: l2))) by (rewrite map_app; apply in_or_app; now left). apply HK in X. lia.
    - apply in_map_iff in Hz. destruct Hz as (p & <- & Hp). apply (sorted_app_le _ _ ST p (r, t) Hp). now left. }
  destruct (in_dec Z.eq_dec t (map snd l1)) as [I0|N0]; [left; apply as_data_occupied; exact I0|right].
  destruct (Z.eq_dec t 0) as [->|NZ].
  - left. split; [|reflexivity]. destruct l1 as [|p l1]; [reflexivity|]. exfalso. assert (X := UP (snd p) (or_introl eq_refl)).
    apply N0. replace 0 with (snd p) by lia. now left.
  - right. split.
    + apply as_data_occupied. destruct (TS (t - 1)) as [X|X]; [lia|exact X|lia].
    + intros t' Ht. apply as_data_occupied in Ht. assert (X := UP t' Ht). assert (t' <> t) by (intros ->; contradiction). lia.
Qed.

Lemma stored_table : forall t, stored KTable (vz t) = vz t.
Proof. intros t. cbn. now rewrite trunc_qz. Qed.

Lemma seated_ok : forall l2 l1 d, dinv d -> kind_of d = KTable -> dist_data d = as_data l1 -> well_ordered (l1 ++ l2) ->
  exists d', seated d l2 d' /\ dist_data d' = as_data (l1 ++ l2) /\ dist_o d' = dist_o d.
Proof.
  induction l2 as [|[r t] l2 IH]; intros l1 d D KD DD W.
  - exists d. split; [constructor|]. rewrite app_nil_r. auto.
  - assert (DM := next_accepted l1 r t l2 W).
    assert (NR : ~ In r (keys (dist_data d))).
    { rewrite DD. destruct W as (ND & _). rewrite map_app in ND. cbn [map fst] in ND. apply NoDup_remove_2 in ND. intros X. apply ND. apply in_or_app. left.
      unfold keys, as_data in X. rewrite map_map in X. exact X. }
    destruct (leaf_accepts d r (vz t) D NR) as (d1 & E & DD1); [rewrite KD, DD; exact DM|].
    assert (D1 := observe_dinv d r [(dist_o d, vz t)] [] D). rewrite E in D1. cbn [fst] in D1.
    assert (FR := observe_frame d r [(dist_o d, vz t)] []). rewrite E in FR. cbn [fst] in FR. destruct FR as (FK & FO & _).
    destruct (IH (l1 ++ [(r, t)]) d1 D1) as (d' & H & H1 & H2).
    + congruence.
    + rewrite DD1, KD, stored_table, DD. unfold as_data. rewrite map_app. reflexivity.
    + rewrite <- app_assoc. exact W.
    + exists d'. split; [econstructor; eauto|]. rewrite <- app_assoc in H1. cbn in H1. split; [exact H1|congruence].
Qed.

Lemma fresh_accepts : forall o alpha l, (0 < qr alpha)%R -> well_ordered l ->
  exists d, seated (DCrp (crp_new o alpha)) l d /\ dist_data d = as_data l.
Proof.
  intros o alpha l A W. destruct (seated_ok l [] (DCrp (crp_new o alpha))) as (d & H & H1 & _); auto.
  - apply fresh_dinv. constructor. exact A.
  - exists d. auto.
Qed.

Lemma ordered_well : forall l0 l f ts, ordered_by_table l0 l -> NoDup (map fst l0) -> map snd l0 = map f ts -> renumbering f ts -> well_ordered l.
Proof.
  intros l0 l f ts (P & ST & _) ND E (_ & K & HK). split; [|split; [exact ST|]].
  - apply (Permutation_NoDup (Permutation_sym (Permutation_map fst P))). exact ND.
  - exists K. intros z. rewrite <- HK, <- E. split; apply Permutation_in; [|apply Permutation_sym]; apply Permutation_map; exact P.
Qed.
