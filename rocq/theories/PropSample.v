(** C47, C53, C54: random partitions, rendered views, imported states. *)
From Coq Require Import List ZArith QArith Qcanon Reals Bool String Permutation Sorted Lia Lra.
From Verif Require Import Base Xr Samp Lgamma Prims Cgpm Lib SpecPrims PrimsInv SpecComp CompInv CompDens CompThm SimShape PropPrims DemoComp PropComp
  SpecTable SpecHist Table Gibbs Hist PropTable Walks SpecWalks WalksThm Trans Views ViewsThm ViewsThm2 PropViews CrosscatThm CppThm2 PropCpp
  Sample SampleThm SampleThm2 SampleThm3 SampleThm4.
From Verif Require Import SpecViews SpecCpp SpecSample.
Import ListNotations.
Local Open Scope Z_scope.

(** ** C47 *)

(** Whatever is drawn, for every number of customers and every concentration: an answer of
    generate_random_partition is a list of nonempty disjoint blocks that cover range(N); the
    blocks are in the order of their first members and each is increasing. *)
Theorem C47_partition : forall alpha N,
  always (generate_random_partition alpha N) (fun r => match r with Ok p => partition_of N p /\ by_appearance p | Err _ => True end).
Proof. exact partition_always. Qed.
Print Assumptions C47_partition.

Lemma demo_partition : partition_of 3 [[0; 2]; [1]] /\ by_appearance [[0; 2]; [1]].
Proof.
  split; [split; [|split]|split].
  - intros b [<-|[<-|[]]]; discriminate.
  - repeat (constructor; [cbn; intuition lia|]). constructor.
  - cbn. intuition lia.
  - intros b [<-|[<-|[]]]; repeat constructor; lia.
  - repeat constructor; cbn; lia.
Qed.

Example C47_partition_case : partition_of 3 [[0; 2]; [1]] /\ by_appearance [[0; 2]; [1]] /\ ~ partition_of 3 [[0]; [1]] /\ ~ partition_of 3 [[0; 2]; [1; 2]].
Proof.
  split; [apply demo_partition|]. split; [apply demo_partition|]. split.
  - intros (_ & _ & H). assert (X := proj2 (H 2)). cbn in X. intuition lia.
  - intros (_ & H & _). cbn in H. inversion H as [|? ? _ H1]; subst. inversion H1 as [|? ? N _]; subst. apply N. cbn. auto.
Qed.

(** With a positive concentration it never raises. *)
Theorem C47_total : forall alpha N, (0 < qr alpha)%R ->
  always (generate_random_partition alpha N) (fun r => exists p, r = Ok p /\ partition_of N p /\ by_appearance p).
Proof. exact partition_total. Qed.
Print Assumptions C47_total.

Example C47_total_case : (0 < qr half)%R.
Proof. exact half_pos. Qed.

(** Each partition comes out with its probability under the Chinese restaurant process. *)
Theorem C47_law : forall alpha N p, (0 < qr alpha)%R -> partition_of N p -> by_appearance p ->
  expect (generate_random_partition alpha N) (fun r => match r with Ok q => if eq_dec q p then 1%R else 0%R | Err _ => 0%R end) =
  crp_probability (qr alpha) p.
Proof. intros alpha N p A P B. exact (partition_law alpha N p A (conj P B)). Qed.
Print Assumptions C47_law.

Example C47_law_case : (0 < qr half)%R /\ partition_of 3 [[0; 2]; [1]] /\ by_appearance [[0; 2]; [1]] /\ crp_probability (qr half) [[0; 2]; [1]] = (2 / 15)%R.
Proof.
  split; [exact half_pos|]. split; [apply demo_partition|]. split; [apply demo_partition|]. unfold crp_probability.
  assert (X : qr half = (1 / 2)%R) by (unfold qr, half; cbn; unfold Q2R; cbn; lra).
  rewrite X. cbn. lra.
Qed.

(** ** C53 *)

(** A view whose rows are not recorded in the order of their clusters: rows 0, 1, 2, 3 in
    clusters 0, 0, 1, 0. *)
Definition demo_mixed : cgpm := state_of (observe demo_view 3 [(9, vz 0); (1, vz 1); (2, vz 1)] []).
Definition mixed_rows : list (Z * Z) := [(0, 0); (1, 0); (2, 1); (3, 0)].
Definition view_rows : list (Z * Z) := [(0, 0); (1, 0); (2, 1)].

Lemma demo_view_good : grown demo_view /\ sheet demo_view /\ consistent demo_view.
Proof. apply (history_view demo_new demo_events); [exact demo_new_view|exact demo_history]. Qed.

Lemma demo_mixed_good : grown demo_mixed /\ sheet demo_mixed /\ consistent demo_mixed.
Proof.
  apply (history_view demo_new (demo_events ++ [EObserve 3 [(9, vz 0); (1, vz 1); (2, vz 1)]])); [exact demo_new_view|].
  apply (h_step demo_new demo_events demo_view); [exact demo_history|]. apply observe_happens.
  - repeat constructor; cbn; intuition lia.
  - intros y [= <-]. eexists; reflexivity.
  - vm_compute. reflexivity.
Qed.

Lemma demo_view_rows : recorded_rows demo_view view_rows.
Proof. eexists. split; vm_compute; reflexivity. Qed.
Lemma demo_mixed_rows : recorded_rows demo_mixed mixed_rows.
Proof. eexists. split; vm_compute; reflexivity. Qed.

Lemma seats_are : forall m l r, consistent m -> recorded_rows m l -> seat m r = option_map vz (lookup r l).
Proof.
  intros m l r K (s & ED & DD). rewrite (seat_divider m s r K ED), DD. clear. induction l as [|[r0 t0] l IH]; [reflexivity|]. cbn [map lookup fst snd].
  destruct (eq_dec r r0); [reflexivity|exact IH].
Qed.

Lemma rows_cells : forall m l, consistent m -> recorded_rows m l ->
  forallb (fun p => match cell m (fst p) 1 with Some _ => true | None => false end) l = true -> no_empty_rows m.
Proof.
  intros m l K R F r E. rewrite (seats_are m l r K R) in E. destruct (lookup r l) as [t|] eqn:L; [|contradiction E; reflexivity].
  apply lookup_In in L. rewrite forallb_forall in F. specialize (F _ L). cbn [fst] in F. exists 1. destruct (cell m r 1) as [x|]; [eauto|discriminate].
Qed.

Lemma demo_view_full : no_empty_rows demo_view.
Proof. apply (rows_cells _ view_rows); [exact (proj2 (proj2 demo_view_good))|exact demo_view_rows|vm_compute; reflexivity]. Qed.
Lemma demo_mixed_full : no_empty_rows demo_mixed.
Proof. apply (rows_cells _ mixed_rows); [exact (proj2 (proj2 demo_mixed_good))|exact demo_mixed_rows|vm_compute; reflexivity]. Qed.

(** Every view records its rows with clusters. *)
Theorem C53_rows : forall m, grown m -> sheet m -> consistent m -> exists l, recorded_rows m l /\ NoDup (map fst l) /\
  forall r, seat m r = option_map vz (lookup r l).
Proof.
  intros m GR Sh K. assert (W := grown_wf _ GR). destruct (sheet_inv m Sh) as (s & bs & cs & r2i & r2c & -> & NB & B & C).
  assert (SH : shaped bs cs) by (split; auto). assert (KW := proj1 (consistent_parts _ _ _ _ _ SH) K). destruct KW as (_ & _ & A3 & _ & A5 & _).
  destruct (view_parts _ _ _ _ _ W) as (D & _).
  assert (ND := dinv_keys _ D).
  assert (X : forall dd, (forall r k, In (r, k) dd -> exists z, k = vz z) -> exists l, dd = map (fun p : Z * Z => (fst p, vz (snd p))) l).
  { clear. induction dd as [|[r k] dd IH]; intros H; [exists []; reflexivity|]. destruct IH as [l ->]; [intros; eapply H; right; eauto|].
    destruct (H r k (or_introl eq_refl)) as [z ->]. exists ((r, z) :: l). reflexivity. }
  destruct (X (dist_data (DCrp s))) as [l E].
  { intros r k H. apply (A5 r). rewrite <- A3. apply In_lookup; [exact ND|exact H]. }
  assert (RR : recorded_rows (mkview s bs cs r2i r2c) l) by (exists (DCrp s); split; [reflexivity|exact E]).
  exists l. split; [exact RR|]. split; [rewrite E in ND; unfold keys in ND; rewrite map_map in ND; exact ND|]. intros r. apply seats_are; assumption.
Qed.
Print Assumptions C53_rows.

Example C53_rows_case : grown demo_mixed /\ sheet demo_mixed /\ consistent demo_mixed /\ recorded_rows demo_mixed mixed_rows.
Proof. split; [exact (proj1 demo_mixed_good)|]. split; [exact (proj1 (proj2 demo_mixed_good))|]. split; [exact (proj2 (proj2 demo_mixed_good))|]. exact demo_mixed_rows. Qed.

(** The claim: the statement of each row names the cluster it is recorded in, the clusters
    being renumbered alike for all rows. *)
Definition names_clusters (m : cgpm) (d : dict Z row) : Prop :=
  exists f : Z -> Z, (forall r r' t t', seat m r = Some (vz t) -> seat m r' = Some (vz t') -> f t = f t' -> t = t') /\
    forall r obs t, In (r, obs) d -> seat m r = Some (vz t) -> names_cluster m (f t) obs.

(** It is false: rows 0 and 3 are recorded in one cluster, and the statements put row 3 in
    another. *)
Theorem C53_refuted : exists m d, (exists m0 es, new_view m0 /\ history m0 es m) /\ get_view_observes m = Ok d /\
  no_empty_rows m /\ ~ names_clusters m d.
Proof.
  exists demo_mixed, [(0, [(9, vz 0); (1, vz 2); (2, vz 1)]); (1, [(9, vz 0); (1, vz 0)]); (3, [(9, vz 1); (1, vz 1); (2, vz 1)]); (2, [(9, vz 0); (1, vz 2); (2, vz 0)])].
  split; [|split; [vm_compute; reflexivity|split; [exact demo_mixed_full|]]].
  - exists demo_new, (demo_events ++ [EObserve 3 [(9, vz 0); (1, vz 1); (2, vz 1)]]). split; [exact demo_new_view|].
    apply (h_step demo_new demo_events demo_view); [exact demo_history|]. apply observe_happens.
    + repeat constructor; cbn; intuition lia.
    + intros y [= <-]. eexists; reflexivity.
    + vm_compute. reflexivity.
  - intros (f & INJ & H). assert (K := proj2 (proj2 demo_mixed_good)). assert (SE := fun r => seats_are demo_mixed mixed_rows r K demo_mixed_rows).
    assert (E : label_of demo_mixed = 9) by (vm_compute; reflexivity). unfold names_cluster in H. rewrite E in H. clear E K. revert INJ H SE. generalize demo_mixed. intros m INJ H SE.
    assert (A := H 0 _ 0 (or_introl eq_refl) (SE 0)). assert (B := H 3 _ 0 (or_intror (or_intror (or_introl eq_refl))) (SE 3)).
    rewrite lookup_cons_eq in A, B.
    assert (f 0 = 0) by (apply qz_inj; unfold vz in A; congruence). assert (f 0 = 1) by (apply qz_inj; unfold vz in B; congruence). lia.
Qed.
Print Assumptions C53_refuted.

(** What the statements are: every row once, ordered by cluster, with exactly its cells; the
    row in place i is given the cluster of the row *recorded* in place i, the clusters
    renumbered from 0 in increasing order. *)
Theorem C53_statements : forall m l, grown m -> sheet m -> consistent m -> recorded_rows m l -> l <> [] -> no_empty_rows m ->
  exists f lo d, renumbering f (map snd l) /\ (forall t u, In t (map snd l) -> In u (map snd l) -> t < u -> f t < f u) /\
    ordered_by_table (map (fun p => (fst p, f (snd p))) l) lo /\
    get_view_observes m = Ok d /\ map fst d = map fst lo /\
    Forall2 (fun e p => NoDup (keys (snd e)) /\ names_cluster m (f (snd p)) (snd e) /\ cells_of_row m (fst e) (snd e)) d l.
Proof. exact rendered. Qed.
Print Assumptions C53_statements.

Example C53_statements_case : grown demo_mixed /\ sheet demo_mixed /\ consistent demo_mixed /\ recorded_rows demo_mixed mixed_rows /\ mixed_rows <> [] /\ no_empty_rows demo_mixed.
Proof. split; [exact (proj1 demo_mixed_good)|]. split; [exact (proj1 (proj2 demo_mixed_good))|]. split; [exact (proj2 (proj2 demo_mixed_good))|]. split; [exact demo_mixed_rows|]. split; [discriminate|exact demo_mixed_full]. Qed.

(** When the rows are recorded in the order of their clusters the claim holds; moreover the
    statements, observed in turn by a new view with the same columns, are all accepted and
    restore the table: the same cells, the same clusters renumbered. *)
Theorem C53_sorted : forall m l v0, grown m -> sheet m -> consistent m -> recorded_rows m l -> l <> [] -> no_empty_rows m ->
  StronglySorted (fun p q : Z * Z => snd p <= snd q) l ->
  new_view v0 -> label_of v0 = label_of m -> columns_of v0 = columns_of m -> (forall o, kind_at v0 o = kind_at m o) ->
  exists d f v, get_view_observes m = Ok d /\ renumbering f (map snd l) /\ names_clusters m d /\
    observe_rows v0 d = Ret (v, Ok tt) /\ (forall r, seat v r = option_map (fun t => vz (f t)) (lookup r l)) /\ forall r o, cell v r o = cell m r o.
Proof.
  intros m l v0 GR Sh K RR NE NR ST NV EL EC EK. assert (G : good m) by (split; [exact GR|split; assumption]).
  destruct (replay m l v0 G RR NE NR ST NV EL EC EK) as (f & d & v & RN & EG & EO & Gv & SC & SE & CE). exists d, f, v.
  split; [exact EG|]. split; [exact RN|]. split; [|auto].
  destruct (rendered m l GR Sh K RR NE NR) as (f2 & lo & d2 & RN2 & INC & ORD & EG2 & EF & F2). assert (d2 = d) by congruence. subst d2.
  assert (lo = map (fun p => (fst p, f2 (snd p))) l).
  { apply ordered_fixed; [|exact ORD]. apply sorted_map_snd. rewrite map_map. cbn [snd]. apply sorted_map_snd in ST. rewrite <- (map_map snd f2).
    clear - ST INC. assert (X : forall ts, (forall t, In t ts -> In t (map snd l)) -> StronglySorted Z.le ts -> StronglySorted Z.le (map f2 ts)).
    { intros ts Ht S1. induction S1 as [|t ts S1 IH F]; [constructor|]. cbn [map]. constructor; [apply IH; intros; apply Ht; now right|].
      apply Forall_forall. intros y Hy. apply in_map_iff in Hy. destruct Hy as (u & <- & Hu). rewrite Forall_forall in F. assert (t <= u) by (apply F; exact Hu).
      destruct (Z.eq_dec t u) as [->|]; [lia|]. assert (f2 t < f2 u) by (apply INC; [apply Ht; now left|apply Ht; now right|lia]). lia. }
    apply X; auto. }
  subst lo. rewrite map_map in EF. cbn [fst] in EF. destruct (replay_list _ f2 d l F2 EF) as (L & L1 & L2 & L3).
  assert (INl : forall r t, seat m r = Some (vz t) -> In (r, t) l).
  { intros r t E. rewrite (seats_are m l r K RR) in E. destruct (lookup r l) as [u|] eqn:LU; [|discriminate]. cbn in E. assert (u = t) by (apply qz_inj; unfold vz in E; congruence). subst u.
    apply lookup_In. exact LU. }
  exists f2. split.
  - intros r r' t t' E E'. apply (proj1 RN2); [apply INl in E; apply (in_map snd) in E; exact E|apply INl in E'; apply (in_map snd) in E'; exact E'].
  - intros r obs t Hd E. rewrite <- L1 in Hd. apply in_map_iff in Hd. destruct Hd as (((r' & u) & obs') & X & HL). cbn in X. injection X as -> ->.
    destruct (L3 _ _ _ HL) as (p & Hp & Er & -> & _ & NC & _). cbn [fst snd] in NC.
    assert (p = (r, t)).
    { destruct RR as (s & ED & DD). apply INl in E. destruct p as [r' u]. cbn in Er. subst r'. f_equal.
      assert (NDl : NoDup (map fst l)).
      { assert (W := grown_wf _ GR). destruct (sheet_inv m Sh) as (s' & bs & cs & r2i & r2c & -> & _). destruct (view_parts _ _ _ _ _ W) as (D & _).
        cbn [divider mkview] in ED. injection ED as <-. apply dinv_keys in D. rewrite DD in D. unfold keys in D. rewrite map_map in D. exact D. }
      assert (Some u = Some t) by (rewrite <- (In_lookup l r u NDl Hp); apply (In_lookup l r t NDl E)). congruence. }
    subst p. exact NC.
Qed.
Print Assumptions C53_sorted.

Example C53_sorted_case : grown demo_view /\ sheet demo_view /\ consistent demo_view /\ recorded_rows demo_view view_rows /\ view_rows <> [] /\ no_empty_rows demo_view /\
  StronglySorted (fun p q : Z * Z => snd p <= snd q) view_rows /\
  new_view demo_new /\ label_of demo_new = label_of demo_view /\ columns_of demo_new = columns_of demo_view /\ forall o, kind_at demo_new o = kind_at demo_view o.
Proof.
  split; [exact (proj1 demo_view_good)|]. split; [exact (proj1 (proj2 demo_view_good))|]. split; [exact (proj2 (proj2 demo_view_good))|]. split; [exact demo_view_rows|]. split; [discriminate|]. split; [exact demo_view_full|].
  split; [repeat constructor; cbn; lia|]. split; [exact demo_new_view|]. split; [vm_compute; reflexivity|]. split; [vm_compute; reflexivity|].
  destruct (new_view_good demo_new demo_new_view) as (RE & S & K & R).
  destruct (history_refines creachable creachable_stable creachable_wf demo_new demo_events demo_view RE S K _ R demo_history) as (_ & _ & _ & (_ & _ & C) & _).
  intros o. symmetry. apply C.
Qed.

(** A view without rows cannot be rendered. *)
Theorem C53_empty : forall m, grown m -> sheet m -> consistent m -> recorded_rows m [] -> get_view_observes m = Err IndexError.
Proof.
  intros m GR Sh K (s & ED & DD). destruct (sheet_inv m Sh) as (s' & bs & cs & r2i & r2c & -> & _). cbn [divider mkview] in ED. injection ED as <-. cbn [map] in DD.
  unfold get_view_observes, mkview. change (get_rowids _) with (Ok (keys (dist_data (DCrp s')))). cbn [obind]. rewrite DD. reflexivity.
Qed.
Print Assumptions C53_empty.

Example C53_empty_case : grown demo_new /\ sheet demo_new /\ consistent demo_new /\ recorded_rows demo_new [].
Proof.
  destruct (new_view_good demo_new demo_new_view) as (RE & S & K & R). split; [apply creachable_grown; exact RE|]. split; [exact S|]. split; [exact K|].
  eexists. split; vm_compute; reflexivity.
Qed.

(** For VentureScript the clusters are right: each row in the order recorded with its cluster,
    renumbered. *)
Theorem C53_crp_vs : forall m l, grown m -> sheet m -> consistent m -> recorded_rows m l ->
  exists f, renumbering f (map snd l) /\ (forall t u, In t (map snd l) -> In u (map snd l) -> t < u -> f t < f u) /\
    get_view_observes_crp_vs m = Ok (map (fun p => (fst p, f (snd p))) l).
Proof. exact crp_vs_ok. Qed.
Print Assumptions C53_crp_vs.

Example C53_crp_vs_case : grown demo_mixed /\ sheet demo_mixed /\ consistent demo_mixed /\ recorded_rows demo_mixed mixed_rows /\
  get_view_observes_crp_vs demo_mixed = Ok mixed_rows.
Proof. split; [exact (proj1 demo_mixed_good)|]. split; [exact (proj1 (proj2 demo_mixed_good))|]. split; [exact (proj2 (proj2 demo_mixed_good))|]. split; [exact demo_mixed_rows|]. vm_compute. reflexivity. Qed.

(** But every cell, of whichever row, is given to the row recorded last. *)
Theorem C53_data_vs : forall m l r, grown m -> sheet m -> consistent m -> recorded_rows m (l ++ [r]) -> no_empty_rows m ->
  exists d, get_view_observes_data_vs m = Ok d /\ (forall e, In e d -> fst (fst e) = fst r) /\
    forall c x, In (fst r, c, x) d <-> exists p, In p (l ++ [r]) /\ cell m (fst p) c = Some x.
Proof. exact data_vs_ok. Qed.
Print Assumptions C53_data_vs.

Example C53_data_vs_case : grown demo_view /\ sheet demo_view /\ consistent demo_view /\ recorded_rows demo_view (view_rows) /\ view_rows = [(0, 0); (1, 0)] ++ [(2, 1)] /\
  no_empty_rows demo_view /\ get_view_observes_data_vs demo_view = Ok [(2, 1, vz 2); (2, 2, vz 1); (2, 1, vz 0); (2, 1, vz 2); (2, 2, vz 0)].
Proof.
  split; [exact (proj1 demo_view_good)|]. split; [exact (proj1 (proj2 demo_view_good))|]. split; [exact (proj2 (proj2 demo_view_good))|]. split; [exact demo_view_rows|]. split; [reflexivity|]. split; [exact demo_view_full|].
  vm_compute. reflexivity.
Qed.

(** So the claim fails for the data of VentureScript: a cell of row 0 is said to be of
    row 2. *)
Theorem C53_data_refuted : exists m d r c x, (exists m0 es, new_view m0 /\ history m0 es m) /\ get_view_observes_data_vs m = Ok d /\
  In (r, c, x) d /\ cell m r c <> Some x.
Proof.
  exists demo_view, [(2, 1, vz 2); (2, 2, vz 1); (2, 1, vz 0); (2, 1, vz 2); (2, 2, vz 0)], 2, 2, (vz 1). split; [exists demo_new, demo_events; split; [exact demo_new_view|exact demo_history]|].
  split; [vm_compute; reflexivity|]. split; [cbn; auto|].
  assert (E : cell demo_view 2 2 = Some (vz 0)) by (vm_compute; reflexivity). rewrite E. intros X. assert (0 = 1) by (apply qz_inj; unfold vz in X; congruence). discriminate.
Qed.
Print Assumptions C53_data_refuted.

(** ** C54 *)

(** Renumbering for rendering, for every list of statements about one output: the tables are
    mapped to 0..K-1, different ones to different ones, in increasing order. *)
Theorem C54_reindex : forall o ts, ts <> [] -> exists f, renumbering f ts /\
  (forall t u, In t ts -> In u ts -> t < u -> f t < f u) /\
  reindex_crp_observes (map (fun t => [(o, t)]) ts) = Ok (map (fun t => [(o, f t)]) ts).
Proof.
  intros o ts NE. destruct (reindex_renumbering ts) as [RN INC]. exists (number (zsort (dedup ts))). split; [exact RN|]. split; [exact INC|].
  rewrite <- (map_map (number (zsort (dedup ts))) (fun t => [(o, t)])). apply (reindex_ok o ts NE).
Qed.
Print Assumptions C54_reindex.

Example C54_reindex_case : [7; 3; 7; 12] <> [] /\ reindex_crp_observes (map (fun t => [(5, t)]) [7; 3; 7; 12]) = Ok [[(5, 1)]; [(5, 0)]; [(5, 1)]; [(5, 2)]].
Proof. split; [discriminate|]. vm_compute. reflexivity. Qed.

(** The rows in the order used for rendering: a stable sort by table. *)
Theorem C54_order : forall o rows ts, ts <> [] -> List.length rows = List.length ts ->
  exists l, get_sorted_rowids rows (map (fun t => [(o, t)]) ts) = Ok (map fst l) /\ ordered_by_table (combine rows ts) l.
Proof. exact sorted_rowids_ok. Qed.
Print Assumptions C54_order.

Example C54_order_case : [1; 0; 1; 2] <> [] /\ List.length [10; 11; 12; 13] = List.length [1; 0; 1; 2] /\
  get_sorted_rowids [10; 11; 12; 13] (map (fun t => [(5, t)]) [1; 0; 1; 2]) = Ok [11; 10; 12; 13].
Proof. split; [discriminate|]. split; [reflexivity|]. vm_compute. reflexivity. Qed.

(** Renumbering for import, for every dict of assignments and every order in which Python may
    list the set of tables: the tables are mapped to 0..K-1, different ones to different
    ones; the rows come sorted by their new table, stably. *)
Theorem C54_rebase : forall order (Zr : dict Z Z), lists order -> exists f l, renumbering f (values Zr) /\
  rebase_cgpm_row_assignments order Zr = Ok l /\ ordered_by_table (map (fun e => (fst e, f (snd e))) Zr) l.
Proof.
  intros order Zr LO. exists (number (order (values Zr))), (sort_by_table (map (fun e => (fst e, number (order (values Zr)) (snd e))) Zr)).
  split; [apply rebase_renumbering; exact LO|]. split; [apply rebase_ok; exact LO|]. apply sort_by_table_ok.
Qed.
Print Assumptions C54_rebase.

Lemma by_size_lists : lists by_size.
Proof. exact (proj1 by_size_ok). Qed.

Example C54_rebase_case : lists by_size /\ rebase_cgpm_row_assignments by_size [(0, 7); (1, 3); (2, 7); (3, 12)] = Ok [(1, 0); (0, 1); (2, 1); (3, 2)].
Proof. split; [exact by_size_lists|]. vm_compute. reflexivity. Qed.

(** Every step of such an order is accepted: an empty row divider takes the rows in any order
    sorted by renumbered tables, and then has exactly these. *)
Theorem C54_accepted : forall o alpha l0 l f ts, (0 < qr alpha)%R -> ordered_by_table l0 l -> NoDup (map fst l0) ->
  map snd l0 = map f ts -> renumbering f ts ->
  exists d, seated (DCrp (crp_new o alpha)) l d /\ dist_data d = map (fun p : Z * Z => (fst p, vz (snd p))) l.
Proof.
  intros o alpha l0 l f ts A ORD ND E RN. apply fresh_accepts; [exact A|]. apply (ordered_well l0 l f ts); assumption.
Qed.
Print Assumptions C54_accepted.

Example C54_accepted_case : (0 < qr half)%R /\ ordered_by_table [(0, 1); (1, 0); (2, 1)] [(1, 0); (0, 1); (2, 1)] /\ NoDup (map fst [(0, 1); (1, 0); (2, 1)]) /\
  map snd [(0, 1); (1, 0); (2, 1)] = map (fun t => t - 4) [5; 4; 5] /\ renumbering (fun t => t - 4) [5; 4; 5].
Proof.
  split; [exact half_pos|]. split; [exact (sort_by_table_ok [(0, 1); (1, 0); (2, 1)])|]. split; [repeat (constructor; [cbn; intuition lia|]); constructor|]. split; [reflexivity|].
  split; [intros; lia|]. exists 2. intros z. cbn. intuition lia.
Qed.

(** Import of a view, for every order of the set of tables: all rows are accepted; the view
    has the columns, values and hyperparameters of the original, and its clusters
    renumbered. *)
Theorem C54_import : forall order v, lists order -> convertible v ->
  exists m, convert_view_to_rowmixture order v = Ret (Ok m) /\ imported v m.
Proof. exact import_view. Qed.
Print Assumptions C54_import.

(** Import of a state. *)
Theorem C54_state : forall order vs, lists order -> (forall v, In v vs -> convertible v) ->
  NoDup (flat_map (fun v => dim_output (cv_crp v) :: map dim_output (cv_dims v)) vs) ->
  exists X, convert_cgpm_state_to_cgpm2 order vs = Ret (Ok (CProd X)) /\ crosscat X /\ Forall2 imported vs X.
Proof. exact import_state. Qed.
Print Assumptions C54_state.

Definition dim_cat : dim := mkDim "categorical" 1 [("alpha"%string, half)] (Some 3).
Definition dim_nrm : dim := mkDim "normal" 2 [("m"%string, half); ("s"%string, half)] None.
Definition dim_crp : dim := mkDim "crp" 9 [("alpha"%string, half)] None.
Definition demo_cgpm : cgpm_view := mkCgpmView [dim_cat; dim_nrm] dim_crp [(0, 7); (1, 3); (2, 7)]
  [(1, [(0, vz 2); (1, VNan); (2, vz 0)]); (2, [(0, VQ half); (1, vz 5); (2, VNan)])].

Lemma demo_convertible : convertible demo_cgpm.
Proof.
  assert (P : forall k l, (forall q, In q (map snd l) -> q = half) -> forall n o kk, positive k (mkDim n o l kk)).
  { intros k l H n o kk q L. cbn in L. apply lookup_In in L. apply (in_map snd) in L. cbn [snd] in L. rewrite (H _ L). exact half_pos. }
  assert (C1 : column_type dim_cat (KCategory 3)) by (apply ct_categorical; [reflexivity|reflexivity|lia|apply P; cbn; intuition]).
  assert (C2 : column_type dim_nrm (KReal true)) by (apply ct_normal; [reflexivity|apply P; cbn; intuition|apply P; cbn; intuition|apply P; cbn; intuition]).
  split; [discriminate|]. split; [repeat (constructor; [cbn; intuition lia|]); constructor|].
  split; [intros d [<-|[<-|[]]]; eauto|]. split; [reflexivity|]. split; [apply P; cbn; intuition|].
  split; [repeat (constructor; [cbn; intuition lia|]); constructor|].
  intros d k r [<-|[<-|[]]] CT Hr.
  - assert (k = KCategory 3) as -> by (inversion CT as [k0 E1 E2|E1|E1]; cbn in *; congruence). cbn in Hr. destruct Hr as [<-|[<-|[<-|[]]]]; eexists; eexists; (split; [reflexivity|split; [reflexivity|]]).
    + exists 2. split; [reflexivity|lia].
    + exact Logic.I.
    + exists 0. split; [reflexivity|lia].
  - assert (k = KReal true) as -> by (inversion CT as [k0 E1 E2|E1|E1]; cbn in *; congruence). cbn in Hr. destruct Hr as [<-|[<-|[<-|[]]]]; eexists; eexists; (split; [reflexivity|split; [reflexivity|exact Logic.I]]).
Qed.

Example C54_import_case : lists by_size /\ convertible demo_cgpm.
Proof. split; [exact by_size_lists|exact demo_convertible]. Qed.

Example C54_state_case : lists by_size /\ (forall v, In v [demo_cgpm] -> convertible v) /\
  NoDup (flat_map (fun v => dim_output (cv_crp v) :: map dim_output (cv_dims v)) [demo_cgpm]).
Proof.
  split; [exact by_size_lists|]. split; [intros v [<-|[]]; exact demo_convertible|]. repeat (constructor; [cbn; intuition lia|]). constructor.
Qed.
