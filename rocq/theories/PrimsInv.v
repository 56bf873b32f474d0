(** Invariants of the primitives: statistics agree with the recorded data, and the
    implementation refines the abstract recording of SpecPrims. *)
From Coq Require Import List ZArith QArith Qcanon Reals Bool String Permutation Sorted Lia Lra.
From Verif Require Import Base Xr Samp Lgamma Prims Lib SpecPrims.
Import ListNotations.
Local Open Scope Z_scope.

(** ** Recorded data: inserting one pair anywhere *)

Definition inserted {A} (p : A) (small big : list A) : Prop :=
  exists l1 l2, small = l1 ++ l2 /\ big = l1 ++ p :: l2.

Lemma inserted_end : forall {A} (p : A) l, inserted p l (l ++ [p]).
Proof. intros. exists l, []. rewrite app_nil_r. auto. Qed.

Lemma ddel_inserted : forall {K V} `{EqDec K} (d : dict K V) k v,
  lookup k d = Some v -> inserted (k, v) (ddel k d) d.
Proof.
  intros K V E d k v. induction d as [|[k' v'] d IH]; cbn [lookup ddel]; [discriminate|].
  destruct (eq_dec k k') as [->|n].
  - intros H. injection H as ->. exists [], d. auto.
  - intros H. destruct (IH H) as (l1 & l2 & A & B).
    exists ((k', v') :: l1), l2. rewrite A. split; [reflexivity|]. cbn [app]. rewrite <- B. reflexivity.
Qed.

Lemma inserted_perm : forall {A} (p : A) s b, inserted p s b -> Permutation b (p :: s).
Proof. intros A p s b (l1 & l2 & -> & ->). symmetry. apply Permutation_middle. Qed.

Lemma inserted_length : forall {A} (p : A) s b, inserted p s b -> List.length b = S (List.length s).
Proof. intros A p s b I. apply inserted_perm in I. apply Permutation_length in I. exact I. Qed.

Definition pcell (x : val) : list Qc := match x with VQ q => [q] | VNan => [] end.

Lemma cells_app : forall a b, cells (a ++ b) = cells a ++ cells b.
Proof. intros. unfold cells. apply flat_map_app. Qed.

Lemma cells_perm : forall a b, Permutation a b -> Permutation (cells a) (cells b).
Proof. intros. unfold cells. apply Permutation_flat_map. assumption. Qed.

Lemma cells_inserted : forall r x s b, inserted (r, x) s b -> Permutation (cells b) (pcell x ++ cells s).
Proof. intros r x s b I. apply inserted_perm in I. apply cells_perm in I. exact I. Qed.

Lemma cells_inserted_nan : forall r s b, inserted (r, VNan) s b -> cells b = cells s.
Proof. intros r s b (l1 & l2 & -> & ->). rewrite !cells_app. reflexivity. Qed.

Lemma filter_perm : forall {A} (f : A -> bool) l1 l2, Permutation l1 l2 ->
  Permutation (filter f l1) (filter f l2).
Proof.
  intros A f l1 l2 P. induction P; cbn [filter].
  - constructor.
  - destruct (f x); [constructor|]; assumption.
  - destruct (f x), (f y); try reflexivity. apply perm_swap.
  - etransitivity; eassumption.
Qed.

Lemma occ_perm : forall z a b, Permutation a b -> occurrences z a = occurrences z b.
Proof.
  intros z a b P. unfold occurrences. f_equal. apply Permutation_length.
  apply filter_perm. apply cells_perm. assumption.
Qed.

Lemma occ_inserted : forall z r q s b, inserted (r, VQ q) s b ->
  occurrences z b = occurrences z s + (if eqb q (qz z) then 1 else 0).
Proof.
  intros z r q s b I. apply cells_inserted in I. cbn [pcell app] in I.
  unfold occurrences. rewrite (Permutation_length (filter_perm _ _ _ I)). cbn [filter].
  destruct (eqb q (qz z)); cbn [List.length]; lia.
Qed.

Lemma occ_inserted_nan : forall z r s b, inserted (r, VNan) s b -> occurrences z b = occurrences z s.
Proof. intros z r s b I. unfold occurrences. rewrite (cells_inserted_nan _ _ _ I). reflexivity. Qed.

Lemma occ_nonneg : forall z data, 0 <= occurrences z data.
Proof. intros. unfold occurrences. lia. Qed.

Lemma In_cells : forall q data, In q (cells data) <-> exists r, In (r, VQ q) data.
Proof.
  intros q data. unfold cells. rewrite in_flat_map. split.
  - intros [[r [|q']] [I J]]; cbn [snd] in J; [destruct J|].
    destruct J as [->|[]]. eauto.
  - intros [r I]. exists (r, VQ q). split; [assumption|]. left. reflexivity.
Qed.

Lemma occ_pos : forall t data, 0 < occurrences t data <-> occupied data t.
Proof.
  intros t data. unfold occurrences, occupied.
  destruct (filter (fun q => eqb q (qz t)) (cells data)) as [|q l] eqn:F.
  - split; [cbn; lia|]. intros [r I].
    assert (In (qz t) (filter (fun q => eqb q (qz t)) (cells data))).
    { apply filter_In. split; [apply In_cells; exists r; exact I|apply eqb_refl]. }
    rewrite F in H. destruct H.
  - split; [|cbn [List.length]; lia]. intros _.
    assert (J : In q (q :: l)) by (left; reflexivity). rewrite <- F in J.
    apply filter_In in J. destruct J as [J1 J2]. apply eqb_true in J2. subst q.
    apply In_cells in J1. exact J1.
Qed.

(** ** Typing of recorded data *)

(** Every recorded value has the type of the primitive. *)
Definition typed (K : kind) (data : dict Z val) : Prop :=
  forall r x, In (r, x) data ->
    match K, x with
    | KTable, VNan => False
    | KTable, VQ q => exists t, q = qz t /\ 0 <= t
    | _, VNan => True
    | KCategory k, VQ q => exists z, q = qz z /\ 0 <= z < k
    | KBit, VQ q => q = qz 0 \/ q = qz 1
    | KCount, VQ q => exists z, q = qz z /\ 0 <= z
    | KReal _, VQ _ => True
    end.

Lemma typed_sub : forall K a b, (forall p, In p a -> In p b) -> typed K b -> typed K a.
Proof. intros K a b H T r x I. exact (T r x (H _ I)). Qed.

Lemma inserted_In : forall {A} (p q : A) s b, inserted p s b -> (In q b <-> q = p \/ In q s).
Proof.
  intros A p q s b I. apply inserted_perm in I. split.
  - intros J. eapply Permutation_in in J; [|exact I]. destruct J; auto.
  - intros J. eapply Permutation_in; [symmetry; exact I|]. destruct J; [left; auto|right; auto].
Qed.

(** Positive hyperparameters. *)
Definition hypers_pos (d : dist) : Prop :=
  match d with
  | DCrp s => (0 < qr (crp_alpha s))%R
  | DCat s => 0 < cat_k s /\ (0 < qr (cat_alpha s))%R
  | DBer s => (0 < qr (ber_alpha s))%R /\ (0 < qr (ber_beta s))%R
  | DPoi s => (0 < qr (poi_a s))%R /\ (0 < qr (poi_b s))%R
  | DNrm s => (0 < qr (nrm_r s))%R /\ (0 < qr (nrm_s s))%R /\ (0 < qr (nrm_nu s))%R
  | DNuc s => (0 < qr (nuc_var s))%R
  end.

(** The invariant of reachable primitives. *)
Definition dinv (d : dist) : Prop :=
  NoDup (keys (dist_data d)) /\ typed (kind_of d) (dist_data d) /\
  stats_of_data (kind_of d) (dist_data d) (dist_suffstats d) /\ hypers_pos d.

(** ** CRP tables *)

Lemma counts_keys : forall data N counts, stats_of_data KTable data (SSCrp N counts) ->
  forall t, In t (keys counts) <-> occupied data t.
Proof.
  intros data N counts (_ & ND & H) t. rewrite <- occ_pos. split.
  - intros I. apply lookup_keys in I. destruct I as [n E]. apply H in E. lia.
  - intros P. assert (E : lookup t counts = Some (occurrences t data)) by (apply H; auto).
    eapply lookup_Some_keys. exact E.
Qed.

Lemma zsort_In : forall l x, In x (zsort l) <-> In x l.
Proof.
  intros l x. split; apply Permutation_in; [apply zsort_perm|symmetry; apply zsort_perm].
Qed.

Lemma next_table_fun : forall data t t', next_table data t -> next_table data t' -> t = t'.
Proof.
  intros data t t' [[E A]|[A B]] [[E' A']|[A' B']].
  - congruence.
  - subst data. destruct A' as [r []].
  - subst data. destruct A as [r []].
  - specialize (B _ A'). specialize (B' _ A). lia.
Qed.

Lemma crp_support_spec : forall s, stats_of_data KTable (dist_data (DCrp s)) (dist_suffstats (DCrp s)) ->
  typed KTable (dist_data (DCrp s)) ->
  forall t, In t (crp_support s) <-> occupied (dist_data (DCrp s)) t \/ next_table (dist_data (DCrp s)) t.
Proof.
  intros s H T t. pose proof (counts_keys _ _ _ H) as CK. cbn [dist_suffstats] in *.
  set (data := dist_data (DCrp s)) in *.
  unfold crp_support. destruct (zsort (keys (crp_counts s))) as [|k ks] eqn:E.
  - assert (NO : forall t, ~ occupied data t).
    { intros t' O. apply CK in O. apply zsort_In in O. rewrite E in O. destruct O. }
    assert (D : data = []).
    { destruct data as [|[r [|q]] l] eqn:DE; [reflexivity| |].
      - exfalso. apply (T r VNan). left. reflexivity.
      - exfalso. destruct (T r (VQ q)) as [t' [-> _]]; [left; reflexivity|].
        apply (NO t'). exists r. left. reflexivity. }
    cbn [In]. split.
    + intros [<-|[]]. right. left. auto.
    + intros [O|[[_ ->]|[O _]]]; [exfalso; eapply NO; exact O|left; reflexivity|exfalso; eapply NO; exact O].
  - assert (KS : forall t, In t (k :: ks) <-> occupied data t).
    { intros t'. rewrite <- CK, <- E. apply zsort_In. }
    destruct (zmax_ge ks k) as [M1 M2]. pose proof (zmax_In ks k) as M3.
    assert (NX : next_table data (zmax k ks + 1)).
    { right. replace (zmax k ks + 1 - 1) with (zmax k ks) by lia. split; [apply KS; assumption|].
      intros t' O. apply KS in O. destruct O as [<-|O]; [lia|]. specialize (M2 _ O). lia. }
    rewrite in_app_iff, KS. cbn [In]. split.
    + intros [O|[<-|[]]]; auto.
    + intros [O|O]; [auto|]. right. left. eapply next_table_fun; eassumption.
Qed.

Lemma next_table_pos : forall data t, typed KTable data -> next_table data t -> 0 <= t.
Proof.
  intros data t T [[_ ->]|[[r I] _]]; [lia|].
  destruct (T r _ I) as [t' [E P]]. apply qz_inj in E. lia.
Qed.

Lemma occupied_pos : forall data t, typed KTable data -> occupied data t -> 0 <= t.
Proof.
  intros data t T [r I]. destruct (T r _ I) as [t' [E P]]. apply qz_inj in E. lia.
Qed.

(** ** The base checks *)

Lemma base_observe_spec : forall {V} (data : dict Z V) o rid obs ins,
  match base_observe data o rid obs ins with
  | Ok _ => ~ In rid (keys data) /\ ins = [] /\ exists x, obs = [(o, x)]
  | Err e => (In rid (keys data) /\ e = ValueError) \/
             (~ In rid (keys data) /\ ins <> [] /\ e = AssertionError) \/
             (~ In rid (keys data) /\ ins = [] /\ keys obs <> [o] /\ e = AssertionError)
  end.
Proof.
  intros V data o rid obs ins. unfold base_observe.
  destruct (dmem rid data) eqn:M.
  - apply dmem_true in M. auto.
  - apply dmem_false in M. apply lookup_None in M.
    destruct ins as [|i ins]; cbn [oassert obind].
    + destruct (eqb (keys obs) [o]) eqn:K; cbn [oassert].
      * apply eqb_true in K. apply keys_single in K. auto.
      * apply eqb_false in K. right. right. auto.
    + right. left. repeat split; auto. discriminate.
Qed.

(** ** Refinement of observe *)

Lemma lookup_single : forall {V} (o : Z) (x : V), lookup o [(o, x)] = Some x.
Proof. intros. cbn [lookup]. destruct (eq_dec o o); congruence. Qed.

Lemma keys_cdata : forall s, keys (dist_data (DCrp s)) = keys (crp_data s).
Proof. intros. cbn [dist_data]. unfold keys. rewrite map_map. reflexivity. Qed.

Definition obs_refines (d : dist) (rid : Z) (obs ins : row) : Prop :=
  let r := dist_observe d rid obs ins in
  spec_observe (kind_of d) (dist_o d) (dist_data d) rid obs ins (dist_data (fst r)) (snd r) /\
  (forall e, snd r = Err e -> fst r = d).

Ltac base_cases data o rid obs ins :=
  let B := fresh "B" in
  pose proof (base_observe_spec data o rid obs ins) as B;
  destruct (base_observe data o rid obs ins) as [?u|?e].

Lemma cat_valid_spec : forall k q, cat_valid k q = true <-> exists z, q = qz z /\ 0 <= z < k.
Proof.
  intros k q. unfold cat_valid. rewrite !andb_true_iff, is_int_spec, qleb_true, qltb_true. split.
  - intros [[I A] B]. exists (trunc q). split; [assumption|]. apply cat_range_int; auto.
  - intros [z [-> R]]. rewrite trunc_qz, qr_0, !qr_qz. repeat split.
    + apply IZR_le. lia.
    + apply IZR_lt. lia.
Qed.

Lemma poi_valid_spec : forall q, poi_valid q = true <-> exists z, q = qz z /\ 0 <= z.
Proof.
  intros q. unfold poi_valid. rewrite !andb_true_iff, is_int_spec, qleb_true. split.
  - intros [I A]. exists (trunc q). split; [assumption|].
    rewrite I, qr_0, qr_qz in A. apply le_IZR in A. assumption.
  - intros [z [-> R]]. rewrite trunc_qz, qr_0, !qr_qz. split; [reflexivity|]. apply IZR_le. lia.
Qed.

Lemma ber_valid_spec : forall q, ber_valid q = true <-> q = qz 0 \/ q = qz 1.
Proof.
  intros q. unfold ber_valid. rewrite orb_true_iff, !eqb_true, qz_0, qz_1. reflexivity.
Qed.

Lemma obs_refines_base_err : forall d rid obs ins e,
  (In rid (keys (dist_data d)) /\ e = ValueError) \/
  (~ In rid (keys (dist_data d)) /\ ins <> [] /\ e = AssertionError) \/
  (~ In rid (keys (dist_data d)) /\ ins = [] /\ keys obs <> [dist_o d] /\ e = AssertionError) ->
  spec_observe (kind_of d) (dist_o d) (dist_data d) rid obs ins (dist_data d) (Err e).
Proof.
  intros d rid obs ins e [[A ->]|[(A & B & ->)|(A & B & C & ->)]].
  - apply so_duplicate. assumption.
  - apply so_inputs; assumption.
  - apply so_keys; assumption.
Qed.

Lemma observe_refines : forall d rid obs ins, dinv d -> obs_refines d rid obs ins.
Proof.
  intros d rid obs ins (ND & T & S & HP). unfold obs_refines.
  destruct d as [s|s|s|s|s|s]; cbn [dist_observe].
  - unfold crp_observe. pose proof (base_observe_spec (crp_data s) (crp_o s) rid obs ins) as B.
    rewrite <- keys_cdata in B.
    destruct (base_observe (crp_data s) (crp_o s) rid obs ins) as [u|e]; cbn [fst snd].
    2:{ split; [apply obs_refines_base_err; exact B|intros; reflexivity]. }
    destruct B as (B1 & -> & x & ->). rewrite lookup_single.
    destruct x as [|q]; cbn [fst snd].
    { split; [|intros; reflexivity].
      apply (so_domain KTable _ _ _ _ _ VNan); auto. }
    pose proof (crp_support_spec s S T (trunc q)) as SP.
    destruct (memb (trunc q) (crp_support s)) eqn:M; cbn [fst snd].
    + split; [|discriminate]. apply memb_In in M. apply SP in M.
      assert (E : dist_data (DCrp
        {| crp_o := crp_o s; crp_data := dset rid (trunc q) (crp_data s); crp_N := crp_N s + 1;
           crp_counts := dset (trunc q) (match lookup (trunc q) (crp_counts s) with
             | Some c => c | None => 0 end + 1) (crp_counts s); crp_alpha := crp_alpha s |})
        = dist_data (DCrp s) ++ [(rid, stored KTable (VQ q))]).
      { cbn [dist_data crp_data stored]. rewrite dset_fresh.
        - rewrite map_app. reflexivity.
        - apply lookup_None. rewrite <- keys_cdata. assumption. }
      rewrite E. apply (so_accept KTable); auto.
    + split; [|intros; reflexivity]. apply memb_false in M.
      apply (so_domain KTable _ _ _ _ _ (VQ q)); auto. cbn [in_domain]. tauto.
  - unfold cat_observe. pose proof (base_observe_spec (cat_data s) (cat_o s) rid obs ins) as B.
    destruct (base_observe (cat_data s) (cat_o s) rid obs ins) as [u|e]; cbn [fst snd].
    2:{ split; [apply obs_refines_base_err; exact B|intros; reflexivity]. }
    destruct B as (B1 & -> & x & ->). rewrite lookup_single.
    assert (L : lookup rid (cat_data s) = None) by (apply lookup_None; assumption).
    destruct x as [|q]; cbn [fst snd].
    { split; [|discriminate]. cbn [dist_data cat_data]. rewrite dset_fresh by assumption.
      apply (so_accept (KCategory (cat_k s)) _ _ _ _ _ VNan); cbn; auto. }
    destruct (cat_valid (cat_k s) q) eqn:M; cbn [fst snd].
    + split; [|discriminate]. apply cat_valid_spec in M. cbn [dist_data cat_data].
      rewrite dset_fresh by assumption.
      replace (vz (trunc q)) with (stored (KCategory (cat_k s)) (VQ q)).
      * apply (so_accept (KCategory (cat_k s))); cbn; auto.
      * destruct M as [z [-> _]]. cbn [stored]. rewrite trunc_qz. reflexivity.
    + split; [|intros; reflexivity].
      apply (so_domain (KCategory (cat_k s)) _ _ _ _ _ (VQ q)); auto.
      cbn [in_domain]. rewrite <- cat_valid_spec. congruence.
  - unfold ber_observe. pose proof (base_observe_spec (ber_data s) (ber_o s) rid obs ins) as B.
    destruct (base_observe (ber_data s) (ber_o s) rid obs ins) as [u|e]; cbn [fst snd].
    2:{ split; [apply obs_refines_base_err; exact B|intros; reflexivity]. }
    destruct B as (B1 & -> & x & ->). rewrite lookup_single.
    assert (L : lookup rid (ber_data s) = None) by (apply lookup_None; assumption).
    destruct x as [|q]; cbn [fst snd].
    { split; [|discriminate]. cbn [dist_data ber_data]. rewrite dset_fresh by assumption.
      apply (so_accept KBit _ _ _ _ _ VNan); cbn; auto. }
    destruct (ber_valid q) eqn:M; cbn [fst snd].
    + split; [|discriminate]. apply ber_valid_spec in M. cbn [dist_data ber_data].
      rewrite dset_fresh by assumption.
      replace (vz (trunc q)) with (stored KBit (VQ q)).
      * apply (so_accept KBit); cbn; auto.
      * destruct M as [-> | ->]; cbn [stored]; rewrite trunc_qz; reflexivity.
    + split; [|intros; reflexivity].
      apply (so_domain KBit _ _ _ _ _ (VQ q)); auto.
      cbn [in_domain]. rewrite <- ber_valid_spec. congruence.
  - unfold poi_observe. pose proof (base_observe_spec (poi_data s) (poi_o s) rid obs ins) as B.
    destruct (base_observe (poi_data s) (poi_o s) rid obs ins) as [u|e]; cbn [fst snd].
    2:{ split; [apply obs_refines_base_err; exact B|intros; reflexivity]. }
    destruct B as (B1 & -> & x & ->). rewrite lookup_single.
    assert (L : lookup rid (poi_data s) = None) by (apply lookup_None; assumption).
    destruct x as [|q]; cbn [fst snd].
    { split; [|discriminate]. cbn [dist_data poi_data]. rewrite dset_fresh by assumption.
      apply (so_accept KCount _ _ _ _ _ VNan); cbn; auto. }
    destruct (poi_valid q) eqn:M; cbn [fst snd].
    + split; [|discriminate]. apply poi_valid_spec in M. cbn [dist_data poi_data].
      rewrite dset_fresh by assumption.
      apply (so_accept KCount _ _ _ _ _ (VQ q)); cbn; auto.
    + split; [|intros; reflexivity].
      apply (so_domain KCount _ _ _ _ _ (VQ q)); auto.
      cbn [in_domain]. rewrite <- poi_valid_spec. congruence.
  - unfold nrm_observe. pose proof (base_observe_spec (nrm_data s) (nrm_o s) rid obs ins) as B.
    destruct (base_observe (nrm_data s) (nrm_o s) rid obs ins) as [u|e]; cbn [fst snd].
    2:{ split; [apply obs_refines_base_err; exact B|intros; reflexivity]. }
    destruct B as (B1 & -> & x & ->). rewrite lookup_single.
    assert (L : lookup rid (nrm_data s) = None) by (apply lookup_None; assumption).
    destruct x as [|q]; cbn [fst snd]; (split; [|discriminate]); cbn [dist_data nrm_data];
      rewrite dset_fresh by assumption.
    + apply (so_accept (KReal _) _ _ _ _ _ VNan); cbn; auto.
    + apply (so_accept (KReal _) _ _ _ _ _ (VQ q)); cbn; auto.
  - unfold nuc_observe. pose proof (base_observe_spec (nuc_data s) (nuc_o s) rid obs ins) as B.
    destruct (base_observe (nuc_data s) (nuc_o s) rid obs ins) as [u|e]; cbn [fst snd].
    2:{ split; [apply obs_refines_base_err; exact B|intros; reflexivity]. }
    destruct B as (B1 & -> & x & ->). rewrite lookup_single.
    assert (L : lookup rid (nuc_data s) = None) by (apply lookup_None; assumption).
    destruct x as [|q]; cbn [fst snd]; (split; [|discriminate]); cbn [dist_data nuc_data];
      rewrite dset_fresh by assumption.
    + apply (so_accept (KReal _) _ _ _ _ _ VNan); cbn; auto.
    + apply (so_accept (KReal _) _ _ _ _ _ (VQ q)); cbn; auto.
Qed.

(** ** observe preserves the invariant *)

Lemma add_at_map : forall n d (f : Z -> Z) m off, 
  add_at n d (map (fun i => f (Z.of_nat i)) (seq off m))
  = map (fun i => f (Z.of_nat i) + (if Nat.eqb i (off + n) then d else 0)) (seq off m).
Proof.
  intros n d f m. revert n. induction m as [|m IH]; intros n off; cbn [seq map].
  - destruct n; reflexivity.
  - destruct n as [|n]; cbn [add_at].
    + rewrite Nat.add_0_r, Nat.eqb_refl. f_equal. apply map_ext_in. intros i I.
      apply in_seq in I. destruct (Nat.eqb_spec i off); lia.
    + rewrite IH. replace (off + S n)%nat with (S off + n)%nat by lia.
      destruct (Nat.eqb_spec off (S off + n)); [lia|]. f_equal. lia.
Qed.

Lemma cat_counts_step : forall k z d (f g : Z -> Z), 0 <= z < k ->
  (forall i, g i = f i + (if Z.eqb i z then d else 0)) ->
  add_at (Z.to_nat z) d (map f (zrange (Z.to_nat k))) = map g (zrange (Z.to_nat k)).
Proof.
  intros k z d f g R E. unfold zrange. rewrite !map_map.
  rewrite (add_at_map (Z.to_nat z) d f). apply map_ext. intros i. rewrite E.
  cbn [Nat.add]. destruct (Nat.eqb_spec i (Z.to_nat z)); destruct (Z.eqb_spec (Z.of_nat i) z); lia.
Qed.

Lemma eqb_qz : forall a b, eqb (qz a) (qz b) = Z.eqb a b.
Proof.
  intros a b. destruct (Z.eqb_spec a b) as [->|n].
  - apply eqb_refl.
  - apply eqb_false. intros E. apply qz_inj in E. contradiction.
Qed.

Lemma log_factorial_eq : forall z, 0 <= z -> lgamma (qr (qz z) + 1) = log_factorial (qz z).
Proof.
  intros z H. unfold log_factorial. rewrite trunc_qz, qr_qz, <- lgamma_fact.
  f_equal. f_equal. rewrite INR_IZR_INZ, Z2Nat.id by assumption. reflexivity.
Qed.

Lemma rsum_map_inserted : forall (f : Qc -> R) r q s b, inserted (r, VQ q) s b ->
  rsum (map f (cells b)) = (rsum (map f (cells s)) + f q)%R.
Proof.
  intros f r q s b I. apply cells_inserted in I. cbn [pcell app] in I.
  rewrite (rsum_perm _ _ (Permutation_map f I)). cbn [map rsum fold_right]. unfold rsum. lra.
Qed.

Lemma qsum_map_inserted : forall (f : Qc -> Qc) r q s b, inserted (r, VQ q) s b ->
  qsum (map f (cells b)) = (qsum (map f (cells s)) + f q)%Qc.
Proof.
  intros f r q s b I. apply cells_inserted in I. cbn [pcell app] in I.
  rewrite (qsum_perm _ _ (Permutation_map f I)). cbn [map qsum fold_right]. unfold qsum. ring.
Qed.

Lemma qsum_inserted : forall r q s b, inserted (r, VQ q) s b ->
  qsum (cells b) = (qsum (cells s) + q)%Qc.
Proof.
  intros r q s b I. pose proof (qsum_map_inserted (fun x => x) _ _ _ _ I) as H.
  rewrite !map_id in H. exact H.
Qed.

Lemma len_cells_inserted : forall r q s b, inserted (r, VQ q) s b ->
  Z.of_nat (List.length (cells b)) = Z.of_nat (List.length (cells s)) + 1.
Proof.
  intros r q s b I. apply cells_inserted in I. apply Permutation_length in I. cbn [pcell app List.length] in I.
  lia.
Qed.

(** Adding one CRP customer. *)
Lemma crp_stats_add : forall N counts small big rid t,
  stats_of_data KTable small (SSCrp N counts) -> inserted (rid, vz t) small big ->
  stats_of_data KTable big (SSCrp (N + 1)
    (dset t (match lookup t counts with Some c => c | None => 0 end + 1) counts)).
Proof.
  intros N counts small big rid t (HN & ND & H) I. split; [|split].
  - rewrite (inserted_length _ _ _ I). lia.
  - apply NoDup_keys_dset. assumption.
  - intros t' n. rewrite lookup_dset. rewrite (occ_inserted t' _ _ _ _ I), eqb_qz.
    assert (HC : match lookup t counts with Some c => c | None => 0 end = occurrences t small).
    { destruct (lookup t counts) as [c|] eqn:E; [apply H in E; lia|].
      destruct (Z.eq_dec (occurrences t small) 0) as [->|n0]; [reflexivity|].
      pose proof (occ_nonneg t small).
      assert (E2 : lookup t counts = Some (occurrences t small)) by (apply H; lia). congruence. }
    destruct (eq_dec t' t) as [->|n0].
    + rewrite Z.eqb_refl, HC. pose proof (occ_nonneg t small). split.
      * intros E. injection E as <-. lia.
      * intros [-> _]. reflexivity.
    + rewrite H. destruct (Z.eqb_spec t t'); [congruence|]. rewrite Z.add_0_r. reflexivity.
Qed.

(** Removing one CRP customer. *)
Lemma crp_stats_del : forall N counts small big rid t,
  stats_of_data KTable big (SSCrp N counts) -> inserted (rid, vz t) small big ->
  exists c, lookup t counts = Some c /\
  stats_of_data KTable small (SSCrp (N - 1)
    (if c - 1 =? 0 then ddel t counts else dset t (c - 1) counts)).
Proof.
  intros N counts small big rid t (HN & ND & H) I.
  assert (O : occurrences t big = occurrences t small + 1).
  { rewrite (occ_inserted t _ _ _ _ I), eqb_qz, Z.eqb_refl. reflexivity. }
  pose proof (occ_nonneg t small) as P.
  exists (occurrences t big). split; [apply H; lia|]. rewrite O.
  replace (occurrences t small + 1 - 1) with (occurrences t small) by lia.
  split; [|split].
  - rewrite (inserted_length _ _ _ I) in HN. lia.
  - destruct (occurrences t small =? 0); [apply NoDup_keys_ddel|apply NoDup_keys_dset]; assumption.
  - intros t' n.
    assert (O' : t' <> t -> occurrences t' big = occurrences t' small).
    { intros D. rewrite (occ_inserted t' _ _ _ _ I), eqb_qz. destruct (Z.eqb_spec t t'); [congruence|lia]. }
    destruct (Z.eqb_spec (occurrences t small) 0) as [Z0|Z0].
    + rewrite lookup_ddel by assumption. destruct (eq_dec t' t) as [->|n0].
      * split; [discriminate|lia].
      * rewrite H, O' by assumption. reflexivity.
    + rewrite lookup_dset. destruct (eq_dec t' t) as [->|n0].
      * split; [intros E; injection E as <-; lia|]. intros [-> _]. reflexivity.
      * rewrite H, O' by assumption. reflexivity.
Qed.

Lemma keys_snoc_NoDup : forall data (rid : Z) (x : val), NoDup (keys data) -> ~ In rid (keys data) ->
  NoDup (keys (data ++ [(rid, x)])).
Proof. intros. apply NoDup_keys_app_one; [assumption|]. apply lookup_None. assumption. Qed.

Lemma typed_snoc : forall K data rid x, typed K data ->
  (in_domain K data x) -> typed K (data ++ [(rid, stored K x)]).
Proof.
  intros K data rid x T D r y I. apply in_app_iff in I. destruct I as [I|[I|[]]]; [apply (T r y I)|].
  injection I as <- <-. destruct K, x as [|q]; cbn [in_domain stored] in *; auto.
  exists (trunc q). split; [reflexivity|].
  destruct D as [D|D]; [eapply occupied_pos|eapply next_table_pos]; eassumption.
Qed.

Lemma observe_stats : forall d rid obs ins, dinv d ->
  stats_of_data (kind_of d) (dist_data (fst (dist_observe d rid obs ins)))
    (dist_suffstats (fst (dist_observe d rid obs ins))).
Proof.
  intros d rid obs ins (ND & T & S & HP).
  destruct d as [s|s|s|s|s|s]; cbn [dist_observe kind_of].
  - unfold crp_observe. destruct (base_observe (crp_data s) (crp_o s) rid obs ins) eqn:B; [|exact S].
    pose proof (base_observe_spec (crp_data s) (crp_o s) rid obs ins) as B'. rewrite B in B'.
    destruct B' as (B1 & -> & x & ->). rewrite lookup_single.
    destruct x as [|q]; [exact S|].
    destruct (memb (trunc q) (crp_support s)); [|exact S].
    cbn [fst dist_suffstats dist_data crp_N crp_counts crp_data].
    eapply crp_stats_add; [exact S|].
    cbn [dist_data]. rewrite dset_fresh by (apply lookup_None; assumption).
    rewrite map_app. apply inserted_end.
  - unfold cat_observe. destruct (base_observe (cat_data s) (cat_o s) rid obs ins) eqn:B; [|exact S].
    pose proof (base_observe_spec (cat_data s) (cat_o s) rid obs ins) as B'. rewrite B in B'.
    destruct B' as (B1 & -> & x & ->). rewrite lookup_single.
    assert (L : lookup rid (cat_data s) = None) by (apply lookup_None; assumption).
    cbn [dist_data dist_suffstats kind_of] in S. destruct S as [SN SC].
    destruct x as [|q].
    + cbn [fst dist_suffstats dist_data cat_N cat_counts cat_data stats_of_data].
      rewrite dset_fresh by assumption.
      pose proof (inserted_end (rid, VNan) (cat_data s)) as IN.
      rewrite (cells_inserted_nan _ _ _ IN). split; [assumption|].
      rewrite SC. apply map_ext. intros z. symmetry. eapply occ_inserted_nan. exact IN.
    + destruct (cat_valid (cat_k s) q) eqn:M; [|split; assumption].
      apply cat_valid_spec in M. destruct M as [z [-> R]]. rewrite trunc_qz.
      cbn [fst dist_suffstats dist_data cat_N cat_counts cat_data stats_of_data].
      rewrite dset_fresh by assumption.
      pose proof (inserted_end (rid, vz z) (cat_data s)) as IN.
      rewrite (len_cells_inserted _ _ _ _ IN). split; [lia|].
      rewrite SC. apply cat_counts_step; [assumption|].
      intros i. rewrite (occ_inserted i _ _ _ _ IN), eqb_qz, Z.eqb_sym. reflexivity.
  - unfold ber_observe. destruct (base_observe (ber_data s) (ber_o s) rid obs ins) eqn:B; [|exact S].
    pose proof (base_observe_spec (ber_data s) (ber_o s) rid obs ins) as B'. rewrite B in B'.
    destruct B' as (B1 & -> & x & ->). rewrite lookup_single.
    assert (L : lookup rid (ber_data s) = None) by (apply lookup_None; assumption).
    cbn [dist_data dist_suffstats kind_of] in S. destruct S as [SN SC].
    destruct x as [|q].
    + cbn [fst dist_suffstats dist_data ber_N ber_sum ber_data stats_of_data].
      rewrite dset_fresh by assumption.
      pose proof (inserted_end (rid, VNan) (ber_data s)) as IN.
      rewrite (cells_inserted_nan _ _ _ IN). split; [assumption|].
      rewrite SC. symmetry. eapply occ_inserted_nan. exact IN.
    + destruct (ber_valid q) eqn:M; [|split; assumption].
      apply ber_valid_spec in M.
      cbn [fst dist_suffstats dist_data ber_N ber_sum ber_data stats_of_data].
      rewrite dset_fresh by assumption.
      pose proof (inserted_end (rid, vz (trunc q)) (ber_data s)) as IN.
      rewrite (len_cells_inserted _ _ _ _ IN). split; [lia|].
      rewrite (occ_inserted 1 _ _ _ _ IN), eqb_qz, SC.
      destruct M as [-> | ->]; rewrite trunc_qz; reflexivity.
  - unfold poi_observe. destruct (base_observe (poi_data s) (poi_o s) rid obs ins) eqn:B; [|exact S].
    pose proof (base_observe_spec (poi_data s) (poi_o s) rid obs ins) as B'. rewrite B in B'.
    destruct B' as (B1 & -> & x & ->). rewrite lookup_single.
    assert (L : lookup rid (poi_data s) = None) by (apply lookup_None; assumption).
    cbn [dist_data dist_suffstats kind_of] in S. destruct S as (SN & SC & SL).
    destruct x as [|q].
    + cbn [fst dist_suffstats dist_data poi_N poi_sum poi_slf poi_data stats_of_data].
      rewrite dset_fresh by assumption.
      pose proof (inserted_end (rid, VNan) (poi_data s)) as IN.
      rewrite (cells_inserted_nan _ _ _ IN). auto.
    + destruct (poi_valid q) eqn:M; [|split; [|split]; assumption].
      apply poi_valid_spec in M. destruct M as [z [-> R]].
      cbn [fst dist_suffstats dist_data poi_N poi_sum poi_slf poi_data stats_of_data].
      rewrite dset_fresh by assumption.
      pose proof (inserted_end (rid, vz z) (poi_data s)) as IN. unfold vz in IN.
      rewrite (len_cells_inserted _ _ _ _ IN), (qsum_inserted _ _ _ _ IN),
        (rsum_map_inserted _ _ _ _ _ IN), SL, SC, log_factorial_eq by assumption.
      split; [lia|]. auto.
  - unfold nrm_observe. destruct (base_observe (nrm_data s) (nrm_o s) rid obs ins) eqn:B; [|exact S].
    pose proof (base_observe_spec (nrm_data s) (nrm_o s) rid obs ins) as B'. rewrite B in B'.
    destruct B' as (B1 & -> & x & ->). rewrite lookup_single.
    assert (L : lookup rid (nrm_data s) = None) by (apply lookup_None; assumption).
    cbn [dist_data dist_suffstats kind_of] in S. destruct S as (SN & SC & SL).
    destruct x as [|q]; cbn [fst dist_suffstats dist_data nrm_N nrm_sum nrm_sumsq nrm_data stats_of_data];
      rewrite dset_fresh by assumption.
    + pose proof (inserted_end (rid, VNan) (nrm_data s)) as IN.
      rewrite (cells_inserted_nan _ _ _ IN). auto.
    + pose proof (inserted_end (rid, VQ q) (nrm_data s)) as IN.
      rewrite (len_cells_inserted _ _ _ _ IN), (qsum_inserted _ _ _ _ IN),
        (qsum_map_inserted _ _ _ _ _ IN), SL, SC.
      split; [lia|]. auto.
  - unfold nuc_observe. destruct (base_observe (nuc_data s) (nuc_o s) rid obs ins) eqn:B; [|exact S].
    pose proof (base_observe_spec (nuc_data s) (nuc_o s) rid obs ins) as B'. rewrite B in B'.
    destruct B' as (B1 & -> & x & ->). rewrite lookup_single.
    assert (L : lookup rid (nuc_data s) = None) by (apply lookup_None; assumption).
    cbn [dist_data dist_suffstats kind_of] in S. destruct S as (SN & SC & SL).
    destruct x as [|q]; cbn [fst dist_suffstats dist_data nuc_N nuc_sum nuc_sumsq nuc_data stats_of_data];
      rewrite dset_fresh by assumption.
    + pose proof (inserted_end (rid, VNan) (nuc_data s)) as IN.
      rewrite (cells_inserted_nan _ _ _ IN). auto.
    + pose proof (inserted_end (rid, VQ q) (nuc_data s)) as IN.
      rewrite (len_cells_inserted _ _ _ _ IN), (qsum_inserted _ _ _ _ IN),
        (qsum_map_inserted _ _ _ _ _ IN), SL, SC.
      split; [lia|]. auto.
Qed.

(** What observe never changes. *)
Lemma observe_frame : forall d rid obs ins,
  let d' := fst (dist_observe d rid obs ins) in
  kind_of d' = kind_of d /\ dist_o d' = dist_o d /\ dist_get_hypers d' = dist_get_hypers d /\
  (hypers_pos d -> hypers_pos d').
Proof.
  intros d rid obs ins.
  destruct d as [s|s|s|s|s|s]; cbn [dist_observe];
    unfold crp_observe, cat_observe, ber_observe, poi_observe, nrm_observe, nuc_observe;
    match goal with |- context [base_observe ?a ?b ?c ?d ?e] => destruct (base_observe a b c d e) end;
    cbn [fst]; auto;
    match goal with |- context [lookup ?k obs] => destruct (lookup k obs) as [[|q]|] end; cbn [fst]; auto.
  - destruct (memb (trunc q) (crp_support s)); cbn; auto.
  - destruct (cat_valid (cat_k s) q); cbn; auto.
  - destruct (ber_valid q); cbn; auto.
  - destruct (poi_valid q); cbn; auto.
Qed.

Lemma observe_dinv : forall d rid obs ins, dinv d -> dinv (fst (dist_observe d rid obs ins)).
Proof.
  intros d rid obs ins D. pose proof (observe_refines d rid obs ins D) as [R _].
  pose proof (observe_stats d rid obs ins D) as S.
  pose proof (observe_frame d rid obs ins) as (K & O & _ & HP). cbn zeta in *.
  destruct D as (ND & T & _ & HP0).
  unfold dinv. rewrite K. split; [|split; [|split; auto]].
  - inversion R; subst; try assumption. apply keys_snoc_NoDup; assumption.
  - inversion R; subst; try assumption. apply typed_snoc; assumption.
Qed.

(** ** unobserve *)

Definition unobs_refines (d : dist) (rid : Z) : Prop :=
  let r := dist_unobserve d rid in
  spec_unobserve (dist_o d) (dist_data d) rid (dist_data (fst r)) (snd r) /\
  (forall e, snd r = Err e -> fst r = d) /\
  stats_of_data (kind_of d) (dist_data (fst r)) (dist_suffstats (fst r)).

Lemma lookup_cdata : forall s rid,
  lookup rid (dist_data (DCrp s)) = option_map vz (lookup rid (crp_data s)).
Proof. intros. apply lookup_map. Qed.

Lemma unobserve_refines : forall d rid, dinv d -> unobs_refines d rid.
Proof.
  intros d rid (ND & T & S & HP). unfold unobs_refines.
  destruct d as [s|s|s|s|s|s]; cbn [dist_unobserve kind_of dist_o].
  - unfold crp_unobserve. pose proof (lookup_cdata s rid) as LC.
    destruct (lookup rid (crp_data s)) as [x|] eqn:L.
    + cbn [option_map] in LC.
      assert (IN : inserted (rid, vz x) (map (fun p => (fst p, vz (snd p))) (ddel rid (crp_data s)))
                     (dist_data (DCrp s))).
      { cbn [dist_data]. rewrite <- ddel_map. apply ddel_inserted. exact LC. }
      destruct (crp_stats_del _ _ _ _ _ _ S IN) as [c [Ec Sc]]. rewrite Ec.
      cbn [fst snd dist_data crp_data dist_suffstats crp_N crp_counts]. split; [|split].
      * destruct IN as (l1 & l2 & A & B). cbn [dist_data] in B. rewrite A, B. eapply su_known. reflexivity.
      * discriminate.
      * exact Sc.
    + cbn [option_map fst snd] in *. split; [|split; auto].
      apply su_unknown. apply lookup_None. assumption.
  - unfold cat_unobserve. cbn [dist_data dist_suffstats] in *.
    destruct (lookup rid (cat_data s)) as [x|] eqn:L.
    2:{ cbn [fst snd]. split; [|split; auto]. apply su_unknown. apply lookup_None. assumption. }
    pose proof (ddel_inserted _ _ _ L) as IN.
    assert (SU : spec_unobserve (cat_o s) (cat_data s) rid (ddel rid (cat_data s)) (Ok ([(cat_o s, x)], []))).
    { destruct IN as (l1 & l2 & A & B). rewrite A. eapply su_known. exact B. }
    destruct S as [SN SC].
    destruct x as [|q]; cbn [fst snd kind_of dist_data dist_suffstats cat_data cat_N cat_counts stats_of_data];
      (split; [exact SU|split; [discriminate|]]).
    + rewrite <- (cells_inserted_nan _ _ _ IN). split; [assumption|].
      rewrite SC. apply map_ext. intros z. eapply occ_inserted_nan. exact IN.
    + rewrite (len_cells_inserted _ _ _ _ IN) in SN. split; [lia|].
      destruct (T rid (VQ q)) as [z [-> R]]; [apply lookup_In; exact L|].
      rewrite trunc_qz, SC. apply cat_counts_step; [assumption|].
      intros i. rewrite (occ_inserted i _ _ _ _ IN), eqb_qz, (Z.eqb_sym z i).
      destruct (i =? z); lia.
  - unfold ber_unobserve. cbn [dist_data dist_suffstats] in *.
    destruct (lookup rid (ber_data s)) as [x|] eqn:L.
    2:{ cbn [fst snd]. split; [|split; auto]. apply su_unknown. apply lookup_None. assumption. }
    pose proof (ddel_inserted _ _ _ L) as IN.
    assert (SU : spec_unobserve (ber_o s) (ber_data s) rid (ddel rid (ber_data s)) (Ok ([(ber_o s, x)], []))).
    { destruct IN as (l1 & l2 & A & B). rewrite A. eapply su_known. exact B. }
    destruct S as [SN SC].
    destruct x as [|q]; cbn [fst snd kind_of dist_data dist_suffstats ber_data ber_N ber_sum stats_of_data];
      (split; [exact SU|split; [discriminate|]]).
    + rewrite <- (cells_inserted_nan _ _ _ IN). split; [assumption|].
      rewrite SC. eapply occ_inserted_nan. exact IN.
    + rewrite (len_cells_inserted _ _ _ _ IN) in SN. split; [lia|].
      rewrite (occ_inserted 1 _ _ _ _ IN) in SC.
      destruct (T rid (VQ q)) as [-> | ->]; [apply lookup_In; exact L| |];
        rewrite trunc_qz; rewrite eqb_qz in SC; cbn in SC; lia.
  - unfold poi_unobserve. cbn [dist_data dist_suffstats] in *.
    destruct (lookup rid (poi_data s)) as [x|] eqn:L.
    2:{ cbn [fst snd]. split; [|split; auto]. apply su_unknown. apply lookup_None. assumption. }
    pose proof (ddel_inserted _ _ _ L) as IN.
    assert (SU : spec_unobserve (poi_o s) (poi_data s) rid (ddel rid (poi_data s)) (Ok ([(poi_o s, x)], []))).
    { destruct IN as (l1 & l2 & A & B). rewrite A. eapply su_known. exact B. }
    destruct S as (SN & SC & SL).
    destruct x as [|q]; cbn [fst snd kind_of dist_data dist_suffstats poi_data poi_N poi_sum poi_slf stats_of_data];
      (split; [exact SU|split; [discriminate|]]).
    + rewrite <- (cells_inserted_nan _ _ _ IN). auto.
    + rewrite (len_cells_inserted _ _ _ _ IN) in SN.
      rewrite (qsum_inserted _ _ _ _ IN) in SC.
      rewrite (rsum_map_inserted _ _ _ _ _ IN) in SL.
      destruct (T rid (VQ q)) as [z [-> R]]; [apply lookup_In; exact L|].
      rewrite log_factorial_eq by assumption. rewrite SC, SL.
      split; [lia|]. split; [ring|lra].
  - unfold nrm_unobserve. cbn [dist_data dist_suffstats] in *.
    destruct (lookup rid (nrm_data s)) as [x|] eqn:L.
    2:{ cbn [fst snd]. split; [|split; auto]. apply su_unknown. apply lookup_None. assumption. }
    pose proof (ddel_inserted _ _ _ L) as IN.
    assert (SU : spec_unobserve (nrm_o s) (nrm_data s) rid (ddel rid (nrm_data s)) (Ok ([(nrm_o s, x)], []))).
    { destruct IN as (l1 & l2 & A & B). rewrite A. eapply su_known. exact B. }
    destruct S as (SN & SC & SL).
    destruct x as [|q]; cbn [fst snd kind_of dist_data dist_suffstats nrm_data nrm_N nrm_sum nrm_sumsq stats_of_data];
      (split; [exact SU|split; [discriminate|]]).
    + rewrite <- (cells_inserted_nan _ _ _ IN). auto.
    + rewrite (len_cells_inserted _ _ _ _ IN) in SN.
      rewrite (qsum_inserted _ _ _ _ IN) in SC.
      rewrite (qsum_map_inserted _ _ _ _ _ IN) in SL. rewrite SC, SL.
      split; [lia|]. split; ring.
  - unfold nuc_unobserve. cbn [dist_data dist_suffstats] in *.
    destruct (lookup rid (nuc_data s)) as [x|] eqn:L.
    2:{ cbn [fst snd]. split; [|split; auto]. apply su_unknown. apply lookup_None. assumption. }
    pose proof (ddel_inserted _ _ _ L) as IN.
    assert (SU : spec_unobserve (nuc_o s) (nuc_data s) rid (ddel rid (nuc_data s)) (Ok ([(nuc_o s, x)], []))).
    { destruct IN as (l1 & l2 & A & B). rewrite A. eapply su_known. exact B. }
    destruct S as (SN & SC & SL).
    destruct x as [|q]; cbn [fst snd kind_of dist_data dist_suffstats nuc_data nuc_N nuc_sum nuc_sumsq stats_of_data];
      (split; [exact SU|split; [discriminate|]]).
    + rewrite <- (cells_inserted_nan _ _ _ IN). auto.
    + rewrite (len_cells_inserted _ _ _ _ IN) in SN.
      rewrite (qsum_inserted _ _ _ _ IN) in SC.
      rewrite (qsum_map_inserted _ _ _ _ _ IN) in SL. rewrite SC, SL.
      split; [lia|]. split; ring.
Qed.

Lemma unobserve_frame : forall d rid,
  let d' := fst (dist_unobserve d rid) in
  kind_of d' = kind_of d /\ dist_o d' = dist_o d /\ dist_get_hypers d' = dist_get_hypers d /\
  (hypers_pos d -> hypers_pos d').
Proof.
  intros d rid.
  destruct d as [s|s|s|s|s|s]; cbn [dist_unobserve];
    unfold crp_unobserve, cat_unobserve, ber_unobserve, poi_unobserve, nrm_unobserve, nuc_unobserve;
    match goal with |- context [lookup rid ?k] => destruct (lookup rid k) as [x|] end; cbn [fst]; auto;
    try (destruct x; cbn; auto; fail).
  destruct (lookup x (crp_counts s)); cbn; auto.
Qed.

Lemma unobserve_dinv : forall d rid, dinv d -> dinv (fst (dist_unobserve d rid)).
Proof.
  intros d rid D. pose proof (unobserve_refines d rid D) as (R & _ & S).
  pose proof (unobserve_frame d rid) as (K & O & _ & HP). cbn zeta in *.
  destruct D as (ND & T & _ & HP0).
  unfold dinv. rewrite K. split; [|split; [|split; auto]].
  - inversion R as [|l1 l2 x E A B]; subst; [assumption|].
    rewrite E in ND. unfold keys in *. rewrite map_app in *. cbn [map fst] in ND.
    apply NoDup_remove_1 in ND. exact ND.
  - inversion R as [|l1 l2 x E A B]; subst; [assumption|].
    eapply typed_sub; [|exact T]. intros p I. rewrite E. apply in_app_iff in I.
    apply in_app_iff. destruct I; [left|right; right]; assumption.
Qed.

(** ** set_hypers and set_params *)

Lemma hpos_ok : forall k h u, hpos k h = Ok u -> exists v, lookup k h = Some v /\ (0 < qr v)%R.
Proof.
  intros k h u. unfold hpos, dget. destruct (lookup k h) as [v|] eqn:E; cbn [obind]; [|discriminate].
  intros A. apply oassert_ok in A. apply qltb_true in A. rewrite qr_0 in A. eauto.
Qed.

Lemma hpos_intro : forall k h v, lookup k h = Some v -> (0 < qr v)%R -> hpos k h = Ok tt.
Proof.
  intros k h v E P. unfold hpos, dget. rewrite E. cbn [obind].
  replace (qltb 0%Qc v) with true; [reflexivity|]. symmetry. apply qltb_true. rewrite qr_0. assumption.
Qed.

Lemma hpos_err : forall k h e, hpos k h = Err e ->
  (e = KeyError /\ lookup k h = None) \/ (e = AssertionError /\ exists v, lookup k h = Some v /\ (qr v <= 0)%R).
Proof.
  intros k h e. unfold hpos, dget. destruct (lookup k h) as [v|] eqn:E; cbn [obind].
  - unfold oassert. destruct (qltb 0%Qc v) eqn:Q; [discriminate|]. intros A. injection A as <-.
    apply qltb_false in Q. rewrite qr_0 in Q. right. eauto.
  - intros A. injection A as <-. auto.
Qed.

Lemma dget_some : forall {V} k (h : dict string V) v, lookup k h = Some v -> dget k h = Ok v.
Proof. intros V k h v E. unfold dget. rewrite E. reflexivity. Qed.

Ltac hyp_cases :=
  repeat match goal with
  | |- context [hpos ?k ?h] =>
      let E := fresh "E" in let u := fresh "u" in
      destruct (hpos k h) as [u|?e] eqn:E; cbn [obind];
      [apply hpos_ok in E; destruct E as [?v [?L ?P]] |]
  | L : lookup ?k ?h = Some ?v |- context [dget ?k ?h] => rewrite (dget_some k h v L); cbn [obind]
  | |- context [dget ?k ?h] => destruct (dget k h) eqn:?D; cbn [obind]
  end.

Lemma set_hypers_frame : forall d h,
  let d' := fst (dist_set_hypers d h) in
  kind_of d' = kind_of d /\ dist_o d' = dist_o d /\ dist_data d' = dist_data d /\
  dist_suffstats d' = dist_suffstats d /\ (hypers_pos d -> hypers_pos d').
Proof.
  intros d h. destruct d as [s|s|s|s|s|s]; cbn [dist_set_hypers];
    hyp_cases; cbn [fst kind_of dist_o dist_data dist_suffstats hypers_pos crp_alpha cat_alpha
      cat_k ber_alpha ber_beta poi_a poi_b nrm_r nrm_s nrm_nu nuc_var crp_o cat_o ber_o poi_o nrm_o nuc_o
      crp_data cat_data ber_data poi_data nrm_data nuc_data crp_N crp_counts cat_N cat_counts ber_N ber_sum
      poi_N poi_sum poi_slf nrm_N nrm_sum nrm_sumsq nuc_N nuc_sum nuc_sumsq];
    repeat split; auto; intros; repeat match goal with H : _ /\ _ |- _ => destruct H end; auto.
Qed.

Lemma set_params_frame : forall d p,
  let d' := fst (dist_set_params d p) in
  kind_of d' = kind_of d /\ dist_o d' = dist_o d /\ dist_data d' = dist_data d /\
  dist_suffstats d' = dist_suffstats d /\ dist_get_hypers d' = dist_get_hypers d /\
  (hypers_pos d -> hypers_pos d').
Proof.
  intros d p. destruct d as [s|s|s|s|s|s]; cbn [dist_set_params];
    try (do 5 (split; [reflexivity|]); auto; fail).
  hyp_cases; cbn [fst kind_of dist_o dist_data dist_suffstats hypers_pos nuc_var nuc_o nuc_data
    nuc_N nuc_sum nuc_sumsq dist_get_hypers nuc_hypers]; repeat split; auto.
Qed.

Lemma dinv_frame : forall d d', dinv d -> kind_of d' = kind_of d -> dist_data d' = dist_data d ->
  dist_suffstats d' = dist_suffstats d -> hypers_pos d' -> dinv d'.
Proof.
  intros d d' (ND & T & S & HP) K D SS H. unfold dinv. rewrite K, D, SS. auto.
Qed.

Lemma after_dinv : forall d c, dinv d -> dinv (after d c).
Proof.
  intros d c D. destruct c as [rid obs ins|rid|h|p]; cbn [after].
  - apply observe_dinv; assumption.
  - apply unobserve_dinv; assumption.
  - pose proof (set_hypers_frame d h) as (A & B & C & E & F). eapply dinv_frame; eauto.
    apply F. apply D.
  - pose proof (set_params_frame d p) as (A & B & C & E & _ & F). eapply dinv_frame; eauto.
    apply F. apply D.
Qed.

Lemma fresh_dinv : forall d, fresh d -> dinv d.
Proof.
  intros d F. destruct F.
  - split; [constructor|split; [intros ? ? []|split]].
    + cbn. split; [reflexivity|split; [constructor|]]. intros t n. split; [discriminate|].
      unfold occurrences. cbn. lia.
    + assumption.
  - split; [constructor|split; [intros ? ? []|split]].
    + cbn [kind_of dist_data dist_suffstats cat_new cat_k cat_data cat_N cat_counts stats_of_data].
      split; [reflexivity|]. unfold occurrences. cbn [cells flat_map filter List.length].
      unfold zrange. rewrite map_map.
      assert (G : forall n m, repeat 0 n = map (fun _ : nat => 0) (seq m n)).
      { induction n as [|n IH]; intros m; cbn [seq map repeat]; [reflexivity|]. f_equal. apply IH. }
      exact (G (Z.to_nat k) 0%nat).
    + cbn. auto.
  - split; [constructor|split; [intros ? ? []|split]].
    + cbn. auto.
    + cbn. auto.
  - unfold poi_new in H. apply obind_ok in H. destruct H as [u [A H]].
    apply obind_ok in H. destruct H as [u' [B H]]. injection H as <-.
    apply oassert_ok in A. apply oassert_ok in B. apply qltb_true in A. apply qltb_true in B.
    rewrite qr_0 in *.
    split; [constructor|split; [intros ? ? []|split]]; cbn; auto.
  - unfold nrm_new in H. apply obind_ok in H. destruct H as [u [A H]].
    apply obind_ok in H. destruct H as [u' [B H]]. apply obind_ok in H. destruct H as [u'' [C H]].
    injection H as <-.
    apply oassert_ok in A. apply oassert_ok in B. apply oassert_ok in C.
    apply qltb_true in A. apply qltb_true in B. apply qltb_true in C.
    rewrite qr_0 in *.
    split; [constructor|split; [intros ? ? []|split]]; cbn; auto.
  - unfold nuc_new in H. apply obind_ok in H. destruct H as [u [A H]].
    injection H as <-. apply oassert_ok in A. apply qltb_true in A. rewrite qr_0 in *.
    split; [constructor|split; [intros ? ? []|split]]; cbn; auto.
Qed.

Lemma reachable_dinv : forall d, reachable d -> dinv d.
Proof.
  intros d (d0 & calls & F & ->). apply fresh_dinv in F. revert d0 F.
  induction calls as [|c calls IH]; intros d0 F; cbn [fold_left]; [assumption|].
  apply IH. apply after_dinv. assumption.
Qed.

Lemma reachable_after : forall d c, reachable d -> reachable (after d c).
Proof.
  intros d c (d0 & calls & F & ->). exists d0, (calls ++ [c]). split; [assumption|].
  rewrite fold_left_app. reflexivity.
Qed.
