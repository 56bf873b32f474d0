(** Proofs: what the external engine is told of the latent state. *)
From Coq Require Import List ZArith QArith Qcanon Reals Bool String Permutation Sorted Lia.
From Verif Require Import Base Xr Samp Lgamma Prims Cgpm Lib SpecPrims PrimsInv SpecComp CompInv CompDens CompThm SimShape PrimsThm2
  SpecTable SpecHist Table Gibbs Hist PropTable Meta MetaThm Walks SpecWalks WalksThm Trans Views ViewsThm ViewsThm2 ViewsThm3 ViewsThm4 ViewsThm5
  Hypers SpecHypers Progress Crosscat CrosscatThm CrosscatThm2 CrosscatThm3 Cpp CppThm CppThm2 CppThm3.
From Verif Require Import SpecViews SpecCrosscat SpecCpp SpecLatents.
Import ListNotations.
Local Open Scope Z_scope.

Lemma count_filter : forall k l, List.length (filter (Z.eqb k) l) = count_occ Z.eq_dec l k.
Proof.
  intros k l. induction l as [|x l IH]; [reflexivity|]. cbn [filter count_occ]. destruct (Z.eqb_spec k x) as [->|N].
  - destruct (Z.eq_dec x x); [|congruence]. cbn. now rewrite IH.
  - destruct (Z.eq_dec x k); [congruence|exact IH].
Qed.

Lemma bincount_tallied : forall l K, (forall z, In z l <-> 0 <= z < Z.of_nat K) -> tallied l (bincount l) /\ List.length (bincount l) = K.
Proof.
  intros l K H.
  assert (L : List.length (bincount l) = K).
  { destruct l as [|x l]; cbn [bincount List.length].
    - destruct K as [|K]; [reflexivity|]. exfalso. apply (proj2 (H 0)). lia.
    - rewrite map_length, zrange_length. assert (M := proj1 (H _) (zmax_In l x)). assert (B : zmax x l = Z.of_nat K - 1).
      { assert (Y : In (Z.of_nat K - 1) (x :: l)) by (apply H; lia). destruct (zmax_ge l x) as [G1 G2]. destruct Y as [E|Y]; [|specialize (G2 _ Y)]; lia. }
      lia. }
  split; [|exact L]. split.
  - intros z Hz. rewrite L. apply H. exact Hz.
  - intros k n E. assert (Hk : (k < K)%nat) by (rewrite <- L; apply nth_error_Some; congruence).
    assert (Ek : n = Z.of_nat (count_occ Z.eq_dec l (Z.of_nat k))).
    { destruct l as [|x l]; [destruct k; discriminate|]. cbn [bincount] in E, L. rewrite map_length, zrange_length in L. rewrite L in E.
      rewrite nth_error_map in E. unfold zrange in E. rewrite nth_error_map in E. rewrite (nth_error_nth' _ 0%nat) in E by (rewrite seq_length; exact Hk).
      rewrite seq_nth in E by exact Hk. cbn [option_map Nat.add] in E. rewrite <- count_filter. congruence. }
    split; [exact Ek|]. rewrite Ek. assert (Y := proj1 (count_occ_In Z.eq_dec l (Z.of_nat k))). assert (In (Z.of_nat k) l) by (apply H; lia). specialize (Y H0). lia.
Qed.

Lemma base_modelling : forall X o d, crosscat X -> In o (flat_map columns_of X) -> get_cgpm_base (CProd X) o = Ok d -> In d (modelling (CProd X) o) /\ dist_data d = [].
Proof.
  intros X o d C Ho E. unfold get_cgpm_base in E. rewrite find_ok in E; [|apply crosscat_wf; exact C|].
  - cbn [obind] in E. destruct (filter _ _) as [|d' ds] eqn:F; [discriminate|]. injection E as ->.
    assert (Y : In d (filter (fun d => match dist_data d with [] => true | _ => false end) (modelling (CProd X) o))) by (rewrite F; now left).
    apply filter_In in Y. destruct Y as [Y Z0]. split; [exact Y|]. destruct (dist_data d); [reflexivity|discriminate].
  - cbn [outputs]. apply in_flat_map in Ho. destruct Ho as (m & Hm & Ho). apply in_flat_map. exists m. split; [exact Hm|]. apply column_output; [apply (crosscat_views X m C Hm)|exact Ho].
Qed.

(** The different values of a column, one for each code. *)
Lemma codes_seen : forall X o (v2c : dict Z Z) (c2v : dict Z Z) n, crosscat X -> typed X o (KCategory n) ->
  (forall z i, lookup z c2v = Some i <-> lookup i v2c = Some z) ->
  (forall z, In z (keys c2v) <-> exists r, holds X r o (vz z)) ->
  (forall i, In i (keys v2c) <-> 0 <= i < Z.of_nat (List.length c2v)) ->
  exists seen : list Qc, NoDup seen /\ (forall q, In q seen <-> exists r, holds X r o (VQ q)) /\ List.length seen = List.length c2v.
Proof.
  intros X o v2c c2v n C T C1 C2 C3.
  set (zf := fun i => match lookup i v2c with Some z => z | None => 0 end).
  exists (map (fun i => qz (zf i)) (zrange (List.length c2v))). split; [|split].
  - assert (IN : forall i, In i (zrange (List.length c2v)) -> lookup i v2c = Some (zf i)).
    { intros i Hi. apply zrange_In, C3 in Hi. unfold zf. destruct (lookup i v2c) eqn:E; [reflexivity|]. exfalso. apply lookup_None in E. exact (E Hi). }
    assert (ND := zrange_NoDup (List.length c2v)). revert IN ND. generalize (zrange (List.length c2v)). induction l as [|i l IH]; intros IN ND; cbn [map]; constructor.
    + inversion ND as [|? ? NI _]; subst. intros Y. apply in_map_iff in Y. destruct Y as (j & E & Hj). apply qz_inj in E. apply NI.
      assert (Ei := IN i (or_introl eq_refl)). assert (Ej := IN j (or_intror Hj)). rewrite E in Ej. apply C1 in Ei, Ej. assert (i = j) as -> by congruence. exact Hj.
    + inversion ND; subst. apply IH; [intros; apply IN; now right|assumption].
  - intros q. rewrite in_map_iff. split.
    + intros (i & <- & Hi). apply zrange_In, C3 in Hi. apply C2. unfold zf. destruct (lookup i v2c) as [z|] eqn:E; [|exfalso; apply lookup_None in E; exact (E Hi)].
      apply C1 in E. apply lookup_In in E. apply (in_map fst) in E. exact E.
    + intros (r & Hr). destruct (holds_domain X r o q n C Hr T) as (z & -> & _). assert (K := proj2 (C2 z) (ex_intro _ r Hr)).
      destruct (lookup z c2v) as [i|] eqn:E; [|exfalso; apply lookup_None in E; exact (E K)]. exists i. assert (E' := proj1 (C1 z i) E). unfold zf. rewrite E'. split; [reflexivity|].
      apply zrange_In, C3. apply lookup_In in E'. apply (in_map fst) in E'. exact E'.
  - now rewrite map_length, zrange_length.
Qed.

Lemma oseq_map_F2 : forall {A B} (f : A -> out B) l r, oseq (map f l) = Ok r -> Forall2 (fun a b => f a = Ok b) l r.
Proof.
  intros A B f l. induction l as [|a l IH]; intros r E; cbn [map oseq] in E; [injection E as <-; constructor|].
  destruct (f a) as [b|] eqn:Ea; [|discriminate]. destruct (oseq (map f l)) as [r'|]; [|discriminate]. injection E as <-. constructor; auto.
Qed.

Lemma enum_nth : forall {A B} (P : nat * A -> B -> Prop) l i r, Forall2 P (enum_from i l) r ->
  List.length l = List.length r /\ forall k a b, nth_error l k = Some a -> nth_error r k = Some b -> P ((i + k)%nat, a) b.
Proof.
  intros A B P l. induction l as [|x l IH]; intros i r F; cbn [enum_from] in F; inversion F as [|? y ? r' Py F']; subst.
  - split; [reflexivity|]. intros [|k]; discriminate.
  - destruct (IH _ _ F') as [L N]. split; [cbn; now rewrite L|]. intros [|k] a b Ea Eb; cbn in Ea, Eb.
    + rewrite Nat.add_0_r. congruence.
    + rewrite <- plus_n_Sm. apply (N k); assumption.
Qed.

Lemma F2_of_nth : forall {A B} (P : A -> B -> Prop) l r, List.length l = List.length r ->
  (forall k a b, nth_error l k = Some a -> nth_error r k = Some b -> P a b) -> Forall2 P l r.
Proof.
  intros A B P l. induction l as [|a l IH]; intros [|b r] L N; try discriminate; constructor.
  - apply (N 0%nat); reflexivity.
  - apply IH; [now injection L|]. intros k x y Ex Ey. apply (N (Datatypes.S k)); assumption.
Qed.

Lemma blocks_counted : forall part K, (forall z, In z part <-> 0 <= z < Z.of_nat K) -> List.length (nodup Z.eq_dec part) = K.
Proof.
  intros part K H. assert (P : Permutation (nodup Z.eq_dec part) (zrange K)).
  { apply NoDup_Permutation; [apply NoDup_nodup|apply zrange_NoDup|]. intros z. rewrite nodup_In, zrange_In. apply H. }
  rewrite (Permutation_length P). apply zrange_length.
Qed.

Lemma X_L_told : forall scc X M XD Cd Ci rows xl, importable X -> Forall2 (column_meta X) (flat_map columns_of X) (column_metadata M) -> Forall2 (view_part rows) X XD ->
  get_crosscat_X_L scc (CProd X) M XD Cd Ci = Ok xl ->
  Forall2 (column_told X) (flat_map columns_of X) (column_hypers xl) /\
  tallied (assignments xl) (partition_counts xl) /\
  Forall2 (fun p => view_told (fst p) (snd p)) (combine X XD) (view_states xl).
Proof.
  intros scc X M XD Cd Ci rows xl (C & CX & NE & TY & HV & HS) FM FD E. unfold get_crosscat_X_L in E. rewrite distribution_outputs in E by exact C.
  destruct (get_bases (CProd X) (flat_map columns_of X)) as [bs|] eqn:EB; [|discriminate]. cbn [obind] in E.
  destruct (oseq (map (fun p : nat * dist => create_hypers M (fst p) (snd p)) (enum_from 0 bs))) as [ch|] eqn:EH; [|discriminate]. cbn [obind] in E.
  destruct (views_ok X C) as (va & EV & FV). rewrite EV in E. cbn [obind] in E.
  destruct (oassert (negb (memb 0 (bincount va)))); [|discriminate]. cbn [obind views_of] in E.
  destruct (oseq (map (fun p : cgpm * list Z => create_view_state (fst p) (snd p)) (combine X XD))) as [vs|] eqn:ES; [|discriminate]. cbn [obind] in E.
  match type of E with obind ?t _ = _ => destruct t as [dep|]; [|discriminate] end. cbn [obind] in E.
  match type of E with obind ?t _ = _ => destruct t as [ind|]; [|discriminate] end. cbn [obind] in E.
  assert (EX : xl = mkLatents ch va (bincount va) vs dep ind) by congruence. subst xl. clear E. cbn [column_hypers assignments partition_counts view_states].
  destruct (viewed_structure X rows va XD C FV FD) as ((_ & IV & _) & _). split; [|split].
  - assert (FB : Forall2 (fun o d => get_cgpm_base (CProd X) o = Ok d) (flat_map columns_of X) bs).
    { unfold get_bases in EB. destruct (oseq (map (get_cgpm_base (CProd X)) (flat_map columns_of X))) as [bs'|] eqn:EB'; [|discriminate]. cbn [obind] in EB.
      destruct bs'; [discriminate|]. injection EB as <-. apply oseq_map_F2 in EB'. exact EB'. }
    apply oseq_map_F2 in EH. apply enum_nth in EH. destruct EH as [LH NH]. cbn [fst snd Nat.add] in NH.
    assert (LB := F2_len FB). assert (LM := F2_len FM). apply F2_of_nth; [congruence|]. intros k o h Eo Eh.
    assert (Hk : (k < List.length (flat_map columns_of X))%nat) by (apply nth_error_Some; congruence).
    destruct (nth_error bs k) as [d|] eqn:Ed; [|apply nth_error_None in Ed; lia].
    destruct (nth_error (column_metadata M) k) as [md|] eqn:Em; [|apply nth_error_None in Em; lia].
    assert (EC := NH k d h Ed Eh). assert (ED := F2_combine FB (nth_error_combine _ _ _ _ _ Eo Ed)). cbn beta in ED.
    assert (Ho := nth_error_In _ _ Eo). destruct (base_modelling X o d C Ho ED) as [MO DE]. exists d. split; [exact MO|]. split; [exact DE|].
    destruct (base_typed X o C Ho) as (d' & ED' & T). assert (d' = d) as -> by congruence. assert (CM := F2_combine FM (nth_error_combine _ _ _ _ _ Eo Em)).
    destruct d as [|s| | |s|]; try discriminate EC.
    + cbn [create_hypers] in EC. unfold item in EC. rewrite Em in EC. cbn [obind] in EC.
      destruct CM as [[T' _]|(n' & v2c & c2v & T' & -> & C1 & C2 & C3)]; [assert (Y := typed_unique X o _ _ C T T'); discriminate|]. cbn [code_to_value] in EC.
      destruct (codes_seen X o v2c c2v n' C T' C1 C2 C3) as (seen & ND & IN & LS). exists seen. split; [exact ND|]. split; [exact IN|]. rewrite LS.
      destruct (oassert _); [|discriminate]. cbn in EC. cbn. congruence.
    + cbn in EC. congruence.
  - apply (bincount_tallied va (List.length XD) IV).
  - apply oseq_map_F2 in ES. assert (SH : forall m, In m X -> sheet m) by (intros m Hm; apply (crosscat_views X m C Hm)).
    clear - FD SH ES. revert vs ES. induction FD as [|m part X XD (_ & [K HK] & _) FD IH]; intros vs ES; cbn [combine] in *; inversion ES as [|? v ? vs' E1 ES']; subst; constructor.
    + cbn [fst snd] in *. destruct (SH m (or_introl eq_refl)) as [s bs cs r2i r2c N1 _ _]. cbn [create_view_state dist_get_hypers] in E1.
      change (dget "alpha"%string [("alpha"%string, crp_alpha s)]) with (@Ok Qc (crp_alpha s)) in E1. cbn [obind] in E1.
      destruct (oassert _); [|discriminate]. cbn [obind] in E1. injection E1 as <-. destruct (bincount_tallied part K HK) as [TL LL].
      split; [reflexivity|]. cbn [vs_counts vs_blocks vs_alpha]. split; [exact TL|]. split; [rewrite LL; apply blocks_counted; exact HK|]. exists s. split; reflexivity.
    + apply IH; [intros; apply SH; now right|exact ES'].
Qed.

Lemma request_told : forall srt scc X N S kernels rowids cols Cd Ci seed rq obs, (forall l, Permutation (srt l) l) -> importable X ->
  cpp_request srt scc (CProd X) N S kernels rowids cols Cd Ci seed = Ok (Some (rq, obs)) ->
  Forall2 (column_told X) (flat_map columns_of X) (column_hypers (rq_X_L rq)) /\
  tallied (assignments (rq_X_L rq)) (partition_counts (rq_X_L rq)) /\
  List.length (rq_X_D rq) = List.length X /\
  Forall2 (fun p => view_told (fst p) (snd p)) (combine X (rq_X_D rq)) (view_states (rq_X_L rq)).
Proof.
  intros srt scc X N S kernels rowids cols Cd Ci seed rq obs SP IM ER. assert (IM' := IM). destruct IM' as (C & CX & NE & TY & _).
  unfold cpp_request in ER. destruct (steps_and_time N S) as [st|]; [|discriminate]. cbn [obind] in ER.
  match type of ER with obind ?t _ = _ => destruct t as [cs'|]; [|discriminate] end. cbn [obind] in ER.
  destruct (observations_ok X C) as (cs & EO & F). rewrite EO in ER. cbn [obind] in ER.
  destruct (rows_ok X cs CX (cols_nonempty X C NE) F) as (rows & ER' & RO).
  destruct (M_c_ok srt X SP IM cs F) as (ms & EM & FM).
  destruct (combine (flat_map columns_of X) cs) as [|p obs'] eqn:EC; [discriminate|].
  match type of ER with obind ?t _ = _ => destruct t as [rs|]; [|discriminate] end. cbn [obind] in ER. rewrite EM in ER. cbn [obind] in ER.
  match type of ER with obind ?t _ = _ => destruct t as [T|]; [|discriminate] end. cbn [obind] in ER.
  destruct (X_D_ok X rows IM RO) as (XD & EXD & FD). rewrite EXD in ER. cbn [obind] in ER.
  match type of ER with obind ?t _ = _ => destruct t as [XL|] eqn:EL; [|discriminate] end. cbn [obind] in ER.
  assert (E1 : rq_X_L rq = XL /\ rq_X_D rq = XD).
  { match type of ER with Ok (Some (?q, _)) = _ => assert (Y : q = rq) by congruence end. subst rq. split; reflexivity. }
  destruct E1 as [-> ->]. destruct (X_L_told scc X (mkMetas (dict_zip (flat_map columns_of X) (seq 0 (List.length (flat_map columns_of X)))) ms) XD Cd Ci rows XL IM FM FD EL) as (A & B & D). split; [exact A|]. split; [exact B|]. split; [symmetry; apply (F2_len FD)|exact D].
Qed.
