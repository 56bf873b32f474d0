(** Proofs about metadata: what [to_metadata] writes is read back as the same object. *)
From Coq Require Import List ZArith QArith Qcanon Reals Bool String Lia.
From Verif Require Import Base Xr Samp Lgamma Prims Cgpm Lib SpecPrims PrimsInv SpecComp CompInv
  SimShape Book Query Meta.
Import ListNotations.
Local Open Scope Z_scope.

(** ** Dictionaries have distinct keys *)

Definition is_prod (c : cgpm) : bool := match c with CProd _ => true | _ => false end.

(** The row maps have distinct keys and no Product is directly inside a Product. *)
Fixpoint maps (c : cgpm) : Prop :=
  match c with
  | CDist _ => True
  | CProd cs => each (fun c' => maps c' /\ is_prod c' = false) cs
  | CFinArr _ cs r2i => NoDup (keys r2i) /\ each maps cs
  | CFlexArr _ base cs r2i =>
      NoDup (keys r2i) /\ maps base /\ each (fun p => let '(_, c') := p in maps c') cs
  | CMix _ _ arr r2c => NoDup (keys r2c) /\ maps arr
  end.

Definition mkept (c c' : cgpm) : Prop := maps c' /\ is_prod c' = is_prod c.

Lemma maps_flex : forall ix b cs r2i, maps (CFlexArr ix b cs r2i) <->
  NoDup (keys r2i) /\ maps b /\ forall k c, In (k, c) cs -> maps c.
Proof.
  intros. cbn [maps]. rewrite each_In. split; intros (A & B & C); repeat split; auto.
  - intros k c H. apply (C (k, c) H).
  - intros [k c] H. apply (C k c H).
Qed.

Lemma maps_fin : forall ix cs r2i, maps (CFinArr ix cs r2i) <->
  NoDup (keys r2i) /\ forall c, In c cs -> maps c.
Proof. intros. cbn [maps]. rewrite each_In. reflexivity. Qed.

Lemma maps_prod : forall cs, maps (CProd cs) <-> forall c, In c cs -> maps c /\ is_prod c = false.
Proof. intros. cbn [maps]. rewrite each_In. reflexivity. Qed.

Lemma observe_maps : forall c, maps c -> forall rid obs ins,
  always (observe c rid obs ins) (fun r => mkept c (fst r)).
Proof.
  induction c as [d|cs IH|ix cs r2i IH|ix b cs r2i IHb IH|flex div arr r2c IH] using cgpm_ind_In; intros T rid obs ins.
  - cbn. destruct (dist_observe d rid obs ins). split; [exact I|reflexivity].
  - cbn [observe]. apply always_bind. rewrite maps_prod in T.
    assert (H : always (prod_observe (map (fun c' => (c', observe c')) cs) rid obs ins)
                  (fun r => forall c, In c (fst r) -> maps c /\ is_prod c = false)).
    { induction cs as [|c cs IHcs]; cbn [map prod_observe]; [intros c []|].
      assert (IH' : always (prod_observe (map (fun c' => (c', observe c')) cs) rid obs ins)
                      (fun r => forall c, In c (fst r) -> maps c /\ is_prod c = false)).
      { apply IHcs; intros; [apply IH|apply T]; auto; now right. }
      destruct (T c (or_introl eq_refl)) as [TC NP].
      destruct (interd (outputs c) obs) as [|p l] eqn:E.
      - apply always_bind. revert IH'. apply always_imp. intros [cs2 r2] H. cbn [fst snd always] in *. intros c0 [<-|H0]; auto.
      - apply always_bind. eapply always_imp; [|apply (IH c (or_introl eq_refl) TC)]. intros [c' r] [TC' NP']. cbn [fst snd] in *.
        rewrite NP in NP'. destruct r as [[]|e].
        + apply always_bind. revert IH'. apply always_imp. intros [cs2 r2] H. cbn [fst snd always] in *. intros c0 [<-|H0]; auto.
        + cbn. intros c0 [<-|H0]; auto. rewrite map_map, map_id in H0. apply T. now right. }
    revert H. apply always_imp. intros [cs' r] H. cbn [fst snd always] in *. split; [apply maps_prod; exact H|reflexivity].
  - cbn [observe]. unfold finarr_observe. assert (T' := T). apply maps_fin in T'. destruct T' as [ND TC].
    assert (ST : mkept (CFinArr ix cs r2i) (CFinArr ix cs r2i)) by (split; [exact T|reflexivity]).
    destruct (lookup ix ins) as [i|]; [|exact ST].
    destruct (py_index (map observe cs) i) as [n|e]; [|exact ST].
    destruct (nth_error (map observe cs) n) as [f|] eqn:N; [|exact ST].
    rewrite nth_error_map in N. destruct (nth_error cs n) as [c|] eqn:Nc; [|discriminate]. injection N as <-.
    apply nth_error_In in Nc. apply always_bind. eapply always_imp; [|apply (IH c Nc (TC c Nc))].
    intros [c' r] [A _]. cbn [fst snd] in *.
    assert (X : forall m, NoDup (keys m) -> mkept (CFinArr ix cs r2i) (CFinArr ix (set_nth n c' cs) m)).
    { intros m NDm. split; [|reflexivity]. apply maps_fin. split; [exact NDm|]. intros x Hx. apply set_nth_In in Hx.
      destruct Hx as [->|Hx]; auto. }
    destruct r as [u|e]; cbn; apply X; try apply NoDup_keys_dset; exact ND.
  - cbn [observe]. unfold flexarr_observe. assert (T' := T). apply maps_flex in T'. destruct T' as (ND & TB & TC).
    destruct (lookup ix ins) as [i|]; [|split; [exact T|reflexivity]].
    apply always_bind.
    assert (A : always ((match lookup i (map (fun p => let '(k, c') := p in (k, observe c')) cs) with
      Some f => f | None => observe b end) rid obs (ddel ix ins)) (fun r => maps (fst r))).
    { rewrite lookup_dict_map. destruct (lookup i cs) as [c|] eqn:E; cbn.
      - apply lookup_In in E. eapply always_imp; [|apply (IH _ _ E (TC _ _ E))]. intros r X. apply X.
      - eapply always_imp; [|apply (IHb TB)]. intros r X. apply X. }
    revert A. apply always_imp. intros [c' r] A. cbn [fst snd] in *.
    assert (X : forall m, NoDup (keys m) -> mkept (CFlexArr ix b cs r2i) (CFlexArr ix b (dset i c' cs) m)).
    { intros m NDm. split; [|reflexivity]. apply maps_flex. split; [exact NDm|split; [exact TB|]]. intros k c H.
      apply dset_In in H. destruct H as [[_ ->]|H]; [exact A|apply (TC _ _ H)]. }
    destruct r as [u|e]; cbn; apply X; try apply NoDup_keys_dset; exact ND.
  - destruct T as [ND TA]. specialize (IH TA).
    assert (Y : forall div' r2c' rid' obs' I' z, NoDup (keys r2c') ->
      always (mix_observe_x flex div' arr (observe arr) r2c' rid' obs' I' z) (fun r => mkept (CMix flex div arr r2c) (fst r))).
    { intros. unfold mix_observe_x. apply always_bind. eapply always_imp; [|apply IH]. intros [a r] [H1 _].
      split; [split; assumption|reflexivity]. }
    cbn [observe]. unfold mix_observe. cbv zeta. destruct (lookup rid r2c); [apply Y; exact ND|].
    apply always_bind. apply always_True. intros [z|e]; [|split; [split; assumption|reflexivity]].
    destruct (dist_observe div rid [(dist_o div, z)] []) as [div' [u|e]];
      [apply Y; apply NoDup_keys_dset; exact ND|split; [split; assumption|reflexivity]].
Qed.

Lemma unobserve_maps : forall c rid, maps c -> mkept c (fst (unobserve c rid)).
Proof.
  induction c as [d|cs IH|ix cs r2i IH|ix b cs r2i IHb IH|flex div arr r2c IH] using cgpm_ind_In; intros rid T.
  - cbn. destruct (dist_unobserve d rid). split; [exact I|reflexivity].
  - rewrite maps_prod in T. cbn [unobserve]. unfold prod_unobserve.
    assert (X : mkept (CProd cs) (CProd (map fst (map unobserve_one (map (fun c => unobserve c rid) cs))))).
    { split; [|reflexivity]. apply maps_prod. intros c H. rewrite !map_map in H. apply in_map_iff in H. destruct H as (c0 & <- & H).
      unfold unobserve_one. destruct (T c0 H) as [T0 N0]. specialize (IH c0 H rid T0).
      destruct (unobserve c0 rid) as [c' [p|e]]; destruct IH as [A B]; cbn [fst snd] in *; rewrite N0 in B; auto. }
    destruct (map (fun c' => unobserve c' rid) cs) as [|p l] eqn:E; [split; [exact I|reflexivity]|].
    exact X.
  - assert (T' := T). apply maps_fin in T'. destruct T' as [ND TC]. cbn [unobserve]. unfold finarr_unobserve.
    destruct (lookup rid r2i) as [i|]; [|split; [exact T|reflexivity]]. cbv zeta.
    assert (ST : mkept (CFinArr ix cs r2i) (CFinArr ix cs (ddel rid r2i))).
    { split; [|reflexivity]. apply maps_fin. split; [apply NoDup_keys_ddel; exact ND|exact TC]. }
    destruct (py_index (map unobserve cs) i) as [n|e]; [|exact ST].
    destruct (nth_error (map unobserve cs) n) as [f|] eqn:N; [|exact ST].
    rewrite nth_error_map in N. destruct (nth_error cs n) as [c|] eqn:Nc; [|discriminate]. injection N as <-.
    apply nth_error_In in Nc. specialize (IH c Nc rid (TC c Nc)). destruct (unobserve c rid) as [c' r]. destruct IH as [A _].
    cbn [fst] in *. split; [|reflexivity]. apply maps_fin. split; [try apply NoDup_keys_ddel; exact ND|]. intros x Hx.
    apply set_nth_In in Hx. destruct Hx as [->|Hx]; auto.
  - cbn [unobserve]. unfold flexarr_unobserve. destruct (lookup rid r2i) as [i|]; [|split; [exact T|reflexivity]].
    apply maps_flex in T. destruct T as (ND & TB & TC).
    assert (A : maps (fst ((match lookup i (map (fun p => let '(k, c') := p in (k, unobserve c')) cs) with
      Some f => f | None => unobserve b end) rid))).
    { rewrite lookup_dict_map. destruct (lookup i cs) as [c|] eqn:E; cbn; [|apply IHb; auto].
      apply lookup_In in E. apply (IH _ _ E). apply (TC _ _ E). }
    destruct ((match lookup i (map (fun p => let '(k, c') := p in (k, unobserve c')) cs) with
      Some f => f | None => unobserve b end) rid) as [c' r]. cbn [fst] in *.
    split; [|reflexivity]. apply maps_flex. split; [try apply NoDup_keys_ddel; exact ND|split; [exact TB|]]. intros k c H. apply dset_In in H.
    destruct H as [[_ ->]|H]; [exact A|apply (TC _ _ H)].
  - destruct T as [ND TA]. specialize (IH rid TA). cbn [unobserve]. unfold mix_unobserve.
    destruct (dist_unobserve div rid) as [div' [[oz iz]|e]]; [|split; [split; assumption|reflexivity]].
    destruct (unobserve arr rid) as [arr' [[ox ix]|e]]; destruct IH as [IH _]; cbn [fst] in IH;
      [|split; [split; assumption|reflexivity]].
    destruct (dmem rid r2c); (split; [split; [try apply NoDup_keys_ddel; exact ND|exact IH]|reflexivity]).
Qed.

Lemma retuned_maps : forall c c', retuned c c' -> maps c -> mkept c c'.
Proof.
  induction 1 as [d h|d p|l c c' r R IH|ix l c c' r m R IH|ix c c' cs m R IH|ix b l k c c' r m R IH|
                  f d d' arr m R IH|f d arr arr' m R IH]; intros T.
  - split; [exact I|reflexivity].
  - split; [exact I|reflexivity].
  - split; [|reflexivity]. rewrite maps_prod in *. intros x Hx. destruct (T c) as [A B]; [apply in_or_app; right; now left|].
    destruct (IH A) as [A' B']. rewrite B in B'.
    apply in_app_or in Hx. destruct Hx as [Hx|[<-|Hx]]; auto; apply T; apply in_or_app; auto. right. now right.
  - split; [|reflexivity]. rewrite maps_fin in *. destruct T as [ND T]. split; [exact ND|]. intros x Hx.
    assert (A : maps c) by (apply T; apply in_or_app; right; now left). destruct (IH A) as [A' _].
    apply in_app_or in Hx. destruct Hx as [Hx|[<-|Hx]]; auto; apply T; apply in_or_app; auto. right. now right.
  - split; [|reflexivity]. rewrite maps_flex in *. destruct T as (ND & TB & TC). repeat split; auto. apply IH, TB.
  - split; [|reflexivity]. rewrite maps_flex in *. destruct T as (ND & TB & TC). repeat split; auto. intros x y Hx.
    assert (A : maps c) by (apply (TC k); apply in_or_app; right; now left). destruct (IH A) as [A' _].
    apply in_app_or in Hx. destruct Hx as [Hx|[Hx|Hx]]; [|injection Hx as <- <-; exact A'|]; apply (TC x); apply in_or_app; auto.
    right. now right.
  - split; [exact T|reflexivity].
  - destruct T as [A B]. split; [|reflexivity]. split; [exact A|apply IH, B].
Qed.

Lemma flatten_maps : forall cs, (forall c, In c cs -> maps c) -> maps (CProd (flatten_products cs)).
Proof.
  intros cs T. apply maps_prod. intros c Hc. unfold flatten_products in Hc. apply in_flat_map in Hc.
  destruct Hc as (x & Hx & Hc). specialize (T x Hx). destruct x as [d|l| | |]; cbn in Hc;
    try (destruct Hc as [<-|[]]; split; [exact T|reflexivity]).
  rewrite maps_prod in T. auto.
Qed.

Lemma creachable_maps : forall c, creachable c -> maps c.
Proof.
  induction 1 as [d Rd|cs c _ IH N|div cs c Rd K _ IH O N|div base K Rd SU _ IH NI|c rid obs ins c' res _ IH P|
                  c rid c' res _ IH U|c c' _ IH R].
  - exact I.
  - apply new_product_inv in N. destruct N as (-> & _). apply flatten_maps. exact IH.
  - unfold new_finmix in N. apply obind_ok in N. destruct N as (sup & SU & N).
    apply obind_ok in N. destruct N as (u & A & N).
    destruct cs as [|c0 cs]; [discriminate|]. injection N as <-. split; [constructor|]. apply maps_fin. split; [constructor|exact IH].
  - split; [constructor|]. apply maps_flex. split; [constructor|]. split; [exact IH|]. intros ? ? [].
  - destruct (always_possible _ _ _ (observe_maps c IH rid obs ins) P) as ([c1 r1] & [W _] & E).
    injection E as -> ->. exact W.
  - assert (Kc := unobserve_maps c rid IH). rewrite U in Kc. apply Kc.
  - apply (retuned_maps _ _ R). exact IH.
Qed.

(** ** Reading back *)


Lemma dict_of_NoDup : forall {K V} `{EqDec K} (l : list (K * V)), NoDup (keys l) -> dict_of l = l.
Proof.
  intros K V E l ND. unfold dict_of.
  assert (H : forall l acc : list (K * V), NoDup (keys (acc ++ l)) ->
    fold_left (fun d p => dset (fst p) (snd p) d) l acc = acc ++ l).
  { clear. induction l as [|[k v] l IH]; intros acc ND; cbn [fold_left fst snd]; [now rewrite app_nil_r|].
    assert (A : dset k v acc = acc ++ [(k, v)]).
    { assert (N : ~ In k (keys acc)).
      { unfold keys in *. rewrite map_app in ND. cbn in ND. apply NoDup_remove_2 in ND. intros I. apply ND. apply in_or_app. now left. }
      clear - N. induction acc as [|[k0 v0] acc IH]; [reflexivity|]. cbn in *.
      destruct (eq_dec k k0) as [->|NE]; [tauto|]. f_equal. apply IH. tauto. }
    rewrite A, IH; rewrite <- app_assoc; [reflexivity|exact ND]. }
  apply (H l []). exact ND.
Qed.

Lemma items_ok : forall {K V} `{EqDec K} (fk : K -> meta) (fv : V -> meta) (rk : meta -> out K) (rv : meta -> out V) d,
  (forall k, rk (fk k) = Ok k) -> (forall v, rv (fv v) = Ok v) -> NoDup (keys d) ->
  as_items rk rv (items fk fv d) = Ok d.
Proof.
  intros K V E fk fv rk rv d HK HV ND. unfold as_items, items, as_list. rewrite map_map.
  rewrite (oseq_map_ok _ (fun p => p)).
  - cbn. rewrite map_id. rewrite dict_of_NoDup by exact ND. reflexivity.
  - intros [k v] _. cbn. rewrite HK. cbn. rewrite HV. reflexivity.
Qed.

(** The dictionaries of a primitive. *)
Definition dist_dicts (d : dist) : Prop :=
  match d with
  | DCrp s => NoDup (keys (crp_data s)) /\ NoDup (keys (crp_counts s))
  | DCat s => NoDup (keys (cat_data s))
  | DBer s => NoDup (keys (ber_data s))
  | DPoi s => NoDup (keys (poi_data s))
  | DNrm s => NoDup (keys (nrm_data s))
  | DNuc s => NoDup (keys (nuc_data s))
  end.

Lemma dinv_dicts : forall d, dinv d -> dist_dicts d.
Proof.
  intros d (ND & _ & ST & _). destruct d as [s|s|s|s|s|s]; cbn in *; auto.
  split; [|apply ST]. unfold keys in *. rewrite map_map in ND. cbn in ND.
  erewrite map_ext; [exact ND|]. intros []; reflexivity.
Qed.

Lemma cells_ok : forall d : dict Z val, NoDup (keys d) -> as_items as_int as_cell (items MInt MCell d) = Ok d.
Proof. intros d ND. apply items_ok; auto. Qed.

Lemma ints_ok : forall d : dict Z Z, NoDup (keys d) -> as_items as_int as_int (items MInt MInt d) = Ok d.
Proof. intros d ND. apply items_ok; auto. Qed.

Lemma list_ok : forall l, as_list as_int (MList (map MInt l)) = Ok l.
Proof. intros l. unfold as_list. rewrite map_map. rewrite (oseq_map_ok _ (fun x => x)); [now rewrite map_id|]. auto. Qed.

Lemma hypers_ok : forall l : dict string Qc,
  oseq (map (fun p => do q <- as_num (snd p); Ok (fst p, q)) (map (fun p => (fst p, MNum (snd p))) l)) = Ok l.
Proof. intros l. rewrite map_map. rewrite (oseq_map_ok _ (fun x => x)); [now rewrite map_id|]. intros [k q] _. reflexivity. Qed.

Lemma read_io_ok : forall o l,
  read_io (MDict (("outputs"%string, MList [MInt o]) :: ("inputs"%string, MList []) :: l)) = Ok o.
Proof. reflexivity. Qed.

Ltac read := cbn - [items as_items as_list map oseq read_io];
  unfold crp_from_meta, cat_from_meta, ber_from_meta, poi_from_meta, nrm_from_meta, nuc_from_meta;
  rewrite ?read_io_ok; cbn - [items as_items as_list map oseq read_io].

Lemma dist_round_trip : forall d n, dist_dicts d -> from_meta (S n) (dist_to_meta d) = Ok (CDist d).
Proof.
  intros [s|s|s|s|s|s] n D; destruct s as []; cbn in D.
  - destruct D as [D1 D2]. read. rewrite (ints_ok _ D1). read. rewrite (ints_ok _ D2). reflexivity.
  - read. rewrite (cells_ok _ D). read. rewrite list_ok. reflexivity.
  - read. rewrite (cells_ok _ D). reflexivity.
  - read. rewrite (cells_ok _ D). reflexivity.
  - read. rewrite (cells_ok _ D). reflexivity.
  - read. rewrite (cells_ok _ D). read. rewrite hypers_ok. reflexivity.
Qed.

(** ** Composites *)

(** What reading back requires: dictionaries with distinct keys, Products that are flat
    with disjoint columns, mixtures that fit their row divider. *)
Fixpoint loadable (c : cgpm) : Prop :=
  match c with
  | CDist d => dist_dicts d
  | CProd cs => each (fun c' => loadable c' /\ is_prod c' = false) cs /\ NoDup (flat_map outputs cs) /\
      flat_map inputs cs = []
  | CFinArr _ cs r2i => NoDup (keys r2i) /\ cs <> [] /\ each loadable cs
  | CFlexArr _ base cs r2i =>
      NoDup (keys r2i) /\ NoDup (keys cs) /\ loadable base /\ each (fun p => let '(_, c') := p in loadable c') cs
  | CMix flex div arr r2c => NoDup (keys r2c) /\ dist_dicts div /\ loadable arr /\
      match flex, arr with
      | false, CFinArr _ cs _ => dist_support div = Ok (zrange (List.length cs))
      | true, CFlexArr _ _ _ _ => True
      | _, _ => False
      end
  end.

Lemma wf_loadable : forall c, wf c -> maps c -> loadable c.
Proof.
  induction 1 as [d D|cs Wc IH ND|div cs r2i r2c D F SU NE Wc IH O|div b cs r2i r2c D HS Wb IHb NI ND Wc IH O]; intros M.
  - apply dinv_dicts. exact D.
  - rewrite maps_prod in M. cbn [loadable]. rewrite each_In. split; [|split; [exact ND|]].
    + intros c Hc. destruct (M c Hc). auto.
    + assert (X : forall c, In c cs -> inputs c = []) by (intros; apply wf_inputs; auto).
      clear - X. induction cs as [|c cs IH]; [reflexivity|]. cbn. rewrite X by now left. apply IH. intros. apply X. now right.
  - destruct M as [ND M]. rewrite maps_fin in M. destruct M as [ND2 M]. cbn [loadable]. rewrite each_In. repeat split; auto using dinv_dicts.
  - destruct M as [ND1 M]. rewrite maps_flex in M. destruct M as (ND2 & M1 & M2). cbn [loadable]. rewrite each_In.
    repeat split; auto using dinv_dicts. intros [k c] Hc. apply (IH k c Hc). apply (M2 k c Hc).
Qed.

Lemma flatten_flat : forall cs, (forall c, In c cs -> is_prod c = false) -> flatten_products cs = cs.
Proof.
  induction cs as [|c cs IH]; intros H; [reflexivity|]. unfold flatten_products in *. cbn [flat_map].
  rewrite IH by (intros; apply H; now right). assert (X := H c (or_introl eq_refl)). destruct c; try reflexivity. discriminate X.
Qed.

Lemma depth_In : forall {A} (f : A -> nat) l x n, In x l -> (list_max (map f l) <= n)%nat -> (f x <= n)%nat.
Proof.
  intros A f l x n Hx H. apply list_max_le in H. rewrite Forall_forall in H. apply H. apply in_map. exact Hx.
Qed.

Lemma as_list_back : forall {A} (f : meta -> out A) (g : A -> meta) l, (forall x, In x l -> f (g x) = Ok x) ->
  as_list f (MList (map g l)) = Ok l.
Proof.
  intros A f g l H. unfold as_list. rewrite map_map. rewrite (oseq_map_ok _ (fun x => x)); [now rewrite map_id|exact H].
Qed.

Ltac readc := cbn - [items as_items as_list map oseq dist_to_meta to_meta from_meta new_product new_finarr new_finmix].

Lemma round_trip : forall c, loadable c -> forall n, (depth c <= n)%nat -> from_meta n (to_meta c) = Ok c.
Proof.
  induction c as [d|cs IH|ix cs r2i IH|ix b cs r2i IHb IH|flex div arr r2c IH] using cgpm_ind_In; intros L n LE.
  - destruct n; [cbn in LE; lia|]. apply dist_round_trip. exact L.
  - destruct n; [cbn in LE; lia|]. cbn [depth] in LE. cbn [loadable] in L. rewrite each_In in L. destruct L as (L & ND & NI).
    assert (X : as_list (from_meta n) (MList (map to_meta cs)) = Ok cs).
    { apply as_list_back. intros c Hc. apply IH; [exact Hc|apply L, Hc|]. eapply depth_In; [exact Hc|]. lia. }
    change (obind (as_list (from_meta n) (MList (map to_meta cs))) (fun cs => new_product cs) = Ok (CProd cs)).
    rewrite X. cbn [obind]. rewrite new_product_ok.
    + rewrite flatten_flat; [reflexivity|]. intros c Hc. apply L, Hc.
    + exact ND.
    + rewrite NI. intros i [].
  - destruct n; [cbn in LE; lia|]. cbn [depth] in LE. cbn [loadable] in L. rewrite each_In in L. destruct L as (ND & NE & L).
    assert (X : as_list (from_meta n) (MList (map to_meta cs)) = Ok cs).
    { apply as_list_back. intros c Hc. apply IH; [exact Hc|apply L, Hc|]. eapply depth_In; [exact Hc|]. lia. }
    change (obind (as_list (from_meta n) (MList (map to_meta cs))) (fun cs => do _ <- new_finarr cs ix;
      do r2i <- as_items as_int as_cell (items MInt MCell r2i); Ok (CFinArr ix cs r2i)) = Ok (CFinArr ix cs r2i)).
    rewrite X. cbn [obind]. rewrite (cells_ok _ ND). destruct cs; [congruence|reflexivity].
  - destruct n; [cbn in LE; lia|]. cbn [depth] in LE. cbn [loadable] in L. rewrite each_In in L. destruct L as (ND & NDc & Lb & L).
    assert (X : as_list (as_pair as_cell (from_meta n)) (MList (map (fun p => let '(k, c') := p in MList [MCell k; to_meta c']) cs)) = Ok cs).
    { apply (as_list_back _ (fun p => let '(k, c') := p in MList [MCell k; to_meta c'])). intros [k c] Hc. cbn [as_pair as_cell obind].
      rewrite (IH k c Hc (L (k, c) Hc)); [reflexivity|].
      apply (depth_In (fun p => let '(_, c') := p in depth c') cs (k, c) n Hc). lia. }
    change (obind (from_meta n (to_meta b)) (fun b => do cs <- as_items as_cell (from_meta n) (MList (map (fun p => let '(k, c') := p in MList [MCell k; to_meta c']) cs));
      do r2i <- as_items as_int as_cell (items MInt MCell r2i); Ok (CFlexArr ix b cs r2i)) = Ok (CFlexArr ix b cs r2i)).
    rewrite IHb by (auto; lia). cbn [obind]. unfold as_items at 1. rewrite X. cbn [omap obind]. rewrite dict_of_NoDup by exact NDc.
    rewrite (cells_ok _ ND). reflexivity.
  - destruct n; [cbn in LE; lia|]. cbn [depth] in LE. destruct L as (ND & Dd & La & F).
    assert (Xa : from_meta n (to_meta arr) = Ok arr) by (apply IH; [exact La|lia]).
    assert (Xd : from_meta n (dist_to_meta div) = Ok (CDist div)).
    { destruct n; [destruct arr; cbn in LE; lia|]. apply dist_round_trip. exact Dd. }
    destruct flex, arr as [| |ix cs m|ix b cs m|]; try contradiction.
    + change (obind (from_meta n (dist_to_meta div)) (fun div => do arr <- from_meta n (to_meta (CFlexArr ix b cs m)); do _ <- array_base arr; do div <- as_divider div;
        do r2c <- as_items as_int as_cell (items MInt MCell r2c); Ok (CMix true div arr r2c)) = Ok (CMix true div (CFlexArr ix b cs m) r2c)).
      rewrite Xd. cbn [obind]. rewrite Xa. cbn [obind array_base as_divider]. rewrite (cells_ok _ ND). reflexivity.
    + change (obind (from_meta n (dist_to_meta div)) (fun div => do arr <- from_meta n (to_meta (CFinArr ix cs m)); do cs <- array_cgpms arr; do div <- as_divider div;
        do _ <- new_finmix div cs;
        do r2c <- as_items as_int as_cell (items MInt MCell r2c); Ok (CMix false div arr r2c)) = Ok (CMix false div (CFinArr ix cs m) r2c)).
      rewrite Xd. cbn [obind]. rewrite Xa. cbn [obind array_cgpms as_divider]. rewrite (cells_ok _ ND).
      unfold new_finmix. rewrite F. cbn [obind]. rewrite eqb_refl. cbn [oassert obind]. destruct La as (_ & NE & _).
      destruct cs; [congruence|reflexivity].
Qed.

(** ** Fuel *)

Lemma mdepth_list : forall l x, In x l -> (mdepth x < mdepth (MList l))%nat.
Proof.
  intros l x H. cbn [mdepth]. induction l as [|y l IH]; [destruct H|]. cbn [fold_right]. destruct H as [->|H]; [lia|].
  specialize (IH H). lia.
Qed.

Lemma mdepth_dict : forall d k x, In (k, x) d -> (mdepth x < mdepth (MDict d))%nat.
Proof.
  intros d k x H. cbn [mdepth]. induction d as [|[k' y] l IH]; [destruct H|]. cbn [fold_right]. destruct H as [E|H]; [injection E as -> ->; lia|].
  specialize (IH H). lia.
Qed.

Lemma mdepth_pos : forall m, (1 <= mdepth m)%nat.
Proof. destruct m; cbn; lia. Qed.

Lemma depth_mdepth : forall c, (depth c <= mdepth (to_meta c))%nat.
Proof.
  assert (X : forall cs l n, (forall c : cgpm, In c cs -> (depth c <= mdepth (to_meta c))%nat) ->
    In ("cgpms"%string, MList (map to_meta cs)) l -> (S n = mdepth (MDict l))%nat -> (S (list_max (map depth cs)) <= S n)%nat).
  { intros cs l n IH HI E. apply le_n_S. apply list_max_le, Forall_forall. intros x Hx. apply in_map_iff in Hx.
    destruct Hx as (c & <- & Hc). assert (A := mdepth_dict _ _ _ HI). assert (B := mdepth_list _ _ (in_map to_meta _ _ Hc)).
    specialize (IH c Hc). lia. }
  induction c as [d|cs IH|ix cs r2i IH|ix b cs r2i IHb IH|flex div arr r2c IH] using cgpm_ind_In.
  - apply mdepth_pos.
  - eapply (X cs _ _ IH); [|reflexivity]. left. reflexivity.
  - eapply (X cs _ _ IH); [|reflexivity]. left. reflexivity.
  - cbn [depth].
    set (l := [("cgpm_base"%string, to_meta b); ("indexer"%string, MInt ix); ("rowid_to_index"%string, items MInt MCell r2i);
       ("cgpms"%string, MList (map (fun p => let '(k, c') := p in MList [MCell k; to_meta c']) cs)); factory "cgpm2.flexible_array" "FlexibleArray"]).
    change (S (Nat.max (depth b) (list_max (map (fun p => let '(_, c') := p in depth c') cs))) <= mdepth (MDict l))%nat.
    assert (A : (mdepth (to_meta b) < mdepth (MDict l))%nat) by (eapply mdepth_dict; left; reflexivity).
    assert (B : (mdepth (MList (map (fun p => let '(k, c') := p in MList [MCell k; to_meta c']) cs)) < mdepth (MDict l))%nat)
      by (eapply mdepth_dict; do 3 right; left; reflexivity).
    assert (C : (list_max (map (fun p => let '(_, c') := p in depth c') cs) <= mdepth (MList (map (fun p => let '(k, c') := p in MList [MCell k; to_meta c']) cs)))%nat).
    { apply list_max_le, Forall_forall. intros x Hx. apply in_map_iff in Hx. destruct Hx as ((k & c) & <- & Hc).
      assert (D := mdepth_list _ _ (in_map (fun p => let '(k, c') := p in MList [MCell k; to_meta c']) _ _ Hc)). cbn beta iota in D.
      assert (E : (mdepth (to_meta c) < mdepth (MList [MCell k; to_meta c]))%nat) by (apply mdepth_list; right; left; reflexivity).
      specialize (IH k c Hc). lia. }
    lia.
  - cbn [depth]. cbn [to_meta]. match goal with |- context[MDict ?l] => assert (A : (mdepth (to_meta arr) < mdepth (MDict l))%nat) by (eapply mdepth_dict; right; left; reflexivity) end.
    lia.
Qed.

Lemma build_round_trip : forall c, loadable c -> build (to_meta c) = Ok c.
Proof. intros c L. apply round_trip; [exact L|apply depth_mdepth]. Qed.

(** Metadata of any kind is read in bounded depth. *)
Definition nf {A} (o : out A) : Prop := o <> Err OutOfFuel.

Lemma nf_bind : forall {A B} (o : out A) (f : A -> out B), nf o -> (forall a, o = Ok a -> nf (f a)) -> nf (obind o f).
Proof. intros A B [a|e] f H K; cbn; [apply K; reflexivity|]. intros E. apply H. congruence. Qed.

Lemma nf_map : forall {A B} (f : A -> B) (o : out A), nf o -> nf (omap f o).
Proof. intros A B f [a|e] H E; [discriminate|]. apply H. cbn in E. congruence. Qed.

Lemma nf_seq : forall {A B} (f : A -> out B) l, (forall x, In x l -> nf (f x)) -> nf (oseq (map f l)).
Proof.
  induction l as [|a l IH]; intros H; [discriminate|]. cbn. assert (X := H a (or_introl eq_refl)).
  destruct (f a) as [b|e]; [|intros E; apply X; congruence].
  assert (Y : nf (oseq (map f l))) by (apply IH; intros; apply H; now right).
  destruct (oseq (map f l)); [discriminate|]. intros E. apply Y. congruence.
Qed.

Lemma nf_field : forall k m, nf (field k m).
Proof. intros k m. unfold field, dget. destruct m; try discriminate. destruct (lookup k d); discriminate. Qed.

Lemma field_depth : forall k m x, field k m = Ok x -> (mdepth x < mdepth m)%nat.
Proof.
  intros k m x H. unfold field, dget in H. destruct m; try discriminate. destruct (lookup k d) as [y|] eqn:E; [|discriminate].
  injection H as ->. apply lookup_In in E. eapply mdepth_dict; eauto.
Qed.

Lemma nf_as : forall m, nf (as_int m) /\ nf (as_num m) /\ nf (as_real m) /\ nf (as_cell m) /\ nf (as_str m).
Proof. intros []; repeat split; discriminate. Qed.

Lemma nf_list : forall {A} (f : meta -> out A) m, (forall x, (mdepth x < mdepth m)%nat -> nf (f x)) -> nf (as_list f m).
Proof. intros A f m H. unfold as_list. destruct m; try discriminate. apply nf_seq. intros x Hx. apply H. apply mdepth_list. exact Hx. Qed.

Lemma nf_pair : forall {K V} (fk : meta -> out K) (fv : meta -> out V) m, (forall x, (mdepth x < mdepth m)%nat -> nf (fk x)) ->
  (forall x, (mdepth x < mdepth m)%nat -> nf (fv x)) -> nf (as_pair fk fv m).
Proof.
  intros K V fk fv m HK HV. unfold as_pair. destruct m as [| | | | |[|a [|b [|c l]]]|]; try discriminate.
  apply nf_bind; [apply HK; apply mdepth_list; now left|]. intros k _. apply nf_bind; [apply HV; apply mdepth_list; right; now left|].
  intros v _. discriminate.
Qed.

Lemma nf_items : forall {K V} `{EqDec K} (fk : meta -> out K) (fv : meta -> out V) m, (forall x, (mdepth x < mdepth m)%nat -> nf (fk x)) ->
  (forall x, (mdepth x < mdepth m)%nat -> nf (fv x)) -> nf (as_items fk fv m).
Proof.
  intros K V E fk fv m HK HV. unfold as_items. apply nf_map. apply nf_list. intros x Hx. apply nf_pair; intros y Hy; [apply HK|apply HV]; lia.
Qed.

Lemma nf_assert : forall b, nf (oassert b).
Proof. intros []; discriminate. Qed.

Ltac nofuel :=
  repeat first
    [ discriminate
    | apply nf_as
    | apply nf_field
    | apply nf_assert
    | apply nf_map
    | apply nf_items; intros ? ?
    | apply nf_list; intros ? ?
    | apply nf_pair; intros ? ?
    | apply nf_bind; [|intros ? ?] ].

Lemma nf_io : forall m, nf (read_io m).
Proof. intros m. unfold read_io. nofuel. destruct a1 as [|? []], a2; discriminate. Qed.

Lemma nf_prims : forall m, nf (crp_from_meta m) /\ nf (cat_from_meta m) /\ nf (ber_from_meta m) /\
  nf (poi_from_meta m) /\ nf (nrm_from_meta m) /\ nf (nuc_from_meta m).
Proof.
  intros m. repeat split; unfold crp_from_meta, cat_from_meta, ber_from_meta, poi_from_meta, nrm_from_meta, nuc_from_meta;
    (apply nf_bind; [apply nf_io|intros o _]); cbv zeta; nofuel.
  match goal with |- nf (match ?x with _ => _ end) => destruct x; try discriminate end. apply nf_seq. intros x _. nofuel.
Qed.

Lemma nf_from_meta : forall n m, (mdepth m <= n)%nat -> nf (from_meta n m).
Proof.
  induction n as [|n IH]; intros m LE; [assert (X := mdepth_pos m); lia|].
  destruct (nf_prims m) as (P1 & P2 & P3 & P4 & P5 & P6).
  cbn [from_meta]. apply nf_bind; [apply nf_field|intros f Hf]. apply nf_bind; [apply nf_pair; intros; apply nf_as|intros f' _]. cbv zeta.
  repeat match goal with |- nf (if ?b then _ else _) => destruct b end; try (apply nf_map; assumption); try discriminate;
    repeat (apply nf_bind; [|intros ? ?]); nofuel;
    repeat match goal with H : field _ m = Ok ?x |- _ => apply field_depth in H end;
    try (apply IH; lia);
    unfold new_product, validate_product, new_finmix, new_finarr, array_cgpms, array_base, as_divider, dist_support in *; nofuel;
    repeat match goal with
      | |- nf (match ?x with _ => _ end) => destruct x; try discriminate
      end; nofuel.
Qed.

Lemma build_total : forall m, nf (build m).
Proof. intros m. apply nf_from_meta. reflexivity. Qed.
