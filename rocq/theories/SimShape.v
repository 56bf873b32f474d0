(** The shape of samples: every possible outcome of simulate. *)
From Coq Require Import List ZArith QArith Qcanon Reals Bool String Permutation Lia Lra.
From Verif Require Import Base Xr Samp Lgamma Prims Cgpm Lib SpecPrims PrimsInv PrimsDens PrimsThm PrimsThm2
  SpecComp CompInv CompDens CompThm SpecSim.
Import ListNotations.
Local Open Scope Z_scope.

(** ** Combinators *)

Definition many (N : option nat) : bool := match N with None => false | Some _ => true end.

Definition if_ok {A} (P : A -> Prop) (r : out A) : Prop := match r with Ok a => P a | Err _ => True end.

Lemma always_sobind : forall {A B} (m : samp (out A)) (f : A -> samp (out B)) (P : B -> Prop),
  always m (if_ok (fun a => always (f a) (if_ok P))) -> always (sobind m f) (if_ok P).
Proof.
  intros A B m f P H. apply always_bind. revert H. apply always_imp. intros [a|e]; cbn; auto.
Qed.

Lemma always_and : forall {A} (m : samp A) (P Q : A -> Prop), always m P -> always m Q -> always m (fun a => P a /\ Q a).
Proof. induction m; cbn; intros P Q HP HQ; auto. Qed.

Lemma always_srepeat : forall {A} (m : samp (out A)) (P : A -> Prop) n, always m (if_ok P) ->
  always (srepeat n m) (if_ok (fun l => List.length l = n /\ forall a, In a l -> P a)).
Proof.
  intros A m P n H. induction n as [|n IH]; [cbn; auto; split; [auto|intros ? []]|].
  cbn [srepeat]. apply always_sobind. revert H. apply always_imp. intros [a|e] Pa; [|exact I]. cbn in Pa |- *.
  apply always_sobind. revert IH. apply always_imp. intros [l|e]; [|auto]. cbn. intros [L Hl]. split; [lia|].
  intros b [<-|Hb]; auto.
Qed.

Lemma always_soseq : forall {A B} (f : A -> samp (out B)) (Q : A -> B -> Prop) l,
  (forall a, In a l -> always (f a) (if_ok (Q a))) ->
  always (soseq (map f l)) (if_ok (Forall2 Q l)).
Proof.
  intros A B f Q l. induction l as [|a l IH]; intros H; [cbn; constructor|].
  cbn [map soseq]. apply always_sobind. generalize (H a (or_introl eq_refl)). apply always_imp.
  intros [b|e] Hb; [|exact I]. cbn in Hb |- *. apply always_sobind. generalize (IH (fun x Hx => H x (or_intror Hx))).
  apply always_imp. intros [r|e] Hr; [|exact I]. cbn in *. constructor; auto.
Qed.

(** ** Primitives *)

Lemma base_simulate_ok : forall o ts C ins u, base_simulate o ts C ins = Ok u -> ts = [o] /\ C = [] /\ ins = [].
Proof.
  intros o ts C ins u. unfold base_simulate. destruct C; cbn; [|discriminate]. destruct ins; cbn; [|discriminate].
  unfold oassert. destruct (eqb ts [o]) eqn:E; [|discriminate]. apply eqb_true in E. auto.
Qed.

Lemma flip_index : forall (ws : list xr), always (log_pflip ws)
  (if_ok (fun i => (i < List.length ws)%nat /\ exists w, nth_error ws i = Some (Fin w))).
Proof.
  intros ws. unfold log_pflip. destruct (existsb is_bad ws) eqn:B; [exact I|].
  destruct (existsb is_fin ws); [|exact I]. cbn. intros i L P. rewrite map_length in L. split; [exact L|].
  destruct (nth_error ws i) as [w|] eqn:E; [|apply nth_error_None in E; lia].
  assert (N : nth i (map xexp ws) 0%R = xexp w).
  { rewrite (nth_error_nth (map xexp ws) i 0%R (x := xexp w)); [reflexivity|]. rewrite nth_error_map, E. reflexivity. }
  rewrite N in P. destruct w; cbn in P; try lra. eauto.
Qed.

Lemma many_shape : forall m ts (P : row -> Prop) N,
  always m (if_ok (fun s => Permutation (keys s) ts /\ P s)) ->
  always (simulate_many m N) (if_ok (well_shaped ts N P)).
Proof.
  intros m ts P N H. destruct N as [n|]; cbn [simulate_many]; apply always_sobind.
  - generalize (always_srepeat m _ n H). apply always_imp. intros [l|e]; [|auto]. cbn. auto.
  - revert H. apply always_imp. intros [s|e]; [|auto]. cbn. auto.
Qed.

Lemma cell_sample : forall d rid C x, cell_ok d rid x ->
  Permutation (keys [(dist_o d, x)]) [dist_o d] /\ sample_ok (CDist d) rid C [(dist_o d, x)].
Proof.
  intros d rid C x H. split; [reflexivity|]. cbn [sample_ok]. intros y. rewrite lookup_cons_eq. congruence.
Qed.

(** Data of the primitives whose [data] holds cells. *)
Lemma recorded_cell : forall d rid x, recorded rid (dist_data d) = Some x -> cell_ok d rid x.
Proof.
  intros d [r|] x H; [|discriminate]. unfold cell_ok. cbn in *. destruct (lookup r (dist_data d)) as [[]|]; congruence.
Qed.

Lemma fresh_cell : forall d rid x, recorded rid (dist_data d) = None ->
  x <> VNan -> in_domain (kind_of d) (dist_data d) x -> stored (kind_of d) x = x -> cell_ok d rid x.
Proof.
  intros d [r|] x H; unfold cell_ok; cbn in *; [|auto]. destruct (lookup r (dist_data d)) as [[]|]; auto. discriminate.
Qed.

Lemma crp_on_record : forall s rid,
  on_record rid (dist_data (DCrp s)) = option_map vz (match rid with None => None | Some r => lookup r (crp_data s) end).
Proof. intros s [r|]; [apply lookup_cdata|reflexivity]. Qed.

Lemma draw_list_shape : forall l o n, always (draw_list l o n)
  (fun r => List.length r = n /\ forall s, In s r -> exists q, s = [(o, VQ q)]).
Proof.
  intros l o n. induction n as [|n IH]; cbn [draw_list]; [split; [reflexivity|intros ? []]|].
  cbn. intros q Hq. apply always_bind. revert IH. apply always_imp. intros r [L H]. cbn. split; [lia|].
  intros s [<-|Hs]; eauto.
Qed.

Lemma oseq_length : forall {A} (l : list (out A)) r, oseq l = Ok r -> List.length r = List.length l.
Proof.
  induction l as [|[a|e] l IH]; cbn; intros r H; [injection H as <-; reflexivity| |discriminate].
  destruct (oseq l) as [r'|]; [|discriminate]. injection H as <-. cbn. auto.
Qed.

Lemma crp_support_stored : forall s x, stored (kind_of (DCrp s)) (vz x) = vz x.
Proof. intros. cbn. rewrite trunc_qz. reflexivity. Qed.

Lemma dist_simulate_shape : forall d rid ts C ins N, dinv d ->
  uc_ok (CDist d) rid (many N) ->
  always (dist_simulate d rid ts C ins N) (if_ok (well_shaped ts N (sample_ok (CDist d) rid C))).
Proof.
  intros d rid ts C ins N D UC. destruct d as [s|s|s|s|s|s]; cbn [dist_simulate]; [apply many_shape..|].
  - unfold crp_simulate1. destruct (base_simulate (crp_o s) ts C ins) eqn:B; [|exact I].
    apply base_simulate_ok in B. destruct B as (-> & -> & ->). assert (OR := crp_on_record s rid).
    destruct (match rid with None => None | Some r => lookup r (crp_data s) end) as [x|].
    + apply (cell_sample (DCrp s)). unfold cell_ok. rewrite OR. reflexivity.
    + destruct (oseq _) as [logps|] eqn:E; [|exact I]. apply always_sobind. generalize (flip_index logps).
      apply always_imp. intros [i|e]; [|auto]. cbn [if_ok always]. intros [L _].
      apply (cell_sample (DCrp s)). unfold cell_ok. rewrite OR. cbn [option_map]. split; [discriminate|].
      split; [|apply crp_support_stored]. apply (support_domain (DCrp s) (crp_support s)); auto.
      apply nth_In. apply oseq_length in E. rewrite map_length in E. congruence.
  - unfold cat_simulate1. destruct (base_simulate (cat_o s) ts C ins) eqn:B; [|exact I].
    apply base_simulate_ok in B. destruct B as (-> & -> & ->). change (cat_data s) with (dist_data (DCat s)).
    destruct (recorded rid (dist_data (DCat s))) as [x|] eqn:OR.
    + apply (cell_sample (DCat s)). apply recorded_cell. exact OR.
    + cbn [pflip sbind always]. intros i L P. apply (cell_sample (DCat s)). apply fresh_cell; [exact OR| | |reflexivity]; [discriminate|]. cbn. exists (Z.of_nat i). split; [reflexivity|].
      rewrite map_length in L. destruct D as (_ & _ & S & HP). cbn in S. destruct S as [_ S]. rewrite S, map_length in L.
      rewrite zrange_length in L. lia.
  - unfold ber_simulate1. destruct (base_simulate (ber_o s) ts C ins) eqn:B; [|exact I].
    apply base_simulate_ok in B. destruct B as (-> & -> & ->). change (ber_data s) with (dist_data (DBer s)).
    destruct (recorded rid (dist_data (DBer s))) as [x|] eqn:OR.
    + apply (cell_sample (DBer s)). apply recorded_cell. exact OR.
    + destruct (ber_predictive false _ _ _ _) as [p0|]; [|exact I].
      destruct (ber_predictive true _ _ _ _) as [p1|]; [|exact I]. apply always_sobind. generalize (flip_index [p0; p1]).
      apply always_imp. intros [i|e]; [|auto]. cbn [if_ok always List.length]. intros [L _].
      apply (cell_sample (DBer s)). apply fresh_cell; [exact OR| | |reflexivity]; [discriminate|]. cbn. destruct i as [|[|i]]; [left; reflexivity|right; reflexivity|lia].
  - unfold poi_simulate1. destruct (base_simulate (poi_o s) ts C ins) eqn:B; [|exact I].
    apply base_simulate_ok in B. destruct B as (-> & -> & ->). change (poi_data s) with (dist_data (DPoi s)).
    destruct (recorded rid (dist_data (DPoi s))) as [x|] eqn:OR.
    + apply (cell_sample (DPoi s)). apply recorded_cell. exact OR.
    + destruct (poi_posterior _ _ _ _) as [an bn]. cbn [always if_ok]. intros n.
      apply (cell_sample (DPoi s)). apply fresh_cell; [exact OR| | |reflexivity]; [discriminate|]. cbn. exists (Z.of_nat n). split; [reflexivity|lia].
  - unfold nrm_simulate1. destruct (base_simulate (nrm_o s) ts C ins) eqn:B; [|exact I].
    apply base_simulate_ok in B. destruct B as (-> & -> & ->). change (nrm_data s) with (dist_data (DNrm s)).
    destruct (recorded rid (dist_data (DNrm s))) as [x|] eqn:OR.
    + apply (cell_sample (DNrm s)). apply recorded_cell. exact OR.
    + cbn [always if_ok]. intros ? _ ? _ q _.
      apply (cell_sample (DNrm s)). apply fresh_cell; [exact OR| | |reflexivity]; [discriminate|]. exact I.
  - unfold nuc_simulate. destruct (base_simulate (nuc_o s) ts C ins) eqn:B; [|exact I].
    apply base_simulate_ok in B. destruct B as (-> & -> & ->). change (nuc_data s) with (dist_data (DNuc s)).
    assert (NEW : recorded rid (dist_data (DNuc s)) = None -> forall q, cell_ok (DNuc s) rid (VQ q)).
    { intros OR q. apply fresh_cell; [exact OR|discriminate|exact I|reflexivity]. }
    destruct (recorded rid (dist_data (DNuc s))) as [x|] eqn:OR.
    + destruct UC as [M|U]; [destruct N; [discriminate|]|].
      * cbn [always if_ok well_shaped]. apply (cell_sample (DNuc s) rid []). apply recorded_cell. exact OR.
      * exfalso. destruct rid as [r|]; [|discriminate]. cbn in OR, U.
        destruct (lookup r (nuc_data s)) as [[|q]|]; try discriminate. apply (U q). reflexivity.
    + destruct (qltb _ _); [exact I|]. destruct N as [n|].
      * apply always_bind. generalize (draw_list_shape (Normal (qr (nuc_mu s)) (sqrt (qr (nuc_var s)))) (nuc_o s) n).
        apply always_imp. intros r [L H]. cbn. split; [exact L|]. intros t Ht. destruct (H t Ht) as (q & ->).
        cbn [always if_ok well_shaped]. apply (cell_sample (DNuc s) rid []). auto.
      * cbn [always if_ok]. intros q _. cbn [always if_ok well_shaped]. apply (cell_sample (DNuc s) rid []). auto.
Qed.

(** ** Products *)

Lemma cells_of_nil : forall l (s : row), cells_of l s = [] <-> forall k, In k l -> lookup k s = None.
Proof. intros. rewrite cells_of_interd. apply interd_nil_lookup. Qed.

Lemma cells_of_ext : forall l (s s' : row), (forall k, In k l -> lookup k s = lookup k s') ->
  cells_of l s = [] -> cells_of l s' = [].
Proof. intros l s s' E. rewrite !cells_of_nil. intros H k Hk. rewrite <- E; auto. Qed.

Lemma arr_sample_ext : forall ix arr rid C s s', is_array ix arr ->
  lookup ix s = lookup ix s' ->
  (forall c, In c (components arr) -> sample_ok c rid C s -> sample_ok c rid C s') ->
  sample_ok arr rid C s -> sample_ok arr rid C s'.
Proof.
  intros ix arr rid C s s' A L IH. destruct arr as [| |i cs m|i b cs m|]; try contradiction; cbn in A; subst i;
    cbn [sample_ok]; rewrite L; destruct (lookup ix s') as [k|]; auto.
  - destruct (py_index cs k) as [n|]; auto. destruct (nth_error cs n) as [c|] eqn:E.
    + rewrite !(nth_error_nth _ n _ (map_nth_error _ _ _ E)). apply IH. eapply nth_error_In; eauto.
    + rewrite nth_overflow; [intros []|]. rewrite map_length. apply nth_error_None. exact E.
  - rewrite !lookup_dict_map. destruct (lookup k cs) as [c|] eqn:E; cbn [option_map].
    + apply IH. cbn. right. unfold values. apply (in_map snd) in E || (apply lookup_In in E; apply (in_map snd) in E). exact E.
    + apply IH. cbn. auto.
Qed.

Lemma sample_ok_ext : forall c, wf c -> forall rid C s s',
  (forall k, In k (outputs c) -> lookup k s = lookup k s') -> sample_ok c rid C s -> sample_ok c rid C s'.
Proof.
  assert (MIX : forall flex div arr r2c, wf (CMix flex div arr r2c) ->
    (forall c, In c (components arr) -> forall rid C s s',
      (forall k, In k (outputs c) -> lookup k s = lookup k s') -> sample_ok c rid C s -> sample_ok c rid C s') ->
    forall rid C s s', (forall k, In k (outputs (CMix flex div arr r2c)) -> lookup k s = lookup k s') ->
    sample_ok (CMix flex div arr r2c) rid C s -> sample_ok (CMix flex div arr r2c) rid C s').
  { intros flex div arr r2c W IH rid C s s' E (z & H1 & H2 & H3).
    destruct (wf_mix _ _ _ _ W) as (D & SU & A & NI & CO & _).
    exists z. split; [exact H1|]. split.
    - intros x Hx. apply H2. rewrite E; [exact Hx|]. cbn. auto.
    - destruct H3 as [H3|H3]; [left; revert H3; apply cells_of_ext; intros; apply E; cbn; auto|right].
      revert H3. apply (arr_sample_ext (dist_o div)); auto; [rewrite !lookup_cons_eq; reflexivity|].
      intros c Hc. apply IH; auto. intros k Hk. destruct (CO c Hc) as [_ O]. rewrite O in Hk.
      assert (k <> dist_o div) by (intros ->; auto). rewrite !lookup_cons_neq by auto. apply E. cbn. auto. }
  induction 1 as [d D|cs Wc IH ND|div cs r2i r2c D F SU NE Wc IH O|div b cs r2i r2c D HS Wb IHb NI ND Wc IH O];
    intros rid C s s' E.
  - cbn [sample_ok]. intros H x Hx. apply H. rewrite E; [exact Hx|]. cbn. auto.
  - cbn [sample_ok]. rewrite !each_In. intros H c Hc.
    assert (E' : forall k, In k (outputs c) -> lookup k s = lookup k s').
    { intros k Hk. apply E. cbn. apply in_flat_map. eauto. }
    destruct (H c Hc) as [Z0|Z0]; [left|right].
    + revert Z0. apply cells_of_ext. exact E'.
    + revert Z0. apply IH; auto.
  - apply MIX; auto. econstructor; eauto.
  - apply MIX; auto; [econstructor; eauto|].
    intros c [<-|Hc]; [exact IHb|]. unfold values in Hc. apply in_map_iff in Hc. destruct Hc as ([k c'] & <- & Hc).
    eapply IH; eauto.
Qed.

Lemma fold_dset_concat : forall (ds : list row) (acc : row), NoDup (keys (acc ++ List.concat ds)) ->
  fold_left (fun acc d => fold_left (fun d' kv => dset (fst kv) (snd kv) d') d acc) ds acc = acc ++ List.concat ds.
Proof.
  induction ds as [|d ds IH]; intros acc ND; cbn [fold_left List.concat]; [rewrite app_nil_r; reflexivity|].
  cbn [List.concat] in ND. rewrite app_assoc in ND |- *. rewrite fold_dset_fresh; [apply IH; exact ND| |].
  - unfold keys in *. rewrite !map_app in ND. apply NoDup_app_parts in ND. destruct ND as [ND _].
    apply NoDup_app_parts in ND. apply ND.
  - intros k Hk Ha. unfold keys in *. rewrite !map_app in ND. apply NoDup_app_parts in ND. destruct ND as [ND _].
    revert Hk. eapply NoDup_app_disj; eauto.
Qed.

Lemma mergedl_concat : forall ds : list row, NoDup (keys (List.concat ds)) -> mergedl ds = List.concat ds.
Proof. intros ds ND. unfold mergedl. rewrite fold_dset_concat; auto. Qed.

(** The requested targets of the children, in the order of the children. *)
Lemma interl_parts : forall cs ts, NoDup (flat_map outputs cs) -> NoDup ts ->
  (forall k, In k ts -> In k (flat_map outputs cs)) ->
  Permutation (List.concat (map (fun c => interl (outputs c) ts) cs)) ts.
Proof.
  intros cs ts ND NT H. apply NoDup_Permutation; auto.
  - clear H. induction cs as [|c cs IH]; cbn [map List.concat]; [constructor|]. cbn in ND.
    destruct (NoDup_app_parts _ _ ND) as [N1 N2]. specialize (IH N2).
    assert (DJ : forall x, In x (interl (outputs c) ts) -> ~ In x (List.concat (map (fun c => interl (outputs c) ts) cs))).
    { intros x H1 H2. unfold interl in H1. apply filter_In in H1. destruct H1 as [_ H1]. apply memb_In in H1.
      apply in_concat in H2. destruct H2 as (l & Hl & Hx). apply in_map_iff in Hl. destruct Hl as (c' & <- & Hc').
      unfold interl in Hx. apply filter_In in Hx. destruct Hx as [_ Hx]. apply memb_In in Hx.
      apply (NoDup_app_disj _ _ ND x H1). apply in_flat_map. eauto. }
    revert IH DJ. generalize (List.concat (map (fun c => interl (outputs c) ts) cs)). intros l IH DJ.
    assert (NI : NoDup (interl (outputs c) ts)) by (apply NoDup_filter; auto).
    induction (interl (outputs c) ts) as [|x l' IH']; cbn; auto. inversion NI; subst. constructor.
    + rewrite in_app_iff. intros [?|?]; [auto|]. apply (DJ x); [now left|auto].
    + apply IH'; auto. intros y Hy. apply DJ. now right.
  - intros x. rewrite in_concat. split.
    + intros (l & Hl & Hx). apply in_map_iff in Hl. destruct Hl as (c & <- & Hc). apply filter_In in Hx. tauto.
    + intros Hx. destruct (proj1 (in_flat_map _ _ _) (H x Hx)) as (c & Hc & Ho).
      exists (interl (outputs c) ts). split; [apply in_map_iff; exists c; auto|]. apply filter_In. split; auto. apply memb_In. auto.
Qed.

Lemma keys_concat : forall ds : list row, keys (List.concat ds) = List.concat (map keys ds).
Proof. intros. unfold keys. rewrite concat_map. reflexivity. Qed.

Lemma concat_perm : forall {A} (l l' : list (list A)), Forall2 (@Permutation A) l l' -> Permutation (List.concat l) (List.concat l').
Proof. induction 1; cbn; auto. apply Permutation_app; auto. Qed.

Definition piece ts rid C (c : cgpm) (s : row) : Prop :=
  Permutation (keys s) (interl (outputs c) ts) /\
  (cells_of (outputs c) s = [] \/ sample_ok c rid (cells_of (outputs c) C) s).

Lemma lookup_concat : forall cs ds ts rid C, Forall2 (piece ts rid C) cs ds -> NoDup (flat_map outputs cs) ->
  forall c s k, In (c, s) (combine cs ds) -> In k (outputs c) -> lookup k (List.concat ds) = lookup k s.
Proof.
  induction 1 as [|c0 s0 cs ds P F IH]; intros ND c s k Hc Hk; [destruct Hc|]. cbn [List.concat]. rewrite lookup_app.
  cbn in ND. assert (SUB : forall c s, piece ts rid C c s -> forall k, In k (keys s) -> In k (outputs c)).
  { intros c1 s1 [PM _] k1 Hk1. apply (Permutation_in _ PM) in Hk1. apply filter_In in Hk1.
    apply memb_In. tauto. }
  destruct Hc as [E|Hc].
  - injection E as -> ->. destruct (lookup k s) eqn:L; [reflexivity|]. apply lookup_None.
    intros Hi. rewrite keys_concat in Hi. apply in_concat in Hi. destruct Hi as (l & Hl & Hi).
    apply in_map_iff in Hl. destruct Hl as (s' & <- & Hs').
    apply (NoDup_app_disj _ _ ND k Hk). clear - F Hs' Hi SUB.
    induction F as [|c1 s1 cs ds P F IH]; [destruct Hs'|]. cbn. apply in_app_iff.
    destruct Hs' as [<-|Hs']; [left; eauto|right; auto].
  - replace (lookup k s0) with (@None val).
    + eapply IH; eauto. apply NoDup_app_parts in ND. apply ND.
    + symmetry. apply lookup_None. intros Hi. apply (SUB _ _ P) in Hi.
      apply (NoDup_app_disj _ _ ND k Hi). apply in_flat_map. exists c. split; [|exact Hk].
      eapply in_combine_l; eauto.
Qed.

Lemma Forall2_combine : forall {A B} (P : A -> B -> Prop) l l', Forall2 P l l' -> forall x, In x l ->
  exists y, In (x, y) (combine l l') /\ P x y.
Proof.
  induction 1 as [|a b l l' H F IH]; intros x Hx; [destruct Hx|]. destruct Hx as [<-|Hx].
  - exists b. split; [now left|auto].
  - destruct (IH x Hx) as (y & Hy & Py). exists y. split; [now right|auto].
Qed.

Lemma pieces_whole : forall cs ds ts rid C, (forall c, In c cs -> wf c) -> NoDup (flat_map outputs cs) -> NoDup ts ->
  (forall k, In k ts -> In k (flat_map outputs cs)) -> Forall2 (piece ts rid C) cs ds ->
  Permutation (keys (mergedl ds)) ts /\ sample_ok (CProd cs) rid C (mergedl ds).
Proof.
  intros cs ds ts rid C W ND NT SUB F.
  assert (PM : Permutation (keys (List.concat ds)) ts).
  { rewrite <- (interl_parts cs ts ND NT SUB). rewrite keys_concat. apply concat_perm. clear - F.
    induction F as [|c s cs ds [P _] F IH]; cbn; constructor; auto. }
  assert (NK : NoDup (keys (List.concat ds))) by (apply (Permutation_NoDup (Permutation_sym PM)); auto).
  rewrite mergedl_concat by auto. split; [exact PM|]. cbn [sample_ok]. apply each_In. intros c Hc.
  destruct (Forall2_combine _ _ _ F c Hc) as (s & Hs & _ & H).
  assert (L : forall k, In k (outputs c) -> lookup k s = lookup k (List.concat ds)).
  { intros k Hk. symmetry. eapply lookup_concat; eauto. }
  destruct H as [H|H]; [left; revert H; apply cells_of_ext; auto|right].
  revert H. apply sample_ok_ext; auto.
Qed.

Lemma all_one_inv : forall l ds, all_one l = Ok ds -> l = map SOne ds.
Proof.
  unfold all_one. induction l as [|[d|m] l IH]; cbn; intros ds H; [injection H as <-; reflexivity| |discriminate].
  destruct (oseq _) as [r|]; [|discriminate]. injection H as <-. cbn. f_equal. auto.
Qed.

Lemma all_many_inv : forall l ds, all_many l = Ok ds -> l = map SMany ds.
Proof.
  unfold all_many. induction l as [|[d|m] l IH]; cbn; intros ds H; [injection H as <-; reflexivity|discriminate|].
  destruct (oseq _) as [r|]; [|discriminate]. injection H as <-. cbn. f_equal. auto.
Qed.

Lemma zip_rows_spec : forall n ls, (forall l, In l ls -> List.length l = n) -> 
  List.length (zip_rows n ls) = n /\
  forall r, In r (zip_rows n ls) -> Forall2 (fun (l : list row) x => In x l) ls r.
Proof.
  induction n as [|n IH]; intros ls H; cbn [zip_rows]; [split; [reflexivity|intros ? []]|].
  replace (existsb _ ls) with false.
  2:{ symmetry. apply not_true_is_false. intros E. apply existsb_exists in E. destruct E as (l & Hl & E).
      specialize (H l Hl). destruct l; [discriminate H|discriminate E]. }
  destruct (IH (map (fun l => tl l) ls)) as [L R].
  { intros l Hl. apply in_map_iff in Hl. destruct Hl as (l' & <- & Hl'). specialize (H l' Hl').
    destruct l'; [discriminate|]. cbn in *. congruence. }
  cbn [List.length]. split; [congruence|]. intros r [<-|Hr].
  - clear - H. induction ls as [|l ls IH]; cbn; constructor.
    + specialize (H l (or_introl eq_refl)). destruct l; [discriminate|]. cbn. auto.
    + apply IH. intros. apply H. now right.
  - specialize (R r Hr). clear - R. revert r R. induction ls as [|l ls IH]; intros r R; cbn in R.
    + inversion R; subst. constructor.
    + inversion R; subst. constructor; [|auto]. destruct l; [destruct H1|now right].
Qed.

Lemma prod_simulate_shape : forall cs, (forall c, In c cs -> wf c) -> NoDup (flat_map outputs cs) ->
  (forall c, In c cs -> forall rid ts C N, NoDup ts -> (forall k, In k ts -> In k (outputs c)) -> N <> Some 0%nat ->
     uc_ok c rid (many N) ->
     always (simulate c rid ts C [] N) (if_ok (well_shaped ts N (sample_ok c rid C)))) ->
  forall rid ts C N, NoDup ts -> (forall k, In k ts -> In k (flat_map outputs cs)) -> N <> Some 0%nat ->
  uc_ok (CProd cs) rid (many N) ->
  always (simulate (CProd cs) rid ts C [] N) (if_ok (well_shaped ts N (sample_ok (CProd cs) rid C))).
Proof.
  intros cs W ND IH rid ts C N NT SUB N0 UC. cbn [simulate]. unfold prod_simulate. rewrite map_map.
  apply always_sobind.
  assert (H : always (soseq (map (fun c => simulate_one (outputs c) (inputs c) (simulate c) rid ts C [] N) cs))
     (if_ok (Forall2 (fun c => well_shaped (interl (outputs c) ts) N
        (fun s => cells_of (outputs c) s = [] \/ sample_ok c rid (cells_of (outputs c) C) s)) cs))).
  { apply always_soseq. intros c Hc. unfold simulate_one. cbn [uc_ok] in UC. rewrite each_In in UC.
    assert (SUBc : forall k, In k (interl (outputs c) ts) -> In k (outputs c)).
    { intros k Hk. apply filter_In in Hk. apply memb_In. tauto. }
    assert (NTc : NoDup (interl (outputs c) ts)) by (apply NoDup_filter; auto).
    destruct (interl (outputs c) ts) as [|t0 tc] eqn:E.
    - cbn [always if_ok]. unfold empty_samples. destruct N as [n|]; cbn.
      + split; [apply repeat_length|]. intros s Hs. apply repeat_spec in Hs. subst. split; [reflexivity|]. left. reflexivity.
      + split; [reflexivity|]. left. reflexivity.
    - rewrite <- E in *. assert (IN : interd (inputs c) (@nil (Z * val)) = []) by reflexivity. rewrite IN.
      generalize (IH c Hc rid (interl (outputs c) ts) (interd (outputs c) C) N NTc SUBc N0 (UC c Hc)).
      apply always_imp. intros [r|e]; [|auto]. cbn [if_ok]. rewrite cells_of_interd.
      destruct N, r; cbn; try tauto.
      intros [L R]. split; [exact L|]. intros s Hs. destruct (R s Hs). auto. }
  revert H. apply always_imp. intros [l|e] F; [|exact I]. cbn [if_ok always] in *.
  destruct l as [|r0 l]; [exact I|]. unfold merge_samples. destruct r0 as [d0|l0].
  - destruct N as [n|].
    { inversion F; subst. cbn in H2. destruct H2. }
    destruct (all_one (SOne d0 :: l)) as [ds|] eqn:A; [|exact I]. cbn [obind if_ok]. apply all_one_inv in A. rewrite A in F.
    cbn [well_shaped]. apply pieces_whole; auto. clear - F. remember (map SOne ds) as rs eqn:E. revert ds E.
    induction F as [|c r cs rs P F IH]; intros [|d ds] E; try discriminate; constructor; injection E as -> ->; auto.
  - destruct N as [n|].
    2:{ inversion F; subst. cbn in H2. destruct H2. }
    destruct (all_many (SMany l0 :: l)) as [ds|] eqn:A; [|exact I]. cbn [obind if_ok]. apply all_many_inv in A. rewrite A in F.
    assert (F' : Forall2 (fun c (rows : list row) => List.length rows = n /\ forall s, In s rows -> piece ts rid C c s) cs ds).
    { clear - F. remember (map SMany ds) as rs eqn:E. revert ds E.
      induction F as [|c r cs rs P F IH]; intros [|d ds] E; try discriminate; constructor; injection E as -> ->; auto. }
    assert (LN : forall rows, In rows ds -> List.length rows = n).
    { clear - F'. induction F' as [|c r cs rs [P _] F IH]; intros rows H; [destruct H|destruct H as [<-|H]; auto]. }
    destruct ds as [|d1 ds]; [discriminate A|]. cbn [map] in A. injection A as -> ->.
    replace (List.length d1) with n by (symmetry; apply LN; now left).
    destruct (zip_rows_spec n (d1 :: ds) LN) as [LZ RZ].
    cbn [well_shaped]. split; [rewrite map_length; exact LZ|]. intros s Hs. apply in_map_iff in Hs.
    destruct Hs as (r & <- & Hr). apply pieces_whole; auto. specialize (RZ r Hr). clear - F' RZ.
    revert r RZ. induction F' as [|c rows cs rs [_ P] F IH]; intros r RZ; inversion RZ; subst; constructor; auto.
Qed.

(** ** Mixtures *)

Lemma support_NoDup : forall d K, dinv d -> dist_support d = Ok K -> NoDup K.
Proof.
  intros [s|s|s|s|s|s] K D E; cbn in E; try discriminate; injection E as <-.
  - apply sorted_lt_NoDup. apply crp_support_sorted. apply D.
  - apply zrange_NoDup.
  - unfold ber_support. repeat constructor; cbn; intuition lia.
Qed.

Lemma arr_simulate : forall ix arr z, is_array ix arr ->
  (exists e, forall rid ts C N, simulate arr rid ts C [(ix, z)] N = Ret (Err e)) \/
  exists c, In c (components arr) /\
    (forall rid ts C N, simulate arr rid ts C [(ix, z)] N = simulate c rid ts C [] N) /\
    (forall rid C s, lookup ix s = Some z -> sample_ok c rid C s -> sample_ok arr rid C s).
Proof.
  intros ix arr z A.
  assert (D : ddel ix [(ix, z)] = @nil (Z * val)) by (apply (ddel_dset_fresh []); reflexivity).
  destruct arr as [| |i cs m|i b cs m|]; try contradiction; cbn in A; subst i.
  - cbn [simulate]. unfold finarr_simulate. rewrite lookup_cons_eq.
    assert (P : py_index (map simulate cs) z = py_index cs z) by (unfold py_index; rewrite map_length; reflexivity).
    rewrite P. destruct (py_index cs z) as [n|e] eqn:E; [|left; eauto]. rewrite nth_error_map.
    destruct (nth_error cs n) as [c|] eqn:En; [right|left; cbn; eauto]. exists c. split; [eapply nth_error_In; eauto|].
    split; [intros; cbn [option_map]; rewrite D; reflexivity|]. intros rid C s L H. cbn [sample_ok]. rewrite L, E.
    rewrite (nth_error_nth (map (fun c' => sample_ok c' rid C s) cs) n False (x := sample_ok c rid C s)); [exact H|].
    rewrite nth_error_map, En. reflexivity.
  - right. cbn [simulate]. unfold flexarr_simulate. rewrite lookup_cons_eq.
    exists (match lookup z cs with Some c => c | None => b end).
    split; [|split].
    + destruct (lookup z cs) as [c|] eqn:L; [right|left; reflexivity]. apply lookup_In in L.
      unfold values. apply in_map_iff. exists (z, c). auto.
    + intros. rewrite D, lookup_dict_map. destruct (lookup z cs); reflexivity.
    + intros rid C s L H. cbn [sample_ok]. rewrite L, lookup_dict_map. destruct (lookup z cs); exact H.
Qed.

Definition cluster_ok div arr rid C z (s : row) : Prop :=
  (forall x, lookup (dist_o div) s = Some x -> x = z) /\
  (cells_of (outputs arr) s = [] \/ sample_ok arr rid (cells_of (outputs arr) C) ((dist_o div, z) :: s)).

Lemma keys_cluster : forall ix ox ts (s : row) z, NoDup ts -> (forall k, In k ts -> k = ix \/ In k ox) -> ~ In ix ox ->
  In ix ts -> Permutation (keys s) (interl ox ts) -> Permutation (keys (dset ix z s)) ts.
Proof.
  intros ix ox ts s z NT SUB NI M P.
  assert (NK : ~ In ix (keys s)).
  { intros H. apply (Permutation_in _ P) in H. apply filter_In in H. destruct H as [_ H]. apply memb_In in H. auto. }
  rewrite keys_dset_fresh by auto. apply NoDup_Permutation; auto.
  - apply (Permutation_NoDup (l := ix :: keys s)); [apply Permutation_cons_append|]. constructor; auto.
    apply (Permutation_NoDup (Permutation_sym P)). apply NoDup_filter. auto.
  - intros x. rewrite in_app_iff. cbn. split.
    + intros [H|[<-|[]]]; auto. apply (Permutation_in _ P) in H. apply filter_In in H. tauto.
    + intros H. destruct (SUB x H) as [->|Ho]; [auto|]. left. apply (Permutation_in _ (Permutation_sym P)).
      apply filter_In. split; auto. apply memb_In. auto.
Qed.

Lemma mix_simulate_one_shape : forall flex div arr r2c, wf (CMix flex div arr r2c) ->
  (forall c, In c (components arr) -> forall rid ts C N, NoDup ts -> (forall k, In k ts -> In k (outputs c)) ->
     N <> Some 0%nat -> uc_ok c rid (many N) ->
     always (simulate c rid ts C [] N) (if_ok (well_shaped ts N (sample_ok c rid C)))) ->
  forall rid ts C N z, NoDup ts -> (forall k, In k ts -> In k (outputs (CMix flex div arr r2c))) -> N <> Some 0%nat ->
  uc_ok arr rid (many N) ->
  always (mix_simulate_one (dist_o div) (outputs arr) (simulate arr) rid ts C [] N z)
    (if_ok (well_shaped ts N (cluster_ok div arr rid C z))).
Proof.
  intros flex div arr r2c W IH rid ts C N z NT SUB N0 UC.
  destruct (wf_mix _ _ _ _ W) as (D & SU & A & NI & CO & _ & _).
  assert (SUB' : forall k, In k ts -> k = dist_o div \/ In k (outputs arr)).
  { intros k Hk. destruct (SUB k Hk) as [<-|H]; auto. }
  unfold mix_simulate_one. apply always_sobind.
  set (P := fun s : row => cells_of (outputs arr) s = [] \/
     sample_ok arr rid (cells_of (outputs arr) C) ((dist_o div, z) :: s)).
  assert (H : always (match interl (outputs arr) ts with
       | [] => Ret (Ok (empty_samples N))
       | _ :: _ => simulate arr rid (interl (outputs arr) ts) (interd (outputs arr) C)
             (merged (interd (outputs arr) []) [(dist_o div, z)]) N end)
     (if_ok (well_shaped (interl (outputs arr) ts) N P))).
  { change (merged (interd (outputs arr) []) [(dist_o div, z)]) with [(dist_o div, z)].
    assert (NTc : NoDup (interl (outputs arr) ts)) by (apply NoDup_filter; auto).
    destruct (interl (outputs arr) ts) as [|t0 tc] eqn:E.
    - cbn [always if_ok]. unfold empty_samples, P. destruct N as [n|]; cbn.
      + split; [apply repeat_length|]. intros s Hs. apply repeat_spec in Hs. subst. split; [reflexivity|]. left. reflexivity.
      + split; [reflexivity|]. left. reflexivity.
    - rewrite <- E in *. destruct (arr_simulate _ _ z A) as [(e & He)|(c & Hc & Ec & Sc)]; [rewrite He; exact I|].
      rewrite Ec. destruct (CO c Hc) as [Wc Oc].
      assert (UCc : uc_ok c rid (many N)).
      { destruct arr as [| |? cs ?|? b cs ?|]; try contradiction; cbn [uc_ok components] in UC, Hc.
        - rewrite each_In in UC. auto.
        - destruct UC as [Ub Uc]. destruct Hc as [<-|Hc]; [auto|]. unfold values in Hc. apply in_map_iff in Hc.
          destruct Hc as ([k c'] & <- & Hc). rewrite each_In in Uc. apply (Uc (k, c')). auto. }
      assert (SUBc : forall k, In k (interl (outputs arr) ts) -> In k (outputs c)).
      { intros k Hk. rewrite Oc. apply filter_In in Hk. apply memb_In. tauto. }
      assert (Q : forall s, sample_ok c rid (interd (outputs arr) C) s -> P s).
      { intros s Hs. right. rewrite cells_of_interd. apply Sc; [apply lookup_cons_eq|]. revert Hs.
        apply sample_ok_ext; auto. intros k Hk. rewrite Oc in Hk. rewrite lookup_cons_neq; auto.
        intros ->; auto. }
      generalize (IH c Hc rid _ (interd (outputs arr) C) N NTc SUBc N0 UCc). apply always_imp.
      intros [r|e]; [|auto]. cbn [if_ok]. destruct N, r; cbn; try tauto.
      + intros [L R]. split; [exact L|]. intros s Hs. destruct (R s Hs). auto.
      + intros [L R]. auto. }
  assert (PD : forall s, P s -> P (dset (dist_o div) z s)).
  { intros s [Hs|Hs]; [left|right].
    - revert Hs. apply cells_of_ext. intros k Hk. rewrite lookup_dset_neq; auto. intros ->; auto.
    - revert Hs. apply (arr_sample_ext (dist_o div)); auto; [rewrite !lookup_cons_eq; reflexivity|].
      intros c Hc. destruct (CO c Hc) as [Wc Oc]. apply sample_ok_ext; auto. intros k Hk. rewrite Oc in Hk.
      assert (k <> dist_o div) by (intros ->; auto). rewrite !lookup_cons_neq by auto. rewrite lookup_dset_neq; auto. }
  assert (FIN : forall s, Permutation (keys s) (interl (outputs arr) ts) -> P s ->
     (memb (dist_o div) ts = true -> Permutation (keys (dset (dist_o div) z s)) ts /\ cluster_ok div arr rid C z (dset (dist_o div) z s)) /\
     (memb (dist_o div) ts = false -> Permutation (keys s) ts /\ cluster_ok div arr rid C z s)).
  { intros s PK Ps. split; intros M.
    - apply memb_In in M. split; [eapply keys_cluster; eauto|]. split; [|apply PD; exact Ps].
      intros x. rewrite lookup_dset_eq. congruence.
    - apply memb_false in M. split.
      + rewrite PK. apply NoDup_Permutation; auto; [apply NoDup_filter; auto|]. intros x. unfold interl.
        rewrite filter_In. split; [tauto|]. intros Hx. split; auto. apply memb_In.
        destruct (SUB' x Hx) as [->|]; auto. contradiction.
      + split; [|exact Ps]. intros x Hx. exfalso. apply M.
        assert (K : In (dist_o div) (keys s)) by (eapply lookup_Some_keys; eauto).
        apply (Permutation_in _ PK) in K. apply filter_In in K. tauto. }
  destruct (interl (outputs arr) ts) as [|t0 tc] eqn:E.
  all: revert H; apply always_imp; intros [r|e] H; [|exact I]; cbn [if_ok always] in *; unfold add_cluster;
    destruct (memb (dist_o div) ts) eqn:M; destruct N as [n|], r as [s|l]; cbn [well_shaped if_ok] in *; try tauto.
  all: try (destruct H as [H1 H2]; apply FIN in H2; auto; apply H2; auto; fail).
  all: destruct H as [L H]; split; [rewrite ?map_length; exact L|]; intros s Hs.
  all: try (apply in_map_iff in Hs; destruct Hs as (s' & <- & Hs)).
  all: destruct (H _ Hs) as [H1 H2]; apply FIN in H2; auto; apply H2; auto.
Qed.

Lemma cluster_counts_pos : forall K zs p, In p (cluster_counts K zs) -> snd p <> 0%nat /\ In (fst p) K /\ In (fst p) zs.
Proof.
  intros K zs p H. unfold cluster_counts in H. apply filter_In in H. destruct H as [H P].
  apply in_map_iff in H. destruct H as (z & <- & Hz). cbn [fst snd] in *. apply negb_true_iff in P.
  apply Nat.eqb_neq in P. split; [exact P|]. split; [exact Hz|]. apply (count_occ_In Z.eq_dec). lia.
Qed.

Lemma cluster_counts_sum : forall K zs, NoDup K -> (forall z, In z zs -> In z K) ->
  list_sum (map snd (cluster_counts K zs)) = List.length zs.
Proof.
  intros K zs ND SUB. unfold cluster_counts.
  assert (E : forall l : list (Z * nat), list_sum (map snd (filter (fun p => negb (Nat.eqb (snd p) 0)) l)) = list_sum (map snd l)).
  { induction l as [|[z n] l IH]; [reflexivity|]. cbn [filter snd]. destruct (Nat.eqb_spec n 0) as [->|]; cbn; [exact IH|].
    f_equal. exact IH. }
  rewrite E, map_map. cbn [snd]. clear E. revert SUB. induction zs as [|z zs IH]; intros SUB.
  - cbn. induction K as [|k K IH]; [reflexivity|]. inversion ND; subst. cbn. apply IH; auto. intros ? [].
  - rewrite <- (IH (fun x Hx => SUB x (or_intror Hx))) at 2 || idtac.
    assert (IZ : In z K) by (apply SUB; now left). specialize (IH (fun x Hx => SUB x (or_intror Hx))).
    cbn [List.length]. rewrite <- IH. clear IH SUB.
    induction K as [|k K IH]; [destruct IZ|]. inversion ND; subst. cbn [map list_sum fold_right].
    cbn [count_occ]. destruct (Z.eq_dec z k) as [->|NE].
    + cbn [plus]. f_equal. f_equal. apply f_equal. apply map_ext_in. intros a Ha.
      destruct (Z.eq_dec k a); [subst; contradiction|reflexivity].
    + destruct IZ as [?|IZ]; [congruence|]. unfold list_sum in IH |- *. cbn [count_occ] in IH. rewrite (IH H2 IZ). lia.
Qed.

Lemma oseq_nth : forall {A} (l : list (out A)) r, oseq l = Ok r -> forall i,
  nth_error l i = option_map (@Ok A) (nth_error r i).
Proof.
  induction l as [|[a|e] l IH]; cbn; intros r H i; [injection H as <-; destruct i; reflexivity| |discriminate].
  destruct (oseq l) as [r'|]; [|discriminate]. injection H as <-. destruct i; cbn; auto.
Qed.

Lemma concat_length : forall {A} (l : list (list A)), List.length (List.concat l) = list_sum (map (@List.length A) l).
Proof. induction l; cbn; auto. rewrite app_length, IHl. reflexivity. Qed.

Lemma uc_ok_one : forall c rid b, uc_ok c rid true -> uc_ok c rid b.
Proof.
  apply (cgpm_ind_In (fun c => forall rid b, uc_ok c rid true -> uc_ok c rid b)).
  - intros [s|s|s|s|s|s] rid b; cbn; auto. intros [?|?]; [discriminate|auto].
  - intros cs IH rid b. cbn [uc_ok]. rewrite !each_In. intros H c Hc. apply IH; auto.
  - intros ix cs r2i IH rid b. cbn [uc_ok]. rewrite !each_In. intros H c Hc. apply IH; auto.
  - intros ix bs cs r2i IHb IH rid b. cbn [uc_ok]. rewrite !each_In. intros [H1 H2]. split; [auto|].
    intros [k c] Hc. eapply IH; eauto. apply (H2 (k, c)). auto.
  - intros flex div arr r2c IH rid b. cbn [uc_ok]. destruct (on_record rid r2c); auto.
Qed.

Lemma mix_simulate_shape : forall flex div arr r2c, wf (CMix flex div arr r2c) ->
  (forall c, In c (components arr) -> forall rid ts C N, NoDup ts -> (forall k, In k ts -> In k (outputs c)) ->
     N <> Some 0%nat -> uc_ok c rid (many N) ->
     always (simulate c rid ts C [] N) (if_ok (well_shaped ts N (sample_ok c rid C)))) ->
  forall rid ts C N, NoDup ts -> (forall k, In k ts -> In k (outputs (CMix flex div arr r2c))) -> N <> Some 0%nat ->
  uc_ok (CMix flex div arr r2c) rid (many N) ->
  always (simulate (CMix flex div arr r2c) rid ts C [] N)
    (if_ok (well_shaped ts N (sample_ok (CMix flex div arr r2c) rid C))).
Proof.
  intros flex div arr r2c W IH rid ts C N NT SUB N0 UC.
  assert (ONE := mix_simulate_one_shape flex div arr r2c W IH rid ts C).
  assert (UP : forall N z, (forall s, cluster_ok div arr rid C z s -> sample_ok (CMix flex div arr r2c) rid C s) ->
     forall r, well_shaped ts N (cluster_ok div arr rid C z) r ->
               well_shaped ts N (sample_ok (CMix flex div arr r2c) rid C) r).
  { clear. intros M z H r. destruct M as [n|], r as [s|l]; cbn [well_shaped]; intros X; try contradiction.
    - destruct X as [L Q]. split; [exact L|]. intros s Hs. destruct (Q s Hs) as [Q1 Q2]. split; [exact Q1|]. apply H; exact Q2.
    - destruct X as [Q1 Q2]. split; [exact Q1|]. apply H; exact Q2. }
  destruct (wf_mix _ _ _ _ W) as (D & (K & EK) & A & NI & CO & _ & _).
  cbn [simulate]. unfold mix_simulate. cbn [uc_ok] in UC.
  change (match rid with None => None | Some r => lookup r r2c end) with (on_record rid r2c).
  destruct (on_record rid r2c) as [z|] eqn:R.
  { destruct (oassert _); [|exact I]. generalize (ONE N z NT SUB N0 UC). apply always_imp.
    intros [r|e]; [|auto]. cbn [if_ok]. apply UP. intros s [S1 S2]. exists z. rewrite R. auto. }
  assert (UCn : forall n, uc_ok arr rid (many (Some n))) by (intros; exact UC).
  destruct (lookup (dist_o div) C) as [z|] eqn:L.
  { rewrite EK. destruct (in_support z K) eqn:IS; [|exact I]. 
    generalize (ONE N z NT SUB N0 (uc_ok_one _ _ _ UC)). apply always_imp.
    intros [r|e]; [|auto]. cbn [if_ok]. apply UP. intros s [S1 S2]. exists z. rewrite R. split; [|auto].
    unfold in_support in IS. apply memb_In in IS. apply in_map_iff in IS. destruct IS as (t & <- & It).
    exists t, K. rewrite L. auto. }
  rewrite EK. cbn [obind].
  destruct (oseq _) as [ws|e] eqn:EW; [|exact I]. cbn [obind].
  set (size := match N with None => 1%nat | Some O => 1%nat | Some n => n end).
  apply always_sobind. generalize (always_srepeat _ _ size (flip_index ws)). apply always_imp.
  intros [is|e]; [|auto]. cbn [if_ok]. intros [LI HI]. apply always_sobind.
  set (zs := map (fun i => nth i K 0) is).
  assert (HZ : forall z, In z zs -> In z K /\
     exists w, logpdf (CMix flex div arr r2c) rid [(dist_o div, vz z)] C [] = Ok (Fin w)).
  { intros z Hz. apply in_map_iff in Hz. destruct Hz as (i & <- & Hi). destruct (HI i Hi) as [Li (w & Hw)].
    assert (LW := oseq_length _ _ EW). rewrite map_length in LW. rewrite LW in Li. split; [apply nth_In; auto|].
    exists w. destruct (nth_error K i) as [z|] eqn:En; [|apply nth_error_None in En; lia].
    rewrite (nth_error_nth _ _ 0 En). cbn [logpdf].
    assert (X := oseq_nth _ _ EW i). rewrite nth_error_map, En, Hw in X. cbn in X. congruence. }
  assert (CS : list_sum (map snd (cluster_counts K zs)) = size).
  { rewrite cluster_counts_sum; [unfold zs; rewrite map_length; exact LI|eapply support_NoDup; eauto|].
    intros z Hz. apply HZ. exact Hz. }
  assert (H : always (soseq (map (fun p => mix_simulate_one (dist_o div) (outputs arr) (simulate arr) rid ts C []
        (Some (snd p)) (vz (fst p))) (cluster_counts K zs)))
     (if_ok (Forall2 (fun p => well_shaped ts (Some (snd p)) (sample_ok (CMix flex div arr r2c) rid C)) (cluster_counts K zs)))).
  { apply always_soseq. intros p Hp. destruct (cluster_counts_pos _ _ _ Hp) as (P0 & PK & PZ).
    generalize (ONE (Some (snd p)) (vz (fst p)) NT SUB ltac:(congruence) (UCn _)). apply always_imp.
    intros [r|e]; [|auto]. cbn [if_ok]. apply UP. intros s [S1 S2]. exists (vz (fst p)). rewrite R. split; [|auto].
    exists (fst p), K. rewrite L. destruct (HZ _ PZ) as [_ X]. auto. }
  revert H. apply always_imp. intros [l|e]; [|auto]. cbn [if_ok]. intros F. cbn [always].
  unfold chain_samples. destruct (all_many l) as [ll|e] eqn:AM; [|destruct N; exact I]. cbn [omap].
  apply all_many_inv in AM. subst l.
  assert (G : List.length (List.concat ll) = size /\
     forall s, In s (List.concat ll) -> Permutation (keys s) ts /\ sample_ok (CMix flex div arr r2c) rid C s).
  { rewrite <- CS. clear - F. remember (map SMany ll) as rs eqn:E. revert ll E.
    induction F as [|p r ps rs P F IH]; intros [|rows ll] E; try discriminate.
    - split; [reflexivity|intros ? []].
    - cbn [map] in E. injection E as -> ->. destruct (IH ll eq_refl) as [I1 I2]. destruct P as [P1 P2].
      cbn [List.concat map list_sum fold_right]. rewrite app_length. split; [unfold list_sum in I1; congruence|].
      intros s Hs. apply in_app_iff in Hs. destruct Hs; auto. }
  destruct G as [GL GS]. destruct N as [[|n]|]; [congruence| |].
  - cbn [if_ok well_shaped]. auto.
  - cbn [obind]. destruct (List.concat ll) as [|d ds]; [discriminate GL|]. cbn [if_ok well_shaped].
    apply GS. now left.
Qed.

Lemma simulate_shape : forall c, wf c -> forall rid ts C N, NoDup ts -> (forall k, In k ts -> In k (outputs c)) ->
  N <> Some 0%nat -> uc_ok c rid (many N) ->
  always (simulate c rid ts C [] N) (if_ok (well_shaped ts N (sample_ok c rid C))).
Proof.
  induction 1 as [d D|cs Wc IH ND|div cs r2i r2c D F SU NE Wc IH O|div b cs r2i r2c D HS Wb IHb NI ND Wc IH O];
    intros rid ts C N NT SUB N0 UC.
  - apply dist_simulate_shape; auto.
  - apply prod_simulate_shape; auto.
  - apply mix_simulate_shape; auto. econstructor; eauto.
  - apply mix_simulate_shape; auto; [econstructor; eauto|].
    intros c [<-|Hc]; [exact IHb|]. unfold values in Hc. apply in_map_iff in Hc. destruct Hc as ([k c'] & <- & Hc).
    eapply IH; eauto.
Qed.

Lemma zero_samples : forall flex div arr r2c rid ts C,
  on_record rid r2c = None -> lookup (dist_o div) C = None ->
  simulate (CMix flex div arr r2c) rid ts C [] (Some 0%nat) =
  simulate (CMix flex div arr r2c) rid ts C [] (Some 1%nat).
Proof.
  intros flex div arr r2c rid ts C R L. cbn [simulate]. unfold mix_simulate.
  change (match rid with None => None | Some r => lookup r r2c end) with (on_record rid r2c).
  rewrite R, L. reflexivity.
Qed.

Lemma nuc_ignores_N : forall s r q N, lookup r (nuc_data s) = Some (VQ q) ->
  simulate (CDist (DNuc s)) (Some r) [nuc_o s] [] [] N = Ret (Ok (SOne [(nuc_o s, VQ q)])).
Proof.
  intros s r q N L. cbn [simulate dist_simulate]. unfold nuc_simulate, base_simulate, recorded.
  rewrite (eqb_refl [nuc_o s]). cbn [obind oassert]. rewrite L. reflexivity.
Qed.
