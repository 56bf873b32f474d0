(** Queries with effects answer like the pure functions of Cgpm.v and leave an object that
    cannot be told apart from the original. *)
From Coq Require Import List ZArith QArith Qcanon Reals Bool String Permutation Lia Lra FunctionalExtensionality.
From Verif Require Import Base Xr Samp Lgamma Prims Cgpm Lib SpecPrims PrimsInv PrimsDens PrimsThm2
  SpecComp CompInv CompDens CompThm SpecSim SimShape SpecBook Book Query SpecQuery.
Import ListNotations.
Local Open Scope Z_scope.

(** ** Touched objects *)

Lemma touched_prod : forall cs x, touched (CProd cs) x -> exists cs', x = CProd cs' /\ Forall2 touched cs cs'.
Proof.
  intros cs x H. inversion H; subst; [|eauto]. exists cs. split; [reflexivity|]. clear. induction cs; constructor; auto using td_same.
Qed.

Lemma touched_fin : forall ix cs m x, touched (CFinArr ix cs m) x -> exists cs', x = CFinArr ix cs' m /\ Forall2 touched cs cs'.
Proof.
  intros ix cs m x H. inversion H; subst; [|eauto]. exists cs. split; [reflexivity|]. clear. induction cs; constructor; auto using td_same.
Qed.

Lemma touched_flex : forall ix b cs m x, touched (CFlexArr ix b cs m) x -> exists cs', x = CFlexArr ix b cs' m /\
  (NoDup (keys cs) -> NoDup (keys cs')) /\
  (forall k c, lookup k cs = Some c -> exists c', lookup k cs' = Some c' /\ touched c c') /\
  (forall k c', lookup k cs' = Some c' -> lookup k cs = None -> touched b c').
Proof.
  intros ix b cs m x H. inversion H; subst; [|eauto 6]. exists cs. split; [reflexivity|]. split; [auto|]. split; [eauto using td_same|congruence].
Qed.

Lemma touched_mix : forall f d a m x, touched (CMix f d a m) x -> exists a', x = CMix f d a' m /\ touched a a'.
Proof. intros f d a m x H. inversion H; subst; eauto using td_same. Qed.

Lemma touched_dist : forall d x, touched (CDist d) x -> x = CDist d.
Proof. intros d x H. inversion H; subst; reflexivity. Qed.

Lemma touched_trans : forall a b c, touched a b -> touched b c -> touched a c.
Proof.
  induction a as [d|cs IH|ix cs m IH|ix bs cs m IHb IH|f d arr m IH] using cgpm_ind_In; intros b c H1 H2.
  - apply touched_dist in H1. subst. exact H2.
  - apply touched_prod in H1. destruct H1 as (cs1 & -> & F1). apply touched_prod in H2. destruct H2 as (cs2 & -> & F2).
    apply td_prod. revert cs2 F2. induction F1 as [|x y l l' T F1 IHF]; intros cs2 F2; inversion F2; subst; constructor.
    + eapply IH; eauto. now left.
    + apply IHF; auto. intros. eapply IH; eauto. now right.
  - apply touched_fin in H1. destruct H1 as (cs1 & -> & F1). apply touched_fin in H2. destruct H2 as (cs2 & -> & F2).
    apply td_fin. revert cs2 F2. induction F1 as [|x y l l' T F1 IHF]; intros cs2 F2; inversion F2; subst; constructor.
    + eapply IH; eauto. now left.
    + apply IHF; auto. intros. eapply IH; eauto. now right.
  - apply touched_flex in H1. destruct H1 as (cs1 & -> & N1 & A1 & B1). apply touched_flex in H2. destruct H2 as (cs2 & -> & N2 & A2 & B2).
    apply td_flex; [auto| |].
    + intros k c E. destruct (A1 k c E) as (c1 & E1 & T1). destruct (A2 k c1 E1) as (c2 & E2 & T2). exists c2. split; [exact E2|].
      apply lookup_In in E. exact (IH k c E c1 c2 T1 T2).
    + intros k c2 E2 E. destruct (lookup k cs1) as [c1|] eqn:E1.
      * destruct (A2 k c1 E1) as (c2' & E2' & T2). rewrite E2 in E2'. injection E2' as <-. exact (IHb c1 c2 (B1 k c1 E1 E) T2).
      * exact (B2 k c2 E2 E1).
  - apply touched_mix in H1. destruct H1 as (a1 & -> & T1). apply touched_mix in H2. destruct H2 as (a2 & -> & T2).
    apply td_mix. eauto.
Qed.

Lemma touched_outputs : forall c c', touched c c' -> outputs c' = outputs c.
Proof.
  induction c as [d|cs IH|ix cs m IH|ix b cs m IHb IH|f d arr m IH] using cgpm_ind_In; intros c' H.
  - apply touched_dist in H. now subst.
  - apply touched_prod in H. destruct H as (cs' & -> & F). cbn [outputs]. induction F as [|x y l l' T F IHF]; [reflexivity|].
    cbn [flat_map]. rewrite (IH x (or_introl eq_refl) y T). f_equal. apply IHF. intros. apply IH; auto. now right.
  - apply touched_fin in H. destruct H as (cs' & -> & F). cbn [outputs]. destruct F as [|x y l l' T F]; [reflexivity|].
    apply IH; [now left|exact T].
  - apply touched_flex in H. destruct H as (cs' & -> & _). reflexivity.
  - apply touched_mix in H. destruct H as (a' & -> & T). cbn [outputs]. rewrite (IH a' T). reflexivity.
Qed.

Lemma touched_inputs : forall c c', touched c c' -> inputs c' = inputs c.
Proof.
  induction c as [d|cs IH|ix cs m IH|ix b cs m IHb IH|f d arr m IH] using cgpm_ind_In; intros c' H.
  - apply touched_dist in H. now subst.
  - apply touched_prod in H. destruct H as (cs' & -> & F). cbn [inputs]. induction F as [|x y l l' T F IHF]; [reflexivity|].
    cbn [flat_map]. rewrite (IH x (or_introl eq_refl) y T). f_equal. apply IHF. intros. apply IH; auto. now right.
  - apply touched_fin in H. destruct H as (cs' & -> & F). cbn [inputs]. destruct F as [|x y l l' T F]; [reflexivity|].
    rewrite (IH x (or_introl eq_refl) y T). reflexivity.
  - apply touched_flex in H. destruct H as (cs' & -> & _). reflexivity.
  - apply touched_mix in H. destruct H as (a' & -> & T). cbn [inputs]. rewrite (IH a' T). reflexivity.
Qed.

(** A missing component and one created from the base answer alike. *)
Lemma touched_read : forall {A} (g : cgpm -> A) b (cs cs' : dict val cgpm),
  (forall k c, In (k, c) cs -> forall c', touched c c' -> g c' = g c) -> (forall c', touched b c' -> g c' = g b) ->
  (forall k c, lookup k cs = Some c -> exists c', lookup k cs' = Some c' /\ touched c c') ->
  (forall k c', lookup k cs' = Some c' -> lookup k cs = None -> touched b c') ->
  forall i, match lookup i (map (fun p => let '(k, c) := p in (k, g c)) cs') with Some f => f | None => g b end =
            match lookup i (map (fun p => let '(k, c) := p in (k, g c)) cs) with Some f => f | None => g b end.
Proof.
  intros A g b cs cs' IH IHb A1 B1 i. rewrite !lookup_dict_map. destruct (lookup i cs) as [c|] eqn:E.
  - destruct (A1 i c E) as (c' & E' & T). rewrite E'. cbn. eapply IH; eauto. apply lookup_In in E. exact E.
  - destruct (lookup i cs') as [c'|] eqn:E'; cbn; [|reflexivity]. apply IHb. eauto.
Qed.

Lemma touched_map : forall {A} (g : cgpm -> A) cs cs', (forall c, In c cs -> forall c', touched c c' -> g c' = g c) ->
  Forall2 touched cs cs' -> map g cs' = map g cs.
Proof.
  intros A g cs cs' IH F. induction F as [|x y l l' T F IHF]; [reflexivity|]. cbn [map].
  rewrite (IH x (or_introl eq_refl) y T). f_equal. apply IHF. intros. apply IH; auto. now right.
Qed.

Lemma touched_logpdf : forall c c', touched c c' -> logpdf c' = logpdf c.
Proof.
  induction c as [d|cs IH|ix cs m IH|ix b cs m IHb IH|f d arr m IH] using cgpm_ind_In; intros c' H.
  - apply touched_dist in H. now subst.
  - apply touched_prod in H. destruct H as (cs' & -> & F). cbn [logpdf]. f_equal. apply touched_map; [|exact F].
    intros c Hc c' T. rewrite (IH c Hc c' T), (touched_outputs c c' T), (touched_inputs c c' T). reflexivity.
  - apply touched_fin in H. destruct H as (cs' & -> & F). cbn [logpdf]. f_equal. apply touched_map; assumption.
  - apply touched_flex in H. destruct H as (cs' & -> & _ & A & B). cbn [logpdf]. unfold flexarr_logpdf.
    extensionality rid. extensionality T. extensionality C. extensionality ins. destruct (lookup ix ins) as [i|]; [|reflexivity].
    rewrite (touched_read logpdf b cs cs' IH IHb A B). reflexivity.
  - apply touched_mix in H. destruct H as (a' & -> & T). cbn [logpdf]. rewrite (IH a' T), (touched_outputs _ _ T). reflexivity.
Qed.

Lemma touched_simulate : forall c c', touched c c' -> simulate c' = simulate c.
Proof.
  induction c as [d|cs IH|ix cs m IH|ix b cs m IHb IH|f d arr m IH] using cgpm_ind_In; intros c' H.
  - apply touched_dist in H. now subst.
  - apply touched_prod in H. destruct H as (cs' & -> & F). cbn [simulate]. f_equal. apply touched_map; [|exact F].
    intros c Hc c' T. rewrite (IH c Hc c' T), (touched_outputs c c' T), (touched_inputs c c' T). reflexivity.
  - apply touched_fin in H. destruct H as (cs' & -> & F). cbn [simulate]. f_equal. apply touched_map; assumption.
  - apply touched_flex in H. destruct H as (cs' & -> & _ & A & B). cbn [simulate]. unfold flexarr_simulate.
    extensionality rid. extensionality T. extensionality C. extensionality ins. extensionality N.
    destruct (lookup ix ins) as [i|]; [|reflexivity]. rewrite (touched_read simulate b cs cs' IH IHb A B). reflexivity.
  - apply touched_mix in H. destruct H as (a' & -> & T). cbn [simulate].
    rewrite (IH a' T), (touched_outputs _ _ T), (touched_logpdf _ _ T). reflexivity.
Qed.

(** ** Updates of touched objects *)

Lemma flex_put : forall ix b cs cs' m m' i c c',
  (NoDup (keys cs) -> NoDup (keys cs')) ->
  (forall k c, lookup k cs = Some c -> exists c', lookup k cs' = Some c' /\ touched c c') ->
  (forall k c', lookup k cs' = Some c' -> lookup k cs = None -> touched b c') ->
  m' = m -> touched c c' -> touched (CFlexArr ix b (dset i c cs) m) (CFlexArr ix b (dset i c' cs') m').
Proof.
  intros ix b cs cs' m m' i c c' ND A B -> T. apply td_flex.
  - intros N. assert (X : NoDup (keys cs') -> NoDup (keys (dset i c' cs'))) by (intros; apply NoDup_keys_dset; assumption).
    apply X, ND. clear - N. assert (Y : keys (dset i c cs) = keys cs \/ keys (dset i c cs) = keys cs ++ [i]).
    { clear N. induction cs as [|[k v] cs IH]; cbn; [auto|]. destruct (eq_dec i k) as [->|NE]; cbn; [auto|]. unfold keys in *.
      destruct IH as [-> | ->]; auto. }
    destruct Y as [Y|Y]; rewrite Y in N; [exact N|]. clear - N. induction (keys cs) as [|a l IH]; [constructor|]. cbn in N. inversion N; subst. constructor; [intros J; apply H1; apply in_or_app; now left|auto].
  - intros k c0. rewrite !lookup_dset. destruct (eq_dec k i) as [->|NE]; [|apply A]. intros [= <-]. eauto.
  - intros k c0. rewrite !lookup_dset. destruct (eq_dec k i) as [->|NE]; [discriminate|apply B].
Qed.

Lemma set_nth_F2 : forall {A} (R : A -> A -> Prop) n x y l l', R x y -> Forall2 R l l' -> Forall2 R (set_nth n x l) (set_nth n y l').
Proof.
  intros A R n x y l l' H F. revert n. induction F as [|a b l l' T F IH]; intros [|n]; cbn; constructor; auto.
Qed.

Lemma F2_length : forall {A B} (R : A -> B -> Prop) l l', Forall2 R l l' -> List.length l = List.length l'.
Proof. intros A B R l l' F. induction F; cbn; auto. Qed.

Lemma F2_nth : forall {A B} (R : A -> B -> Prop) l l' n, Forall2 R l l' ->
  match nth_error l n, nth_error l' n with Some x, Some y => R x y | None, None => True | _, _ => False end.
Proof. intros A B R l l' n F. revert n. induction F; intros [|n]; cbn; auto. apply IHF. Qed.

Lemma py_index_len : forall {A B} (l : list A) (l' : list B) v, List.length l = List.length l' -> py_index l v = py_index l' v.
Proof. intros A B l l' v E. unfold py_index. rewrite E. reflexivity. Qed.

Lemma nth_map_error : forall {A B} (f : A -> B) l n, nth_error (map f l) n = match nth_error l n with Some x => Some (f x) | None => None end.
Proof. intros A B f l. induction l; intros [|n]; cbn; auto. Qed.

Lemma touched_unobserve : forall c c' rid, touched c c' ->
  touched (fst (unobserve c rid)) (fst (unobserve c' rid)) /\ snd (unobserve c' rid) = snd (unobserve c rid).
Proof.
  induction c as [d|cs IH|ix cs m IH|ix b cs m IHb IH|f d arr m IH] using cgpm_ind_In; intros c' rid H.
  - apply touched_dist in H. subst. split; [apply td_same|reflexivity].
  - apply touched_prod in H. destruct H as (cs' & -> & F). cbn [unobserve].
    assert (X : Forall2 touched (map fst (map unobserve_one (map (fun c => unobserve c rid) cs)))
                                (map fst (map unobserve_one (map (fun c => unobserve c rid) cs'))) /\
                map snd (map unobserve_one (map (fun c => unobserve c rid) cs')) = map snd (map unobserve_one (map (fun c => unobserve c rid) cs))).
    { induction F as [|x y l l' T F IHF]; [split; [constructor|reflexivity]|]. cbn [map].
      destruct (IH x (or_introl eq_refl) y rid T) as [T1 E1]. destruct IHF as [F1 F2]; [intros; apply IH; auto; now right|].
      unfold unobserve_one at 1 3 5 7. rewrite E1. destruct (snd (unobserve x rid)); cbn [fst snd]; split; [constructor| |constructor|]; auto; congruence. }
    destruct X as [X1 X2]. unfold prod_unobserve. destruct F as [|x y l l' T F]; [split; [apply td_same|reflexivity]|].
    cbn [map] in *. cbn [fst snd]. split; [apply td_prod; exact X1|].
    assert (Z : forall g : row * row -> row, map (fun p : cgpm * (row * row) => g (snd p)) (unobserve_one (unobserve y rid) :: map unobserve_one (map (fun c => unobserve c rid) l')) =
                  map (fun p : cgpm * (row * row) => g (snd p)) (unobserve_one (unobserve x rid) :: map unobserve_one (map (fun c => unobserve c rid) l))).
    { intros g. rewrite <- !(map_map snd g). f_equal. exact X2. }
    cbn [map] in Z. rewrite (Z fst), (Z snd). reflexivity.
  - apply touched_fin in H. destruct H as (cs' & -> & F). cbn [unobserve]. unfold finarr_unobserve.
    assert (FF := F). apply F2_length in FF.
    destruct (lookup rid m) as [i|]; [|split; [apply td_fin; exact F|reflexivity]].
    rewrite (py_index_len (map unobserve cs') (map unobserve cs)) by (rewrite !map_length; auto).
    destruct (py_index (map unobserve cs) i) as [n|e]; [|split; [apply td_fin; exact F|reflexivity]].
    rewrite !nth_map_error. assert (Y := F2_nth _ _ _ n F). 
    destruct (nth_error cs n) as [x|] eqn:E, (nth_error cs' n) as [y|]; try contradiction; [|split; [apply td_fin; exact F|reflexivity]].
    destruct (IH x (nth_error_In _ _ E) y rid Y) as [T1 E1]. destruct (unobserve x rid), (unobserve y rid). cbn [fst snd] in *.
    split; [|exact E1]. apply td_fin. apply set_nth_F2; assumption.
  - apply touched_flex in H. destruct H as (cs' & -> & ND & A & B). cbn [unobserve]. unfold flexarr_unobserve.
    destruct (lookup rid m) as [i|]; [|split; [apply td_flex; assumption|reflexivity]].
    assert (X : let u := match lookup i (map (fun p => let '(k, c') := p in (k, unobserve c')) cs) with Some f => f | None => unobserve b end rid in
                let u' := match lookup i (map (fun p => let '(k, c') := p in (k, unobserve c')) cs') with Some f => f | None => unobserve b end rid in
                touched (fst u) (fst u') /\ snd u' = snd u).
    { cbv zeta. rewrite !lookup_dict_map. destruct (lookup i cs) as [c|] eqn:E.
      - destruct (A i c E) as (c' & E' & T). rewrite E'. cbn. apply (IH i c); [apply lookup_In in E; exact E|exact T].
      - destruct (lookup i cs') as [c'|] eqn:E'; cbn; [|split; [apply td_same|reflexivity]]. apply IHb. eauto. }
    cbv zeta in X. destruct (match lookup i (map _ cs) with Some f => f | None => unobserve b end rid) as [c1 r1].
    destruct (match lookup i (map _ cs') with Some f => f | None => unobserve b end rid) as [c2 r2]. cbn [fst snd] in *.
    destruct X as [X1 X2]. split; [|exact X2]. apply flex_put; auto.
  - apply touched_mix in H. destruct H as (a' & -> & T). cbn [unobserve]. unfold mix_unobserve.
    destruct (dist_unobserve d rid) as [d' [[oz iz]|e]]; [|split; [apply td_mix; exact T|reflexivity]].
    destruct (IH a' rid T) as [T1 E1]. destruct (unobserve arr rid) as [a1 r1], (unobserve a' rid) as [a2 r2]. cbn [fst snd] in *. subst r2.
    destruct r1 as [[ox ixs]|e]; [|split; [apply td_mix; exact T1|reflexivity]].
    destruct (dmem rid m); split; try (apply td_mix; exact T1); reflexivity.
Qed.

(** ** Coupled computations *)

Lemma coupled_bind : forall {A A' B B'} (R : A -> A' -> Prop) (S : B -> B' -> Prop) m m' f f',
  coupled R m m' -> (forall a a', R a a' -> coupled S (f a) (f' a')) -> coupled S (sbind m f) (sbind m' f').
Proof.
  intros A A' B B' R S m. induction m as [a|ws k IH|l k IH|n p k IH|lo hi k IH|n k IH]; intros m' f f' H HF; destruct m'; cbn [coupled sbind] in *; try contradiction.
  - auto.
  - destruct H as [-> H]. split; [reflexivity|]. intros. eapply IH; eauto.
  - destruct H as [-> H]. split; [reflexivity|]. intros. eapply IH; eauto.
  - destruct H as (-> & -> & H). split; [reflexivity|]. split; [reflexivity|]. intros. eapply IH; eauto.
  - destruct H as (-> & -> & H). split; [reflexivity|]. split; [reflexivity|]. intros. eapply IH; eauto.
  - destruct H as [-> H]. split; [reflexivity|]. intros. eapply IH; eauto.
Qed.

Lemma coupled_refl : forall {A} (m : samp A), coupled eq m m.
Proof. induction m; cbn [coupled]; auto. Qed.

Lemma coupled_imp : forall {A B} (R S : A -> B -> Prop) m m', (forall a b, R a b -> S a b) -> coupled R m m' -> coupled S m m'.
Proof.
  intros A B R S m. induction m; intros m' HI C; destruct m'; cbn [coupled] in *; try contradiction; intuition auto.
Qed.

Lemma coupled_diag : forall {A} (R : A -> A -> Prop) (m : samp A), always m (fun a => R a a) -> coupled R m m.
Proof. intros A R m. induction m; cbn [coupled always]; auto. Qed.

(** With an invariant of the left side. *)
Lemma coupled_always : forall {A B} (R : A -> B -> Prop) (P : A -> Prop) m m', coupled R m m' -> always m P ->
  coupled (fun a b => R a b /\ P a) m m'.
Proof.
  intros A B R P m. induction m; intros m' C W; destruct m'; cbn [coupled always] in *; try contradiction; intuition auto.
Qed.

Lemma touched_observe : forall c c' rid obs ins, touched c c' ->
  coupled (fun r r' => touched (fst r) (fst r') /\ snd r' = snd r) (observe c rid obs ins) (observe c' rid obs ins).
Proof.
  induction c as [d|cs IH|ix cs m IH|ix b cs m IHb IH|f d arr m IH] using cgpm_ind_In; intros c' rid obs ins H.
  - apply touched_dist in H. subst. cbn. split; [apply td_same|reflexivity].
  - apply touched_prod in H. destruct H as (cs' & -> & F). cbn [observe].
    eapply coupled_bind with (R := fun r r' => Forall2 touched (fst r) (fst r') /\ snd r' = snd r).
    2:{ intros r r' [T E]. cbn. split; [apply td_prod; exact T|exact E]. }
    induction F as [|x y l l' T F IHF]; cbn [map prod_observe]; [split; [constructor|reflexivity]|].
    specialize (IHF (fun c Hc => IH c (or_intror Hc))).
    rewrite (touched_outputs _ _ T), (touched_inputs _ _ T). destruct (interd (outputs x) obs) as [|p q].
    + eapply coupled_bind; [exact IHF|]. intros r r' [T1 E1]. cbn. split; [constructor; assumption|exact E1].
    + eapply coupled_bind; [apply (IH x (or_introl eq_refl) y); exact T|]. intros r r' [T1 E1]. cbn beta. rewrite E1.
      destruct (snd r) as [u|e].
      * eapply coupled_bind; [exact IHF|]. intros r2 r2' [T2 E2]. cbn. split; [constructor; assumption|exact E2].
      * cbn. split; [|reflexivity]. constructor; [exact T1|]. clear - F. induction F; cbn; constructor; auto.
  - apply touched_fin in H. destruct H as (cs' & -> & F). cbn [observe]. unfold finarr_observe.
    assert (FF := F). apply F2_length in FF.
    destruct (lookup ix ins) as [i|]; [|split; [apply td_fin; exact F|reflexivity]].
    rewrite (py_index_len (map observe cs') (map observe cs)) by (rewrite !map_length; auto).
    destruct (py_index (map observe cs) i) as [n|e]; [|split; [apply td_fin; exact F|reflexivity]].
    rewrite !nth_map_error. assert (Y := F2_nth _ _ _ n F). 
    destruct (nth_error cs n) as [x|] eqn:E, (nth_error cs' n) as [y|]; try contradiction; [|split; [apply td_fin; exact F|reflexivity]].
    eapply coupled_bind; [apply (IH x (nth_error_In _ _ E) y); exact Y|]. intros r r' [T1 E1]. cbn beta. rewrite E1.
    destruct (snd r); cbn; (split; [|reflexivity]); apply td_fin; apply set_nth_F2; assumption.
  - apply touched_flex in H. destruct H as (cs' & -> & ND & A & B). cbn [observe]. unfold flexarr_observe.
    destruct (lookup ix ins) as [i|]; [|split; [apply td_flex; assumption|reflexivity]].
    eapply coupled_bind with (R := fun r r' => touched (fst r) (fst r') /\ snd r' = snd r).
    + rewrite !lookup_dict_map. destruct (lookup i cs) as [c|] eqn:E.
      * destruct (A i c E) as (c' & E' & T). rewrite E'. cbn [option_map]. apply (IH i c); [apply lookup_In in E; exact E|exact T].
      * destruct (lookup i cs') as [c'|] eqn:E'; cbn [option_map]; [apply IHb; eauto|].
        apply coupled_diag. apply always_True. intros a. split; [apply td_same|reflexivity].
    + intros r r' [T1 E1]. cbn beta. rewrite E1. destruct (snd r); cbn; (split; [|reflexivity]); apply flex_put; auto.
  - apply touched_mix in H. destruct H as (a' & -> & T). cbn [observe]. unfold mix_observe. cbv zeta.
    assert (X : forall div r2c z, coupled (fun r r' => touched (fst r) (fst r') /\ snd r' = snd r)
              (mix_observe_x f div arr (observe arr) r2c rid obs ins z) (mix_observe_x f div a' (observe a') r2c rid obs ins z)).
    { intros div r2c z. unfold mix_observe_x. rewrite (touched_outputs _ _ T), (touched_inputs _ _ T).
      eapply coupled_bind; [apply (IH a'); exact T|]. intros r r' [T1 E1]. cbn. split; [apply td_mix; exact T1|exact E1]. }
    destruct (lookup rid m) as [z|]; [apply X|]. eapply coupled_bind; [apply coupled_refl|]. intros oz oz' <-.
    destruct oz as [z|e]; [|cbn; split; [apply td_mix; exact T|reflexivity]].
    destruct (dist_observe d rid [(dist_o d, z)] []) as [d' [u|e]]; [apply X|cbn; split; [apply td_mix; exact T|reflexivity]].
Qed.

(** ** Depth *)

Fixpoint fits (n : nat) (c : cgpm) : Prop :=
  match n with
  | O => False
  | S n' =>
    match c with
    | CDist _ => True
    | CProd cs => forall c', In c' cs -> fits n' c'
    | CFinArr _ cs _ => forall c', In c' cs -> fits n' c'
    | CFlexArr _ b cs _ => fits n' b /\ forall k c', lookup k cs = Some c' -> fits n' c'
    | CMix _ _ arr _ => fits n' arr
    end
  end.

Lemma fits_mono : forall n m c, (n <= m)%nat -> fits n c -> fits m c.
Proof.
  induction n as [|n IH]; intros m c L F; [contradiction|]. destruct m as [|m]; [lia|]. assert (n <= m)%nat by lia.
  destruct c; cbn [fits] in *; eauto. destruct F as [F1 F2]. eauto.
Qed.

Lemma list_max_In : forall l x, In x l -> (x <= list_max l)%nat.
Proof. intros l x H. assert (A := proj1 (list_max_le l (list_max l)) (Nat.le_refl _)). rewrite Forall_forall in A. auto. Qed.

Lemma fits_depth : forall c, fits (depth c) c.
Proof.
  induction c as [d|cs IH|ix cs m IH|ix b cs m IHb IH|f d arr m IH] using cgpm_ind_In; cbn [depth fits]; auto.
  - intros c H. eapply fits_mono; [|apply IH; exact H]. apply list_max_In. now apply in_map.
  - intros c H. eapply fits_mono; [|apply IH; exact H]. apply list_max_In. now apply in_map.
  - split; [eapply fits_mono; [|exact IHb]; lia|]. intros k c H. apply lookup_In in H. eapply fits_mono; [|apply (IH k c H)].
    assert (depth c <= list_max (map (fun p : val * cgpm => let '(_, c') := p in depth c') cs))%nat; [|lia].
    apply list_max_In. apply in_map_iff. exists (k, c). auto.
Qed.

Lemma touched_fits : forall n c c', touched c c' -> fits n c -> fits n c'.
Proof.
  induction n as [|n IH]; intros c c' T F; [contradiction|]. destruct c.
  - apply touched_dist in T. now subst.
  - apply touched_prod in T. destruct T as (cs' & -> & TT). cbn [fits] in *. induction TT as [|x y l l' T TT IHT]; [intros ? []|].
    intros c [<-|Hc]; [eapply IH; eauto; apply F; now left|]. apply IHT; auto. intros; apply F. now right.
  - apply touched_fin in T. destruct T as (cs' & -> & TT). cbn [fits] in *. induction TT as [|x y l l' T TT IHT]; [intros ? []|].
    intros c [<-|Hc]; [eapply IH; eauto; apply F; now left|]. apply IHT; auto. intros; apply F. now right.
  - apply touched_flex in T. destruct T as (cs' & -> & _ & A & B). cbn [fits] in *. destruct F as [Fb F]. split; [exact Fb|].
    intros k c1 E1. destruct (lookup k cs) as [c0|] eqn:E.
    + destruct (A k c0 E) as (c2 & E2 & T). rewrite E1 in E2. injection E2 as <-. eapply IH; eauto.
    + eapply IH; [exact (B k c1 E1 E)|exact Fb].
  - apply touched_mix in T. destruct T as (a' & -> & T). cbn [fits] in *. eapply IH; eauto.
Qed.

(** ** Calls with effects agree with pure functions *)

Definition agrees {A} (c : cgpm) (m : call A) (v : out A) : Prop :=
  forall c1, touched c c1 -> touched c (fst (m c1)) /\ snd (m c1) = v.

Lemma agrees_pure : forall {A} c (v : out A), agrees c (cpure v) v.
Proof. intros A c v c1 T. split; [exact T|reflexivity]. Qed.

Lemma agrees_bind : forall {A B} c (m : call A) v (k : A -> call B) w, agrees c m v ->
  (forall a, v = Ok a -> agrees c (k a) (w a)) -> agrees c (cbind m k) (obind v w).
Proof.
  intros A B c m v k w M K c1 T. destruct (M c1 T) as [T1 E1]. unfold cbind. destruct (m c1) as [c2 r]. cbn [fst snd] in *. subst r.
  destruct v as [a|e]; [exact (K a eq_refl c2 T1)|]. split; [exact T1|reflexivity].
Qed.

Lemma oseq_cons : forall {A} (v : out A) l, oseq (v :: l) = obind v (fun a => obind (oseq l) (fun r => Ok (a :: r))).
Proof. intros A [a|e] l; cbn; [destruct (oseq l)|]; reflexivity. Qed.

Lemma agrees_seq : forall {A X} c (f : X -> call A) v l, (forall x, In x l -> agrees c (f x) (v x)) ->
  agrees c (cseq (map f l)) (oseq (map v l)).
Proof.
  intros A X c f v l. induction l as [|x l IH]; intros H; cbn [map cseq].
  - apply agrees_pure.
  - rewrite oseq_cons. apply agrees_bind; [apply H; now left|]. intros a _. apply agrees_bind; [apply IH; intros; apply H; now right|].
    intros r _. apply agrees_pure.
Qed.

Ltac agree := repeat (cbv zeta; match goal with
  | |- agrees _ (cbind _ _) (obind _ _) => apply agrees_bind; [|intros ? _]
  | |- agrees _ (cpure ?v) ?w => exact (agrees_pure _ v)
  | |- agrees _ (cseq (map _ _)) (oseq (map _ _)) => apply agrees_seq; intros ? _
  | |- agrees _ (match ?x with _ => _ end) (match ?x with _ => _ end) => destruct x eqn:?
  | |- _ => solve [auto]
  end).

Section Mix.
  Variables (f : logpdf_c) (arr : cgpm).
  Hypothesis F : forall rid T C ins, agrees arr (f rid T C ins) (logpdf arr rid T C ins).

  Lemma mix_one_agrees : forall ix ox rid T C ins z,
    agrees arr (mix_logpdf_one_st f ix ox rid T C ins z) (mix_logpdf_one ix ox (logpdf arr) rid T C ins z).
  Proof.
    intros. unfold mix_logpdf_one_st, mix_logpdf_one. destruct (interd ox T); [apply agrees_pure|apply F].
  Qed.

  Lemma mix_marg_agrees : forall div ox rid T C ins,
    agrees arr (mix_logpdf_marg_st f div ox rid T C ins) (mix_logpdf_marg div ox (logpdf arr) rid T C ins).
  Proof.
    intros. unfold mix_logpdf_marg_st, mix_logpdf_marg. assert (X := mix_one_agrees). agree.
  Qed.

  Lemma mix_agrees : forall div ox r2c rid T C ins,
    agrees arr (mix_logpdf_st f div ox r2c rid T C ins) (mix_logpdf div ox r2c (logpdf arr) rid T C ins).
  Proof.
    intros. unfold mix_logpdf_st, mix_logpdf. assert (X := mix_one_agrees). assert (Y := mix_marg_agrees). cbv zeta.
    destruct (match rid with Some r => lookup r r2c | None => None end) as [z|]; [agree|].
    destruct (lookup (dist_o div) T) as [z|].
    - assert (Q : agrees arr (match C with [] => cpure (Ok (Fin 0%R)) | _ => mix_logpdf0_st f div ox rid C ins end)
                             (match C with [] => Ok (Fin 0%R) | _ => mix_logpdf0 div ox (logpdf arr) rid C ins end)).
      { destruct C as [|p l]; [apply agrees_pure|]. unfold mix_logpdf0_st, mix_logpdf0.
        destruct (lookup (dist_o div) (p :: l)); [|apply Y]. unfold mix_logpdf_z0_st, mix_logpdf_z0. agree. }
      repeat (apply agrees_bind; [auto using agrees_pure|intros ? _]). apply agrees_pure.
    - agree.
  Qed.
End Mix.

Lemma each_child_agrees : forall {A} (f : call A) (v : cgpm -> out A) cs,
  (forall c, In c cs -> touched c (fst (f c)) /\ snd (f c) = v c) ->
  Forall2 touched cs (fst (each_child f cs)) /\ snd (each_child f cs) = oseq (map v cs).
Proof.
  intros A f v cs. induction cs as [|c cs IH]; intros H; cbn [each_child map]; [split; [constructor|reflexivity]|].
  destruct (H c (or_introl eq_refl)) as [T E]. destruct (f c) as [c1 [a|e]]; cbn [fst snd] in *; rewrite oseq_cons, <- E; cbn [obind].
  - destruct IH as [F1 F2]; [intros; apply H; now right|]. destruct (each_child f cs) as [cs1 r]. cbn [fst snd] in *. subst r.
    split; [constructor; assumption|]. destruct (oseq (map v cs)); reflexivity.
  - split; [|reflexivity]. constructor; [exact T|]. clear. induction cs; constructor; auto using td_same.
Qed.

Lemma set_nth_same : forall {A} n (x : A) l, nth_error l n = Some x -> set_nth n x l = l.
Proof. intros A n. induction n as [|n IH]; intros x [|y l] E; cbn in *; try discriminate; [congruence|rewrite IH; auto]. Qed.

Lemma F2_refl : forall cs, Forall2 touched cs cs.
Proof. induction cs; constructor; auto using td_same. Qed.

Lemma fin_step : forall ix cs r2i n c c', nth_error cs n = Some c -> touched c c' ->
  touched (CFinArr ix cs r2i) (CFinArr ix (set_nth n c' cs) r2i).
Proof.
  intros ix cs r2i n c c' E T. apply td_fin. rewrite <- (set_nth_same n c cs E) at 1. apply set_nth_F2; [exact T|apply F2_refl].
Qed.

Lemma flex_step : forall ix b cs r2i i cs0 c0 c1, get_cgpm b i cs = (cs0, c0) -> touched c0 c1 ->
  touched (CFlexArr ix b cs r2i) (CFlexArr ix b (dset i c1 cs0) r2i).
Proof.
  intros ix b cs r2i i cs0 c0 c1 G T. unfold get_cgpm in G. apply td_flex.
  - intros N. destruct (lookup i cs); injection G as <- <-; repeat apply NoDup_keys_dset; exact N.
  - intros k c E. rewrite lookup_dset. destruct (eq_dec k i) as [->|NE].
    + rewrite E in G. injection G as <- <-. eauto.
    + destruct (lookup i cs); injection G as <- <-; rewrite ?lookup_dset; [eauto using td_same|].
      destruct (eq_dec k i); [contradiction|]. eauto using td_same.
  - intros k c'. rewrite lookup_dset. destruct (eq_dec k i) as [->|NE].
    + intros [= <-] E. rewrite E in G. injection G as <- <-. exact T.
    + destruct (lookup i cs); injection G as <- <-; [congruence|]. rewrite lookup_dset. destruct (eq_dec k i); [contradiction|]. congruence.
Qed.

Lemma logpdf_st_ok : forall n rid T C ins c, fits n c ->
  touched c (fst (logpdf_st n rid T C ins c)) /\ snd (logpdf_st n rid T C ins c) = logpdf c rid T C ins.
Proof.
  induction n as [|n IH]; intros rid T C ins c F; [contradiction|]. destruct c as [d|cs|ix cs r2i|ix b cs r2i|flex div arr r2c]; cbn [logpdf_st fits] in *.
  - split; [apply td_same|reflexivity].
  - destruct (each_child_agrees (logpdf_one_st (logpdf_st n) rid T C ins)
                (fun c => logpdf_one (outputs c) (inputs c) (logpdf c) rid T C ins) cs) as [F1 F2].
    { intros c Hc. unfold logpdf_one_st, logpdf_one. destruct (interd (outputs c) T); [split; [apply td_same|reflexivity]|].
      apply IH. apply F. exact Hc. }
    destruct (each_child (logpdf_one_st (logpdf_st n) rid T C ins) cs) as [cs' r]. cbn [fst snd] in *. subst r.
    split; [apply td_prod; exact F1|]. cbn [logpdf]. unfold prod_logpdf. rewrite map_map. reflexivity.
  - cbn [logpdf]. unfold finarr_logpdf. destruct (lookup ix ins) as [i|]; [|split; [apply td_same|reflexivity]].
    rewrite (py_index_len (map logpdf cs) cs) by apply map_length.
    destruct (py_index cs i) as [k|e]; [|split; [apply td_same|reflexivity]]. cbn [obind]. rewrite nth_map_error.
    destruct (nth_error cs k) as [c0|] eqn:E; [|split; [apply td_same|reflexivity]].
    destruct (IH rid T C (ddel ix ins) c0) as [T1 E1]; [apply F; apply nth_error_In in E; exact E|].
    destruct (logpdf_st n rid T C (ddel ix ins) c0) as [c1 r]. cbn [fst snd] in *. split; [eapply fin_step; eauto|exact E1].
  - cbn [logpdf]. unfold flexarr_logpdf. destruct (lookup ix ins) as [i|]; [|split; [apply td_same|reflexivity]].
    destruct (get_cgpm b i cs) as [cs0 c0] eqn:G. destruct F as [Fb F].
    assert (FC : fits n c0 /\ match lookup i (map (fun p => let '(k, c') := p in (k, logpdf c')) cs) with Some g => g | None => logpdf b end = logpdf c0).
    { rewrite lookup_dict_map. unfold get_cgpm in G. destruct (lookup i cs) as [c|] eqn:E; injection G as <- <-; cbn; eauto. }
    destruct FC as [FC EC]. rewrite EC. destruct (IH rid T C (ddel ix ins) c0 FC) as [T1 E1].
    destruct (logpdf_st n rid T C (ddel ix ins) c0) as [c1 r]. cbn [fst snd] in *. split; [eapply flex_step; eauto|exact E1].
  - cbn [logpdf]. assert (AG : forall rid T C ins, agrees arr (logpdf_st n rid T C ins) (logpdf arr rid T C ins)).
    { intros rid' T' C' ins' a1 T1. destruct (IH rid' T' C' ins' a1) as [T2 E2]; [eapply touched_fits; eauto|].
      split; [eapply touched_trans; eauto|]. rewrite E2. rewrite (touched_logpdf _ _ T1). reflexivity. }
    destruct (mix_agrees (logpdf_st n) arr AG div (outputs arr) r2c rid T C ins arr (td_same arr)) as [T1 E1].
    destruct (mix_logpdf_st (logpdf_st n) div (outputs arr) r2c rid T C ins arr) as [a' r]. cbn [fst snd] in *.
    split; [apply td_mix; exact T1|exact E1].
Qed.

(** ** The same with draws *)

Definition ragrees {A} (c : cgpm) (m : rcall A) (v : samp (out A)) : Prop :=
  forall c1, touched c c1 -> coupled (fun r v => touched c (fst r) /\ snd r = v) (m c1) v.

Lemma bind_ret : forall {A} (m : samp A), sbind m (fun a => Ret a) = m.
Proof. induction m; cbn; f_equal; try (extensionality x; auto). Qed.

Lemma ragrees_pure : forall {A} c (v : samp (out A)), ragrees c (rpure v) v.
Proof.
  intros A c v c1 T. unfold rpure. rewrite <- (bind_ret v) at 2. eapply coupled_bind; [apply coupled_refl|]. intros a a' <-. cbn. auto.
Qed.

Lemma ragrees_called : forall {A} c (m : call A) v, agrees c m v -> ragrees c (rcalled m) (Ret v).
Proof. intros A c m v H c1 T. cbn. apply H. exact T. Qed.

Lemma ragrees_bind : forall {A B} c (m : rcall A) v (k : A -> rcall B) w, ragrees c m v ->
  (forall a, ragrees c (k a) (w a)) -> ragrees c (rbind m k) (sobind v w).
Proof.
  intros A B c m v k w M K c1 T. unfold rbind, sobind. eapply coupled_bind; [exact (M c1 T)|].
  intros [c2 r] o [T1 E1]. cbn [fst snd] in *. subst o. destruct r as [a|e]; [apply K; exact T1|]. cbn. auto.
Qed.

Lemma ragrees_seq : forall {A X} c (f : X -> rcall A) v l, (forall x, In x l -> ragrees c (f x) (v x)) ->
  ragrees c (rseq (map f l)) (soseq (map v l)).
Proof.
  intros A X c f v l. induction l as [|x l IH]; intros H; cbn [map rseq soseq].
  - apply ragrees_pure.
  - apply ragrees_bind; [apply H; now left|]. intros a. apply ragrees_bind; [apply IH; intros; apply H; now right|].
    intros r. apply ragrees_pure.
Qed.

Lemma reach_child_agrees : forall {A} (f : rcall A) (v : cgpm -> samp (out A)) cs,
  (forall c, In c cs -> coupled (fun r v => touched c (fst r) /\ snd r = v) (f c) (v c)) ->
  coupled (fun r v => Forall2 touched cs (fst r) /\ snd r = v) (reach_child f cs) (soseq (map v cs)).
Proof.
  intros A f v cs. induction cs as [|c cs IH]; intros H; cbn [reach_child map soseq]; [cbn; split; [constructor|reflexivity]|].
  unfold sobind at 1. eapply coupled_bind; [apply H; now left|]. intros [c1 r] o [T E]. cbn [fst snd] in *. subst o. destruct r as [a|e].
  - unfold sobind. eapply coupled_bind; [apply IH; intros; apply H; now right|]. intros [cs1 r] o [F E]. cbn [fst snd] in *. subst o.
    destruct r; cbn; split; try (constructor; assumption); reflexivity.
  - cbn. split; [constructor; [exact T|apply F2_refl]|reflexivity].
Qed.

Lemma sobind_ret : forall {A B} (v : out A) (k : A -> samp (out B)), sobind (Ret v) k = match v with Ok a => k a | Err e => Ret (Err e) end.
Proof. reflexivity. Qed.

Lemma simulate_st_ok : forall n rid ts C ins N c, fits n c ->
  coupled (fun r v => touched c (fst r) /\ snd r = v) (simulate_st n rid ts C ins N c) (simulate c rid ts C ins N).
Proof.
  induction n as [|n IH]; intros rid ts C ins N c F; [contradiction|]. destruct c as [d|cs|ix cs r2i|ix b cs r2i|flex div arr r2c]; cbn [simulate_st fits] in *.
  - rewrite <- (bind_ret (simulate (CDist d) rid ts C ins N)). eapply coupled_bind; [apply coupled_refl|]. intros a a' <-. cbn. split; [apply td_same|reflexivity].
  - cbn [simulate]. unfold prod_simulate, sobind. rewrite map_map. eapply coupled_bind.
    + apply (reach_child_agrees (simulate_one_st (simulate_st n) rid ts C ins N)
         (fun c => simulate_one (outputs c) (inputs c) (simulate c) rid ts C ins N) cs).
      intros c Hc. unfold simulate_one_st, simulate_one. destruct (interl (outputs c) ts); [cbn; split; [apply td_same|reflexivity]|].
      apply IH. apply F. exact Hc.
    + intros [cs' r] o [F1 E]. cbn [fst snd] in *. subst o. destruct r; cbn; split; try (apply td_prod; exact F1); reflexivity.
  - cbn [simulate]. unfold finarr_simulate. destruct (lookup ix ins) as [i|]; [|cbn; split; [apply td_same|reflexivity]].
    rewrite (py_index_len (map simulate cs) cs) by apply map_length.
    destruct (py_index cs i) as [k|e]; [|cbn; split; [apply td_same|reflexivity]]. rewrite nth_map_error.
    destruct (nth_error cs k) as [c0|] eqn:E; [|cbn; split; [apply td_same|reflexivity]].
    rewrite <- (bind_ret (simulate c0 rid ts C (ddel ix ins) N)). eapply coupled_bind; [apply IH; apply F; apply nth_error_In in E; exact E|].
    intros r v [T1 E1]. cbn. split; [eapply fin_step; eauto|exact E1].
  - cbn [simulate]. unfold flexarr_simulate. destruct (lookup ix ins) as [i|]; [|cbn; split; [apply td_same|reflexivity]].
    destruct (get_cgpm b i cs) as [cs0 c0] eqn:G. destruct F as [Fb F].
    assert (FC : fits n c0 /\ match lookup i (map (fun p => let '(k, c') := p in (k, simulate c')) cs) with Some g => g | None => simulate b end = simulate c0).
    { rewrite lookup_dict_map. unfold get_cgpm in G. destruct (lookup i cs) as [c|] eqn:E; injection G as <- <-; cbn; eauto. }
    destruct FC as [FC EC]. rewrite EC. rewrite <- (bind_ret (simulate c0 rid ts C (ddel ix ins) N)).
    eapply coupled_bind; [apply (IH rid ts C (ddel ix ins) N c0 FC)|].
    intros r v [T1 E1]. cbn. split; [eapply flex_step; eauto|exact E1].
  - cbn [simulate]. assert (AG : forall rid T C ins, agrees arr (logpdf_st n rid T C ins) (logpdf arr rid T C ins)).
    { intros rid' T' C' ins' a1 T1. destruct (logpdf_st_ok n rid' T' C' ins' a1) as [T2 E2]; [eapply touched_fits; eauto|].
      split; [eapply touched_trans; eauto|]. rewrite E2. rewrite (touched_logpdf _ _ T1). reflexivity. }
    assert (SG : forall rid ts C ins N, ragrees arr (simulate_st n rid ts C ins N) (simulate arr rid ts C ins N)).
    { intros rid' ts' C' ins' N' a1 T1. rewrite <- (touched_simulate _ _ T1). eapply coupled_imp; [|apply IH; eapply touched_fits; eauto].
      intros r v [T2 E2]. split; [eapply touched_trans; eauto|exact E2]. }
    assert (ONE : forall N z, ragrees arr (mix_simulate_one_st (simulate_st n) (dist_o div) (outputs arr) rid ts C ins N z)
                              (mix_simulate_one (dist_o div) (outputs arr) (simulate arr) rid ts C ins N z)).
    { intros N' z. unfold mix_simulate_one_st, mix_simulate_one. apply ragrees_bind; [|intros; apply ragrees_pure].
      destruct (interl (outputs arr) ts); [apply ragrees_pure|apply SG]. }
    assert (X : ragrees arr (mix_simulate_st (logpdf_st n) (simulate_st n) div (outputs arr) r2c rid ts C ins N)
                            (mix_simulate div (outputs arr) r2c (logpdf arr) (simulate arr) rid ts C ins N)).
    { unfold mix_simulate_st, mix_simulate. cbv zeta.
      destruct (match rid with Some r => lookup r r2c | None => None end) as [z|].
      - destruct (oassert (negb (dmem (dist_o div) C))); [apply ONE|apply ragrees_pure].
      - destruct (lookup (dist_o div) C) as [z|].
        + destruct (dist_support div) as [sup|e]; [|apply ragrees_pure]. destruct (in_support z sup); [apply ONE|apply ragrees_pure].
        + set (K := fun (sup : list Z) (ws : list xr) => sobind (srepeat match N with None => 1%nat | Some O => 1%nat | Some n => n end (log_pflip ws))
            (fun is => sobind (soseq (map (fun p => mix_simulate_one (dist_o div) (outputs arr) (simulate arr) rid ts C ins (Some (snd p)) (vz (fst p)))
               (cluster_counts sup (map (fun i => nth i sup 0) is))))
             (fun l => Ret match N with Some _ => omap SMany (chain_samples l)
                | None => do ll <- chain_samples l; match ll with d :: _ => Ok (SOne d) | [] => Err IndexError end end))).
          match goal with |- ragrees _ _ ?v => replace v
            with (sobind (Ret (dist_support div)) (fun sup => sobind (Ret (oseq (map (fun z => mix_logpdf div (outputs arr) r2c (logpdf arr) rid [(dist_o div, vz z)] C ins) sup))) (K sup))) end.
          * apply ragrees_bind; [apply ragrees_pure|]. intros sup. apply ragrees_bind.
            -- apply ragrees_called. apply agrees_seq. intros z _. apply mix_agrees. exact AG.
            -- intros ws. unfold K.
               apply ragrees_bind; [apply ragrees_pure|]. intros is. apply ragrees_bind; [apply ragrees_seq; intros; apply ONE|].
               intros l. apply ragrees_pure.
          * rewrite sobind_ret. destruct (dist_support div) as [sup|e]; [|reflexivity]. cbn [obind]. rewrite sobind_ret.
            destruct (oseq _); reflexivity. }
    rewrite <- (bind_ret (mix_simulate div _ _ _ _ _ _ _ _ _)). eapply coupled_bind; [exact (X arr (td_same arr))|].
    intros r v [T1 E1]. cbn. split; [apply td_mix; exact T1|exact E1].
Qed.

(** ** Scores *)

Lemma touched_wf : forall c, wf c -> forall c', touched c c' -> wf c'.
Proof.
  induction 1 as [d D|cs Wc IH ND|div cs r2i r2c D F SU NE Wc IH O|div b cs r2i r2c D HS Wb IHb NI ND Wc IH O]; intros c' T.
  - apply touched_dist in T. subst. now constructor.
  - apply touched_prod in T. destruct T as (cs' & -> & TT). constructor.
    + clear ND. induction TT as [|x y l l' T TT IHT]; [intros ? []|]. intros c [<-|Hc]; [apply (IH x); [now left|exact T]|].
      apply IHT; auto; intros; [apply Wc|apply (IH c0)]; auto; now right.
    + replace (flat_map outputs cs') with (flat_map outputs cs); [exact ND|]. clear - TT. induction TT as [|x y l l' T TT IHT]; [reflexivity|].
      cbn. now rewrite IHT, (touched_outputs _ _ T).
  - apply touched_mix in T. destruct T as (a' & -> & T). apply touched_fin in T. destruct T as (cs' & -> & TT).
    assert (L := F2_length _ _ _ TT). constructor; auto.
    + rewrite SU. now rewrite L.
    + intros ->. destruct cs; [congruence|discriminate].
    + clear - TT IH. induction TT as [|x y l l' T TT IHT]; [intros ? []|]. intros c [<-|Hc]; [apply (IH x); [now left|exact T]|].
      apply IHT; auto; intros; apply (IH c0); auto; now right.
    + assert (X : forall c, In c cs' -> exists c0, In c0 cs /\ touched c0 c).
      { clear - TT. induction TT as [|x y l l' T TT IHT]; [intros ? []|]. intros c [<-|Hc]; [exists x; split; [now left|exact T]|].
        destruct (IHT c Hc) as (c0 & A & B). exists c0. split; [now right|exact B]. }
      intros c Hc. destruct (X c Hc) as (c0 & H0 & T0). rewrite (touched_outputs _ _ T0). destruct (O c0 H0) as [O1 O2]. split; [|exact O2].
      rewrite O1. destruct TT as [|x y l l' T TT]; [contradiction|]. cbn. symmetry. exact (touched_outputs _ _ T).
  - apply touched_mix in T. destruct T as (a' & -> & T). apply touched_flex in T. destruct T as (cs' & -> & N' & A & B).
    specialize (N' ND). assert (X : forall k c, In (k, c) cs' -> exists c0, touched c0 c /\ (In (k, c0) cs \/ c0 = b)).
    { intros k c Hc. apply In_lookup in Hc; [|exact N']. destruct (lookup k cs) as [c0|] eqn:E.
      - destruct (A k c0 E) as (c1 & E1 & T1). rewrite Hc in E1. injection E1 as <-. exists c0. split; [exact T1|left; now apply lookup_In].
      - exists b. split; [exact (B k c Hc E)|now right]. }
    constructor; auto.
    + intros k c Hc. destruct (X k c Hc) as (c0 & T0 & [H0| ->]); eauto.
    + intros k c Hc. destruct (X k c Hc) as (c0 & T0 & [H0| ->]); rewrite (touched_outputs _ _ T0); eauto.
Qed.

Lemma touched_tidy : forall c, wf c -> forall c', touched c c' -> (tidy c -> tidy c') /\ (vacant c -> vacant c').
Proof.
  induction 1 as [d D|cs Wc IH ND|div cs r2i r2c D F SU NE Wc IH O|div b cs r2i r2c D HS Wb IHb NI ND Wc IH O]; intros c' T.
  - apply touched_dist in T. subst. auto.
  - apply touched_prod in T. destruct T as (cs' & -> & TT). rewrite !tidy_prod. cbn [vacant]. rewrite !each_In. clear ND.
    induction TT as [|x y l l' T TT IHT]; [auto|].
    destruct IHT as [I1 I2]; [intros; apply Wc; now right|intros; apply (IH c); auto; now right|].
    destruct (IH x (or_introl eq_refl) y T) as [J1 J2].
    split; intros H c [<-|Hc]; auto; [apply J1; apply H; now left|apply I1; auto; intros; apply H; now right
      |apply J2; apply H; now left|apply I2; auto; intros; apply H; now right].
  - apply touched_mix in T. destruct T as (a' & -> & T). apply touched_fin in T. destruct T as (cs' & -> & TT).
    unfold tidy. cbn [flexible vacant]. rewrite !each_In. split; [tauto|]. intros [V1 V2]. split; [exact V1|].
    clear - TT IH V2. induction TT as [|x y l l' T TT IHT]; [intros ? []|]. intros c [<-|Hc]; [apply (IH x); auto; [now left|apply V2; now left]|].
    apply IHT; auto; intros; [apply (IH c0); auto|apply V2]; now right.
  - apply touched_mix in T. destruct T as (a' & -> & T). apply touched_flex in T. destruct T as (cs' & -> & N' & A & B).
    specialize (N' ND). assert (X : forall k c, In (k, c) cs' -> exists c0, touched c0 c /\ (In (k, c0) cs \/ c0 = b)).
    { intros k c Hc. apply In_lookup in Hc; [|exact N']. destruct (lookup k cs) as [c0|] eqn:E.
      - destruct (A k c0 E) as (c1 & E1 & T1). rewrite Hc in E1. injection E1 as <-. exists c0. split; [exact T1|left; now apply lookup_In].
      - exists b. split; [exact (B k c Hc E)|now right]. }
    split.
    + change (tidy (CFlexArr (dist_o div) b cs r2i) -> tidy (CFlexArr (dist_o div) b cs' r2i)). rewrite !tidy_flex.
      intros (V & Tb & Tc). split; [exact V|split; [exact Tb|]]. intros k c Hc. destruct (X k c Hc) as (c0 & T0 & [H0| ->]).
      * apply (IH k c0 H0 c T0). eauto.
      * apply (IHb c T0). exact Tb.
    + cbn [vacant]. rewrite !each_In. intros (V1 & V2 & V3). split; [exact V1|split; [exact V2|]]. intros [k c] Hc.
      destruct (X k c Hc) as (c0 & T0 & [H0| ->]).
      * apply (IH k c0 H0 c T0). exact (V3 _ H0).
      * apply (IHb c T0). exact V2.
Qed.

Lemma rsum_pop : forall {V} (f : V -> R) (d : dict val V) k v, NoDup (keys d) -> lookup k d = Some v ->
  rsum (map (fun p => let '(_, c) := p in f c) d) = (f v + rsum (map (fun p => let '(_, c) := p in f c) (ddel k d)))%R.
Proof.
  intros V f d k v. induction d as [|[k' w] d IH]; intros N E; [discriminate|]. cbn [lookup ddel map] in *.
  inversion N as [|? ? N1 N2]; subst. destruct (eq_dec k k') as [->|NE].
  - injection E as <-. reflexivity.
  - cbn [map]. change (rsum (?x :: ?l)) with (x + rsum l)%R. rewrite (IH N2 E). lra.
Qed.

Lemma rsum_extra : forall {V} (f : V -> R) (d d' : dict val V), NoDup (keys d) -> NoDup (keys d') ->
  (forall k v, lookup k d = Some v -> exists v', lookup k d' = Some v' /\ f v' = f v) ->
  (forall k v', lookup k d' = Some v' -> lookup k d = None -> f v' = 0%R) ->
  rsum (map (fun p => let '(_, c) := p in f c) d') = rsum (map (fun p => let '(_, c) := p in f c) d).
Proof.
  intros V f d. induction d as [|[k v] d IH]; intros d' N N' A B.
  - cbn. apply rsum_zero. intros x Hx. apply in_map_iff in Hx. destruct Hx as ([k c] & <- & Hc). apply (B k c); [now apply In_lookup|reflexivity].
  - inversion N as [|? ? N1 N2]; subst. destruct (A k v) as (v' & E' & F'); [cbn; destruct (eq_dec k k); [reflexivity|congruence]|].
    rewrite (rsum_pop f d' k v' N' E'). cbn [map]. change (rsum (?x :: ?l)) with (x + rsum l)%R. rewrite F'. f_equal. apply IH; auto.
    + now apply NoDup_keys_ddel.
    + intros k1 v1 E1. rewrite lookup_ddel by exact N'. destruct (eq_dec k1 k) as [->|NE].
      * exfalso. apply N1. eapply lookup_Some_keys. exact E1.
      * apply A. cbn. destruct (eq_dec k1 k); [contradiction|exact E1].
    + intros k1 v1. rewrite lookup_ddel by exact N'. destruct (eq_dec k1 k) as [->|NE]; [discriminate|]. intros E1 E2. apply (B k1); [exact E1|].
      cbn. destruct (eq_dec k1 k); [contradiction|exact E2].
Qed.

Lemma touched_total : forall c, wf c -> tidy c -> forall c', touched c c' -> total_score c' = total_score c.
Proof.
  induction 1 as [d D|cs Wc IH ND|div cs r2i r2c D F SU NE Wc IH O|div b cs r2i r2c D HS Wb IHb NI ND Wc IH O]; intros TD c' T.
  - apply touched_dist in T. now subst.
  - apply touched_prod in T. destruct T as (cs' & -> & TT). cbn [total_score]. rewrite tidy_prod in TD. f_equal. clear ND.
    induction TT as [|x y l l' T TT IHT]; [reflexivity|]. cbn [map]. f_equal; [apply IH; auto; [now left|apply TD; now left]|].
    apply IHT; intros; [apply Wc|apply IH|apply TD]; auto; now right.
  - destruct TD as [[] _].
  - apply touched_mix in T. destruct T as (a' & -> & T). apply touched_flex in T. destruct T as (cs' & -> & N' & A & B).
    specialize (N' ND). cbn [total_score]. f_equal.
    change (tidy (CFlexArr (dist_o div) b cs r2i)) in TD. rewrite tidy_flex in TD. destruct TD as (V & Tb & Tc).
    apply rsum_extra; auto.
    + intros k c E. destruct (A k c E) as (c1 & E1 & T1). exists c1. split; [exact E1|]. apply lookup_In in E. eapply IH; eauto.
    + intros k c E E0. apply total_vacant; [eapply touched_wf; eauto|]. apply (touched_tidy b Wb c); [eauto|exact V].
Qed.

Lemma touched_score : forall c c', wf c -> tidy c -> touched c c' -> score c' = score c.
Proof.
  intros c c' W TD T. destruct (proj1 (touched_tidy c W c' T) TD) as [F' _]. destruct TD as [F0 C0].
  rewrite (score_total c W F0), (score_total c' (touched_wf c W c' T) F'). rewrite (touched_total c W (conj F0 C0) c' T). reflexivity.
Qed.

(** ** Coupling *)

Lemma coupled_sym : forall {A B} (Q : A -> B -> Prop) m m', coupled Q m m' -> coupled (fun b a => Q a b) m' m.
Proof.
  intros A B Q. induction m as [a|ws k IH|l k IH|n p k IH|lo hi k IH|n k IH]; intros [b|ws' k'|l' k'|n' p' k'|lo' hi' k'|n' k']; cbn; try tauto.
  - intros [-> X]. split; [reflexivity|]. intros. apply IH. auto.
  - intros [-> X]. split; [reflexivity|]. intros. apply IH. auto.
  - intros (-> & -> & X). split; [reflexivity|split; [reflexivity|]]. intros. apply IH. auto.
  - intros (-> & -> & X). split; [reflexivity|split; [reflexivity|]]. intros. apply IH. auto.
  - intros [-> X]. split; [reflexivity|]. intros. apply IH. auto.
Qed.

Lemma coupled_iff : forall {A} (m m' : samp A), coupled eq m m' -> forall P, (always m P <-> always m' P) /\ (possible m P <-> possible m' P).
Proof.
  intros A. induction m as [a|ws k IH|l k IH|n p k IH|lo hi k IH|n k IH]; intros [b|ws' k'|l' k'|n' p' k'|lo' hi' k'|n' k'] H P; cbn in *; try tauto.
  - now subst.
  - destruct H as [-> X]. split; split.
    + intros H i L Q. apply (IH i _ (X i L Q) P). auto.
    + intros H i L Q. apply (IH i _ (X i L Q) P). auto.
    + intros (i & L & Q & H). exists i. split; [exact L|split; [exact Q|]]. now apply (IH i _ (X i L Q) P).
    + intros (i & L & Q & H). exists i. split; [exact L|split; [exact Q|]]. now apply (IH i _ (X i L Q) P).
  - destruct H as [-> X]. split; split.
    + intros H q L. apply (IH q _ (X q L) P). auto.
    + intros H q L. apply (IH q _ (X q L) P). auto.
    + intros (q & L & H). exists q. split; [exact L|]. now apply (IH q _ (X q L) P).
    + intros (q & L & H). exists q. split; [exact L|]. now apply (IH q _ (X q L) P).
  - destruct H as (-> & -> & X). split; split.
    + intros H q. apply (IH q _ (X q) P). auto.
    + intros H q. apply (IH q _ (X q) P). auto.
    + intros (q & H). exists q. now apply (IH q _ (X q) P).
    + intros (q & H). exists q. now apply (IH q _ (X q) P).
  - destruct H as (-> & -> & X). split; split.
    + intros H q L. apply (IH q _ (X q L) P). auto.
    + intros H q L. apply (IH q _ (X q L) P). auto.
    + intros (q & L & H). exists q. split; [exact L|]. now apply (IH q _ (X q L) P).
    + intros (q & L & H). exists q. split; [exact L|]. now apply (IH q _ (X q L) P).
  - destruct H as [-> X]. split; split.
    + intros H q L. apply (IH q _ (X q L) P). auto.
    + intros H q L. apply (IH q _ (X q L) P). auto.
    + intros (q & L & H). exists q. split; [exact L|]. now apply (IH q _ (X q L) P).
    + intros (q & L & H). exists q. split; [exact L|]. now apply (IH q _ (X q L) P).
Qed.

Lemma coupled_expect : forall {A} (m m' : samp A), finite_choices m -> coupled eq m m' -> forall f, expect m f = expect m' f.
Proof.
  intros A. induction m as [a|ws k IH|l k IH|n p k IH|lo hi k IH|n k IH]; intros [b|ws' k'|l' k'|n' p' k'|lo' hi' k'|n' k'] F H f; cbn in *; try tauto.
  - now subst.
  - destruct H as [-> X]. destruct F as (F1 & F2 & F3). f_equal. apply map_ext_in. intros i Hi. apply in_seq in Hi.
    assert (Li : (i < List.length ws)%nat) by lia. destruct (F1 (nth i ws 0%R) (nth_In _ _ Li)) as [P|Z].
    + rewrite (IH i (k' i) (F3 i Li) (X i Li P)). reflexivity.
    + rewrite <- Z. unfold Rdiv. rewrite !Rmult_0_l. reflexivity.
Qed.

(** ** Programs *)

Lemma scored_observe : forall qs c rid obs ins, (In QScore qs -> wf c /\ tidy c) ->
  always (observe c rid obs ins) (fun r => In QScore qs -> wf (fst r) /\ tidy (fst r)).
Proof.
  intros qs c rid obs ins W. assert (D : In QScore qs \/ ~ In QScore qs).
  { clear. induction qs as [|q qs IH]; [now right|]. destruct IH; [left; now right|]. destruct q; try (right; intros [X|X]; [discriminate|contradiction]).
    left. now left. }
  destruct D as [D|D]; [|apply always_True; intros r D'; contradiction].
  destruct (W D) as [W1 W2]. assert (X := observe_wf c W1 rid obs ins). assert (Y := observe_tidy c W2 rid obs ins).
  eapply always_imp; [|exact (always_and _ _ _ X Y)]. intros r [[A _] B] _. auto.
Qed.

Lemma run_effects_ok : forall qs c c', touched c c' -> (In QScore qs -> wf c /\ tidy c) ->
  coupled eq (run_effects qs c') (run_pure qs c).
Proof.
  induction qs as [|q qs IH]; intros c c' T W; [reflexivity|].
  assert (W0 : In QScore qs -> wf c /\ tidy c) by (intros; apply W; now right).
  destruct q as [rid T0 C0 ins|rid ts C0 ins N| |rid obs ins|rid]; cbn [run_effects run_pure].
  - destruct (logpdf_st_ok (depth c') rid T0 C0 ins c' (fits_depth c')) as [T1 E1].
    destruct (logpdf_st (depth c') rid T0 C0 ins c') as [c1 r]. cbn [fst snd] in *. subst r.
    eapply coupled_bind; [apply (IH c c1); [eapply touched_trans; eauto|exact W0]|]. intros l l' <-. cbn.
    rewrite (touched_logpdf _ _ T). reflexivity.
  - rewrite <- (touched_simulate _ _ T). eapply coupled_bind; [apply simulate_st_ok; apply fits_depth|]. intros r v [T1 E1]. cbn beta.
    eapply coupled_bind; [apply (IH c); [eapply touched_trans; eauto|exact W0]|]. intros l l' <-. cbn. now subst.
  - destruct W as [W1 W2]; [now left|]. eapply coupled_bind; [apply (IH c c'); auto|]. intros l l' <-. cbn. now rewrite (touched_score c c').
  - assert (X := coupled_always _ (fun r => In QScore qs -> wf (fst r) /\ tidy (fst r)) _ _ (touched_observe c c' rid obs ins T)).
    eapply coupled_bind; [apply (coupled_sym _ _ _ (X (scored_observe qs c rid obs ins W0)))|].
    intros r' r [[T1 E1] W1]. cbn beta. eapply coupled_bind; [apply (IH (fst r) (fst r')); auto|]. intros l l' <-. cbn. now rewrite E1.
  - assert (X := touched_unobserve c c' rid T). assert (W1 : In QScore qs -> wf (fst (unobserve c rid)) /\ tidy (fst (unobserve c rid))).
    { intros Q. destruct (W0 Q) as [A B]. split; [apply (unobserve_wf c A)|apply unobserve_tidy; exact B]. }
    destruct (unobserve c' rid) as [c1' r1'], (unobserve c rid) as [c1 r1]. cbn [fst snd] in *. destruct X as [X ->].
    eapply coupled_bind; [apply (IH c1 c1'); auto|]. intros l l' <-. reflexivity.
Qed.
