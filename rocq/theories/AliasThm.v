(** Proofs about metadata and sharing. *)
From Coq Require Import List ZArith QArith Qcanon Reals Bool String Lia.
From Verif Require Import Base Xr Samp Lgamma Prims Cgpm Lib SpecPrims PrimsInv SpecComp CompInv CompDens CompThm Meta MetaThm Alias SpecMeta.
Import ListNotations.
Local Open Scope Z_scope.

(** The containers an object changes, and those it shares. *)
Definition own (o : obj) : list loc :=
  match o with
  | OCrp _ data _ counts _ => [data; counts]
  | OCat _ _ data _ counts _ => [data; counts]
  | OBer _ data _ (NArr l) _ _ => [data; l]
  | OBer _ data _ (NInt _) _ _ => [data]
  | OPoi _ data _ _ _ _ _ => [data]
  | ONrm _ data _ _ _ _ _ _ _ => [data]
  | ONuc _ data _ _ _ _ _ _ => [data]
  end.
Definition shared (o : obj) : list loc := match o with ONuc _ _ _ _ _ _ _ hy => [hy] | _ => [] end.
Definition sshared (s : snap) : list loc :=
  match s with SNuc _ _ _ _ _ _ _ hy => [hy] | SBer _ _ _ (NArr l) _ _ => [l] | _ => [] end.
Definition plain (s : snap) : Prop := match s with SBer _ _ _ (NArr _) _ _ => False | _ => True end.
Definition unloaded (o : obj) : Prop := match o with OBer _ _ _ (NArr _) _ _ => False | _ => True end.

Definition agree (L : list loc) (h h' : heap) : Prop := forall l, In l L -> nth_error h' l = nth_error h l.

Lemma denote_agree : forall o h h', agree (own o ++ shared o) h h' -> denote h' o = denote h o.
Proof.
  intros o h h' A. unfold agree in A. destruct o as [| |? ? ? []| | |]; cbn in *;
    unfold get_ints, get_cells, get_array, get_hypers; rewrite ?A by tauto; reflexivity.
Qed.

Definition sden (h : heap) (s : snap) : option dist :=
  match s with
  | SCrp o data N counts alpha => Some (DCrp (mkCrp o (dict_of data) N (dict_of counts) alpha))
  | SCat o k data N counts alpha => Some (DCat (mkCat o k (dict_of data) N counts alpha))
  | SBer o data N x_sum alpha beta =>
      match get_num h x_sum with Some z => Some (DBer (mkBer o (dict_of data) N z alpha beta)) | None => None end
  | SPoi o data N sum_x slf a b => Some (DPoi (mkPoi o (dict_of data) N sum_x slf a b))
  | SNrm o data N sum_x sum_x_sq m r s nu => Some (DNrm (mkNrm o (dict_of data) N sum_x sum_x_sq m r s nu))
  | SNuc o data N sum_x sum_x_sq mu var hypers =>
      match get_hypers h hypers with Some hy => Some (DNuc (mkNuc o (dict_of data) N sum_x sum_x_sq mu var hy)) | None => None end
  end.

Lemma nth_new0 : forall {A} (h l : list A) x, nth_error (h ++ x :: l) (List.length h) = Some x.
Proof. intros. rewrite nth_error_app2, Nat.sub_diag; [reflexivity|lia]. Qed.

Lemma nth_new1 : forall {A} (h l : list A) x y, nth_error (h ++ x :: y :: l) (S (List.length h)) = Some y.
Proof. intros. rewrite nth_error_app2; [|lia]. replace (S (List.length h) - List.length h)%nat with 1%nat by lia. reflexivity. Qed.

Lemma recorded_sden : forall h s, agree (sshared s) h h -> (forall l, In l (sshared s) -> (l < List.length h)%nat) ->
  recorded h s = sden h s.
Proof.
  intros h s _ LT. destruct s; unfold recorded; cbn [load sden]; try destruct (get_num h x_sum) eqn:E;
    cbn [denote get_num]; unfold get_ints, get_cells, get_array, get_hypers; rewrite ?nth_new0, ?nth_new1; try reflexivity.
  rewrite nth_error_app1; [reflexivity|]. apply LT. cbn. now left.
Qed.

Lemma sden_agree : forall s h h', agree (sshared s) h h' -> sden h' s = sden h s.
Proof.
  intros s h h' A. unfold agree in A. destruct s as [| |? ? ? []| | |]; cbn in *; unfold get_hypers; rewrite ?A by tauto; reflexivity.
Qed.

(** ** Methods keep the class, and only set_hypers changes the hyperparameters of NormalUC *)

Definition cls (d : dist) : nat :=
  match d with DCrp _ => 0 | DCat _ => 1 | DBer _ => 2 | DPoi _ => 3 | DNrm _ => 4 | DNuc _ => 5 end.

Ltac cases := repeat match goal with
  | |- context[match ?x with _ => _ end] => lazymatch x with context[match _ with _ => _ end] => fail | _ => destruct x end
  end; try reflexivity.

Lemma after_cls : forall d c, cls (after d c) = cls d.
Proof.
  intros [s|s|s|s|s|s] [rid obs ins|rid|h|p]; cbn [after dist_observe dist_unobserve dist_set_hypers dist_set_params];
    unfold crp_observe, cat_observe, ber_observe, poi_observe, nrm_observe, nuc_observe,
      crp_unobserve, cat_unobserve, ber_unobserve, poi_unobserve, nrm_unobserve, nuc_unobserve; cases.
Qed.

Lemma after_nuc : forall s c, (forall h, c <> SetHypers h) ->
  match after (DNuc s) c with DNuc s' => nuc_hypers s' = nuc_hypers s | _ => False end.
Proof.
  intros s [rid obs ins|rid|h|p] H; [| |exfalso; apply (H h); reflexivity|]; cbn [after dist_observe dist_unobserve dist_set_hypers dist_set_params];
    unfold nuc_observe, nuc_unobserve.
  - destruct (base_observe _ _ _ _ _); [|reflexivity]. destruct (lookup (nuc_o s) obs) as [[|q]|]; reflexivity.
  - destruct (lookup rid (nuc_data s)) as [[|q]|]; reflexivity.
  - destruct (do _ <- hpos "var"%string p; do mu <- dget "mu"%string p; do var <- dget "var"%string p; Ok (mu, var)) as [[mu var]|e]; reflexivity.
Qed.

(** ** In-place updates *)

Lemma put_other : forall h l c k, k <> l -> nth_error (put h l c) k = nth_error h k.
Proof.
  unfold put. induction h as [|x h IH]; intros l c k N; [destruct l; reflexivity|]. destruct l, k; cbn; auto; try congruence.
Qed.

Lemma put_same : forall h l c, (l < List.length h)%nat -> nth_error (put h l c) l = Some c.
Proof.
  unfold put. induction h as [|x h IH]; intros l c H; cbn in H; [lia|]. destruct l; cbn; [reflexivity|]. apply IH. lia.
Qed.

Lemma put_length : forall h l c, List.length (put h l c) = List.length h.
Proof. intros. apply set_nth_length. Qed.

Lemma get_lt : forall (h : heap) l x, nth_error h l = Some x -> (l < List.length h)%nat.
Proof. intros h l x E. apply nth_error_Some. congruence. Qed.

Lemma denote_lt : forall h o d, denote h o = Some d -> forall l, In l (own o ++ shared o) -> (l < List.length h)%nat.
Proof.
  intros h o d E l Hl. destruct o as [| |? ? ? []| | |]; cbn in E, Hl;
    unfold get_ints, get_cells, get_array, get_hypers, get_num in E;
    repeat match type of E with context[nth_error h ?k] => let F := fresh "F" in destruct (nth_error h k) as [[]|] eqn:F; try discriminate E end;
    repeat destruct Hl as [<-|Hl]; try contradiction; eauto using get_lt.
Qed.

(** Nothing but [SetHypers] on a NormalUC rewrites a shared container. *)
Definition quiet (d d' : dist) : Prop :=
  match d, d' with DNuc s, DNuc s' => nuc_hypers s' = nuc_hypers s | _, _ => True end.

Lemma store_ok : forall h o d d', denote h o = Some d -> cls d' = cls d -> quiet d d' ->
  NoDup (own o) -> (forall l, In l (shared o) -> ~ In l (own o)) ->
  forall h' o', store h o d' = (h', o') ->
  denote h' o' = Some d' /\ own o' = own o /\ shared o' = shared o /\ (unloaded o -> unloaded o') /\
  List.length h' = List.length h /\ (forall l, ~ In l (own o) -> nth_error h' l = nth_error h l).
Proof.
  intros h o d d' E C Q ND SH h' o' ST. assert (LT := denote_lt _ _ _ E).
  destruct o as [o data N counts alpha|o k data N counts alpha|o data N [z|l] alpha beta|o data N sx sl a b|o data N sx sx2 m r s nu|o data N sx sx2 mu var hy];
    cbn [denote get_num] in E; unfold get_ints, get_cells, get_array, get_hypers in E;
    repeat match type of E with context[nth_error h ?k] => let F := fresh "F" in destruct (nth_error h k) as [[]|] eqn:F; try discriminate E end;
    injection E as <-; destruct d' as [s'|s'|s'|s'|s'|s']; try discriminate C; cbn [store put_num] in ST; injection ST as <- <-;
    cbn [own shared unloaded] in *; rewrite ?put_length.
  - assert (N1 : data <> counts) by (inversion ND; subst; intros ->; cbn in *; tauto).
    split; [|repeat split; auto; intros l NI; rewrite !put_other; cbn in NI; auto].
    cbn [denote]. unfold get_ints. rewrite put_other, put_same, put_same by (rewrite ?put_length; auto; apply LT; cbn; auto).
    destruct s'; reflexivity.
  - assert (N1 : data <> counts) by (inversion ND; subst; intros ->; cbn in *; tauto).
    split; [|repeat split; auto; intros l0 NI; rewrite !put_other; cbn in NI; auto].
    cbn [denote]. unfold get_cells, get_array. rewrite put_other, put_same, put_same by (rewrite ?put_length; auto; apply LT; cbn; auto).
    destruct s'; reflexivity.
  - split; [|repeat split; auto; intros l NI; rewrite !put_other; cbn in NI; auto].
    cbn [denote get_num]. unfold get_cells. rewrite put_same by (apply LT; cbn; auto). destruct s'; reflexivity.
  - assert (N1 : data <> l) by (inversion ND; subst; intros ->; cbn in *; tauto).
    split; [|repeat split; auto; intros l0 NI; rewrite !put_other; cbn in NI; auto].
    cbn [denote get_num]. unfold get_cells. rewrite put_other, put_same, put_same by (rewrite ?put_length; auto; apply LT; cbn; auto).
    destruct s'; reflexivity.
  - split; [|repeat split; auto; intros l NI; rewrite !put_other; cbn in NI; auto].
    cbn [denote]. unfold get_cells. rewrite put_same by (apply LT; cbn; auto). destruct s'; reflexivity.
  - split; [|repeat split; auto; intros l NI; rewrite !put_other; cbn in NI; auto].
    cbn [denote]. unfold get_cells. rewrite put_same by (apply LT; cbn; auto). destruct s'; reflexivity.
  - assert (N1 : data <> hy) by (intros ->; apply (SH hy); cbn; auto).
    split.
    + cbn [denote]. unfold get_cells, get_hypers. rewrite put_other, put_same, put_same by (rewrite ?put_length; auto; apply LT; cbn; auto).
      destruct s'; reflexivity.
    + repeat split; auto. intros l NI. cbn in NI, Q. destruct (Nat.eq_dec l hy) as [->|NE].
      * rewrite put_same by (rewrite put_length; apply LT; cbn; auto). rewrite F0, Q. reflexivity.
      * rewrite !put_other; auto.
Qed.

(** ** The invariant *)

Definition sound (h : heap) (os : list obj) (ss : list snap) (v : values_world) : Prop :=
  Forall2 (fun o x => denote h o = Some (fst x) /\ dinv (fst x) /\ (snd x = false -> unloaded o)) os (fst v) /\
  Forall2 (fun s d => sden h s = Some d /\ plain s /\ dinv d) ss (snd v) /\
  NoDup (flat_map own os) /\
  (forall l, In l (flat_map own os) -> (l < List.length h)%nat) /\
  (forall l, In l (flat_map shared os ++ flat_map sshared ss) -> (l < List.length h)%nat /\ ~ In l (flat_map own os)).

Lemma F2_nth : forall {A B} (P : A -> B -> Prop) l l' n a, Forall2 P l l' -> nth_error l n = Some a ->
  exists b, nth_error l' n = Some b /\ P a b.
Proof.
  intros A B P l l' n a F. revert n. induction F as [|x y l l' H F IH]; intros n E; [destruct n; discriminate|].
  destruct n; cbn in *; [injection E as <-; eauto|eauto].
Qed.

Lemma F2_nth_none : forall {A B} (P : A -> B -> Prop) l l' n, Forall2 P l l' -> nth_error l n = None -> nth_error l' n = None.
Proof.
  intros A B P l l' n F. revert n. induction F; intros n E; [destruct n; reflexivity|]. destruct n; cbn in *; [discriminate|auto].
Qed.

Lemma F2_imp : forall {A B} (P Q : A -> B -> Prop) l l', (forall a b, In a l -> P a b -> Q a b) -> Forall2 P l l' -> Forall2 Q l l'.
Proof.
  intros A B P Q l l' H F. induction F; constructor; auto; [apply H; auto; now left|]. apply IHF. intros. apply H; auto. now right.
Qed.

Lemma NoDup_app_intro : forall {A} (l l' : list A), NoDup l -> NoDup l' -> (forall x, In x l -> ~ In x l') -> NoDup (l ++ l').
Proof.
  induction l as [|a l IH]; intros l' N N' D; [exact N'|]. inversion N; subst. cbn. constructor.
  - intros HI. apply in_app_or in HI. destruct HI as [HI|HI]; [auto|]. apply (D a); [now left|exact HI].
  - apply IH; auto. intros x Hx. apply D. now right.
Qed.

Lemma NoDup_app_l : forall {A} (l l' : list A), NoDup (l ++ l') -> NoDup l.
Proof. intros. apply NoDup_app_parts in H. apply H. Qed.

Lemma NoDup_app_r : forall {A} (l l' : list A), NoDup (l ++ l') -> NoDup l'.
Proof. intros. apply NoDup_app_parts in H. apply H. Qed.

Lemma grow : forall h os ss v extra o x, sound h os ss v ->
  denote (h ++ extra) o = Some (fst x) -> dinv (fst x) -> (snd x = false -> unloaded o) -> NoDup (own o) ->
  (forall l, In l (own o) -> (List.length h <= l)%nat) ->
  (forall l, In l (shared o) -> ~ In l (own o) /\ (In l (flat_map shared os ++ flat_map sshared ss) \/ (List.length h <= l)%nat)) ->
  sound (h ++ extra) (os ++ [o]) ss (fst v ++ [x], snd v).
Proof.
  intros h os ss v extra o x (F1 & F2 & ND & LT & SH) E D U NDo GEo SHo.
  assert (LTo := denote_lt _ _ _ E).
  assert (AG : forall l, (l < List.length h)%nat -> nth_error (h ++ extra) l = nth_error h l) by (intros; apply nth_error_app1; assumption).
  assert (LEN : (List.length h <= List.length (h ++ extra))%nat) by (rewrite app_length; lia).
  split; [|split; [|split; [|split]]].
  - cbn [fst]. apply Forall2_app; [|constructor; [split; [exact E|split; [exact D|exact U]]|constructor]]. eapply F2_imp; [|exact F1]. intros o0 x0 HI (A & B & C). split; [|auto].
    rewrite <- A. apply denote_agree. intros l Hl. apply AG. apply in_app_or in Hl. destruct Hl as [Hl|Hl].
    + apply LT. apply in_flat_map. eauto.
    + apply SH. apply in_or_app. left. apply in_flat_map. eauto.
  - cbn [snd]. eapply F2_imp; [|exact F2]. intros s0 d0 HI (A & B & C). split; [|auto]. rewrite <- A. apply sden_agree.
    intros l Hl. apply AG. apply SH. apply in_or_app. right. apply in_flat_map. eauto.
  - rewrite flat_map_app. cbn. rewrite app_nil_r. apply NoDup_app_intro; auto. intros l H1 H2. apply LT in H1. apply GEo in H2. lia.
  - intros l Hl. rewrite flat_map_app in Hl. cbn in Hl. rewrite app_nil_r in Hl. apply in_app_or in Hl.
    destruct Hl as [Hl|Hl]; [apply LT in Hl; lia|]. apply LTo. apply in_or_app. now left.
  - intros l Hl. rewrite !flat_map_app. rewrite !flat_map_app in Hl. cbn [flat_map] in *. rewrite app_nil_r in *.
    assert (H : In l (flat_map shared os ++ flat_map sshared ss) \/ In l (shared o)).
    { apply in_app_or in Hl. destruct Hl as [Hl|Hl]; [apply in_app_or in Hl; destruct Hl as [Hl|Hl]; auto|]; left; apply in_or_app; auto. }
    assert (OLD : In l (flat_map shared os ++ flat_map sshared ss) -> (l < List.length (h ++ extra))%nat /\ ~ In l (flat_map own os ++ own o)).
    { intros HO. destruct (SH l HO) as [A B]. split; [lia|]. intros C. apply in_app_or in C. destruct C as [C|C]; [auto|]. apply GEo in C. lia. }
    destruct H as [H|H]; [auto|]. destruct (SHo l H) as [A [B|B]]; [auto|]. split; [apply LTo; apply in_or_app; auto|].
    intros C. apply in_app_or in C. destruct C as [C|C]; [apply LT in C; lia|auto].
Qed.

Lemma create_ok : forall h os ss v d, sound h os ss v -> dinv d ->
  let (h', o) := create h d in sound h' (os ++ [o]) ss (fst v ++ [(d, false)], snd v).
Proof.
  intros h os ss v d S D.
  destruct d as [s|s|s|s|s|s]; cbn [create]; (apply grow; [exact S| |exact D|intros _; exact I| | |]);
    cbn [denote own shared get_num fst];
    unfold get_ints, get_cells, get_array, get_hypers;
    rewrite ?nth_new0, ?nth_new1; try (destruct s; reflexivity);
    try (repeat constructor; cbn; intuition lia);
    try (intros l Hl; cbn in Hl; intuition lia).
  intros l [<-|[]]. split; [intros [X|[]]; lia|right; lia].
Qed.

Lemma load_ok : forall h os ss v s d, sound h os ss v -> In s ss -> sden h s = Some d -> dinv d ->
  exists h' o, load h s = Some (h', o) /\ sound h' (os ++ [o]) ss (fst v ++ [(d, true)], snd v).
Proof.
  intros h os ss v s d S HI E D.
  assert (SS : forall l, In l (sshared s) -> In l (flat_map shared os ++ flat_map sshared ss)).
  { intros l Hl. apply in_or_app. right. apply in_flat_map. eauto. }
  assert (LT : forall l, In l (sshared s) -> (l < List.length h)%nat) by (intros l Hl; apply S; auto).
  destruct s as [| |o data N x_sum alpha beta| | |o data N sx sx2 mu var hy]; cbn [load sden sshared] in *;
    try destruct (get_num h x_sum) as [z|] eqn:G; try destruct (get_hypers h hy) as [hh|] eqn:G; try discriminate E; injection E as <-;
    (do 2 eexists; split; [reflexivity|]);
    (apply grow; [exact S| |exact D|discriminate| | |]);
    cbn [denote own shared get_num fst];
    unfold get_ints, get_cells, get_array;
    rewrite ?nth_new0, ?nth_new1; try reflexivity;
    try (repeat constructor; cbn; intuition lia);
    try (intros l Hl; cbn in Hl; intuition lia).
  - unfold get_hypers in *. rewrite nth_error_app1 by (apply LT; now left). rewrite G. reflexivity.
  - intros l [<-|[]]. split; [|left; apply SS; now left]. intros [X|[]]. assert (Y := LT hy (or_introl eq_refl)). lia.
Qed.

Lemma snapshot_ok : forall h o d, denote h o = Some d -> dinv d -> exists s, snapshot h o = Some s /\ sden h s = Some d /\
  (unloaded o -> plain s) /\ (~ is_bernoulli d -> plain s) /\ (plain s -> incl (sshared s) (shared o)).
Proof.
  intros h o d E D. apply dinv_dicts in D.
  destruct o as [| |o data N [z|l] alpha beta| | |]; cbn [denote get_num] in E; cbn [snapshot];
    unfold get_ints, get_cells, get_array, get_hypers in *;
    repeat match type of E with context[nth_error h ?k] => let F := fresh "F" in destruct (nth_error h k) as [[]|] eqn:F; try discriminate E end;
    injection E as <-; cbn in D; (eexists; split; [reflexivity|]); cbn [sden get_num plain unloaded is_bernoulli sshared shared];
    unfold get_hypers; rewrite ?F, ?F0; cbn; rewrite ?dict_of_NoDup by tauto; (split; [reflexivity|]); try tauto;
    repeat split; auto using incl_refl.
Qed.

Lemma set_mid : forall {A} (l r : list A) a b, set_nth (List.length l) b (l ++ a :: r) = l ++ b :: r.
Proof. induction l; intros; cbn; f_equal; auto. Qed.

Lemma invoke_ok : forall h os ss v i o d b c, sound h os ss v -> nth_error os i = Some o -> nth_error (fst v) i = Some (d, b) ->
  quiet d (after d c) ->
  let (h', o') := invoke h o c in sound h' (set_nth i o' os) ss (set_nth i (after d c, b) (fst v), snd v).
Proof.
  intros h os ss v i o d b c (F1 & F2 & ND & LT & SH) E1 E2 Q.
  destruct (F2_nth _ _ _ _ _ F1 E1) as (x & E2' & A & B & U). rewrite E2 in E2'. injection E2' as <-. cbn [fst snd] in *.
  unfold invoke. rewrite A. destruct (store h o (after d c)) as [h' o'] eqn:ST.
  destruct (nth_error_split _ _ E1) as (l & r & -> & LN). subst i.
  apply Forall2_app_inv_l in F1. destruct F1 as (vl & vr & Fl & Fr & Ev). inversion Fr as [|? y ? vr' Hx Fr' EE EV]; subst.
  assert (LL : List.length vl = List.length l).
  { clear - Fl. induction Fl; cbn; auto. }
  rewrite Ev, <- LL in E2. rewrite nth_error_app2, Nat.sub_diag in E2 by lia. injection E2 as ->. clear Hx Fr.
  assert (NDo : NoDup (own o)).
  { rewrite flat_map_app in ND. apply NoDup_app_r in ND. cbn in ND. apply NoDup_app_l in ND. exact ND. }
  assert (NS : forall k, In k (shared o) -> ~ In k (own o)).
  { intros k Hk Ho. apply (SH k); [apply in_or_app; left; apply in_flat_map; exists o; split; [apply in_or_app; right; now left|exact Hk]|].
    apply in_flat_map. exists o. split; [apply in_or_app; right; now left|exact Ho]. }
  destruct (store_ok h o d (after d c) A (after_cls d c) Q NDo NS h' o' ST) as (E' & OW & SHA & UL & LEN & FR).
  rewrite set_mid, Ev, <- LL, set_mid.
  assert (OWN : flat_map own (l ++ o' :: r) = flat_map own (l ++ o :: r)) by (rewrite !flat_map_app; cbn; rewrite OW; reflexivity).
  assert (SHD : flat_map shared (l ++ o' :: r) = flat_map shared (l ++ o :: r)) by (rewrite !flat_map_app; cbn; rewrite SHA; reflexivity).
  (* other objects do not change *)
  assert (OTHER : forall o0, In o0 l \/ In o0 r -> denote h' o0 = denote h o0).
  { intros o0 HI. apply denote_agree. intros k Hk. apply FR. intros Ho. apply in_app_or in Hk. destruct Hk as [Hk|Hk].
    - rewrite flat_map_app in ND. cbn in ND. destruct HI as [HI|HI].
      + apply (NoDup_app_disj _ _ ND k); [apply in_flat_map; eauto|apply in_or_app; now left].
      + apply NoDup_app_r in ND. apply (NoDup_app_disj _ _ ND k); [exact Ho|apply in_flat_map; eauto].
    - apply (SH k).
      + apply in_or_app. left. apply in_flat_map. exists o0. split; [apply in_or_app; destruct HI; [left|right; right]; assumption|exact Hk].
      + apply in_flat_map. exists o. split; [apply in_or_app; right; now left|exact Ho]. }
  split; [|split; [|split; [|split]]].
  - cbn [fst]. apply Forall2_app; [|constructor].
    + eapply F2_imp; [|exact Fl]. intros o0 x0 HI (P1 & P2 & P3). rewrite OTHER by auto. auto.
    + cbn [fst snd]. split; [exact E'|split; [apply after_dinv; exact B|auto]].
    + eapply F2_imp; [|exact Fr']. intros o0 x0 HI (P1 & P2 & P3). rewrite OTHER by auto. auto.
  - cbn [snd]. eapply F2_imp; [|exact F2]. intros s0 d0 HI (P1 & P2 & P3). split; [|auto]. rewrite <- P1. apply sden_agree.
    intros k Hk. apply FR. intros Ho. apply (SH k); [apply in_or_app; right; apply in_flat_map; eauto|].
    apply in_flat_map. exists o. split; [apply in_or_app; right; now left|exact Ho].
  - rewrite OWN. exact ND.
  - rewrite OWN, LEN. exact LT.
  - rewrite OWN, SHD, LEN. exact SH.
Qed.

Lemma step_sound : forall h os ss v p, sound h os ss v -> harmless v p ->
  sound (w_heap (step (mkWorld h os ss) p)) (w_objs (step (mkWorld h os ss) p)) (w_snaps (step (mkWorld h os ss) p)) (ideal_step v p).
Proof.
  intros h os ss [vo vs] p S H. assert (F1 := proj1 S). assert (F2 := proj1 (proj2 S)). cbn [fst snd] in F1, F2.
  destruct p as [d|i c|i|j]; cbn [step ideal_step].
  - assert (X := create_ok h os ss (vo, vs) d S (reachable_dinv d H)). destruct (create h d). exact X.
  - destruct (nth_error os i) as [o|] eqn:E1.
    + destruct (F2_nth _ _ _ _ _ F1 E1) as ([d b] & E2 & A & B & U). rewrite E2.
      assert (Q : quiet d (after d c)).
      { destruct d as [s|s|s|s|s|s]; try exact I.
        assert (NH : forall h, c <> SetHypers h) by (intros hh ->; apply (H _ _ E2); exact I).
        assert (X := after_nuc s c NH). destruct (after (DNuc s) c); try contradiction. exact X. }
      assert (X := invoke_ok h os ss (vo, vs) i o d b c S E1 E2 Q). destruct (invoke h o c). exact X.
    + rewrite (F2_nth_none _ _ _ _ F1 E1). exact S.
  - destruct (nth_error os i) as [o|] eqn:E1.
    + destruct (F2_nth _ _ _ _ _ F1 E1) as ([d b] & E2 & A & B & U). rewrite E2. cbn [fst snd] in *.
      destruct (snapshot_ok h o d A B) as (s & -> & ES & P1 & P2 & IN). cbn [w_heap w_objs w_snaps].
      assert (P : plain s).
      { destruct b; [apply P2; apply (H d E2)|apply P1, U; reflexivity]. }
      destruct S as (_ & _ & ND & LT & SH). split; [exact F1|]. split; [apply Forall2_app; [exact F2|constructor; [split; [exact ES|split; [exact P|exact B]]|constructor]]|].
      split; [exact ND|]. split; [exact LT|]. intros l Hl. apply SH. rewrite flat_map_app in Hl. cbn in Hl. rewrite app_nil_r in Hl.
      rewrite !in_app_iff in *. destruct Hl as [Hl|[Hl|Hl]]; auto. left. apply in_flat_map. exists o. split; [eapply nth_error_In; eauto|].
      apply (IN P). exact Hl.
    + rewrite (F2_nth_none _ _ _ _ F1 E1). exact S.
  - destruct (nth_error ss j) as [s|] eqn:E1.
    + destruct (F2_nth _ _ _ _ _ F2 E1) as (d & E2 & A & B & U). rewrite E2.
      destruct (load_ok h os ss (vo, vs) s d S (nth_error_In _ _ E1) A U) as (h' & o & -> & X). exact X.
    + rewrite (F2_nth_none _ _ _ _ F2 E1). exact S.
Qed.

Lemma sound_values : forall h os ss v, sound h os ss v -> as_values (mkWorld h os ss) v.
Proof.
  intros h os ss v (F1 & F2 & ND & LT & SH). split; cbn [w_heap w_objs w_snaps].
  - clear - F1. induction F1 as [|o x os vo (A & _) F IH]; cbn; [reflexivity|]. rewrite A, IH. reflexivity.
  - assert (R : forall s, In s ss -> recorded h s = sden h s).
    { intros s HI. apply recorded_sden; [intros l _; reflexivity|]. intros l Hl. apply SH. apply in_or_app. right. apply in_flat_map. eauto. }
    clear - F2 R. induction F2 as [|s d ss vs (A & _) F IH]; cbn; [reflexivity|]. rewrite R by now left. rewrite A, IH; [reflexivity|].
    intros. apply R. now right.
Qed.

Lemma careful_values : forall ps, careful ps -> as_values (run_world ps) (ideal ps).
Proof.
  intros ps C.
  assert (X : sound (w_heap (run_world ps)) (w_objs (run_world ps)) (w_snaps (run_world ps)) (ideal ps)).
  { induction C as [|ps p C IH H].
    - repeat split; try constructor; contradiction.
    - unfold run_world, ideal in *. rewrite !fold_left_app. cbn [fold_left].
      destruct (fold_left step ps (mkWorld [] [] [])) as [h os ss]. apply step_sound; assumption. }
  apply sound_values in X. destruct (run_world ps). exact X.
Qed.
