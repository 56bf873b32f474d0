(** Structural induction on models, and the structural invariant of reachable models. *)
From Coq Require Import List ZArith QArith Qcanon Reals Bool String Lia Permutation.
From Verif Require Import Base Xr Samp Lgamma Prims Cgpm Lib SpecPrims PrimsInv PrimsDens PrimsThm2 SpecComp.
Import ListNotations.
Local Open Scope Z_scope.

(** ** Induction principle *)

Section Ind.
  Variable P : cgpm -> Prop.
  Hypothesis Hd : forall d, P (CDist d).
  Hypothesis Hp : forall cs, Forall P cs -> P (CProd cs).
  Hypothesis Ha : forall ix cs m, Forall P cs -> P (CFinArr ix cs m).
  Hypothesis Hf : forall ix b cs m, P b -> Forall (fun p => P (snd p)) cs -> P (CFlexArr ix b cs m).
  Hypothesis Hm : forall f d arr m, P arr -> P (CMix f d arr m).

  Fixpoint cgpm_ind' (c : cgpm) : P c :=
    match c with
    | CDist d => Hd d
    | CProd cs => Hp cs ((fix go l := match l return Forall P l with
        | [] => Forall_nil _ | x :: l' => Forall_cons _ (cgpm_ind' x) (go l') end) cs)
    | CFinArr ix cs m => Ha ix cs m ((fix go l := match l return Forall P l with
        | [] => Forall_nil _ | x :: l' => Forall_cons _ (cgpm_ind' x) (go l') end) cs)
    | CFlexArr ix b cs m => Hf ix b cs m (cgpm_ind' b)
        ((fix go (l : dict val cgpm) := match l return Forall (fun p => P (snd p)) l with
        | [] => Forall_nil _
        | (k, x) :: l' => Forall_cons (k, x) (cgpm_ind' x) (go l') end) cs)
    | CMix f d arr m => Hm f d arr m (cgpm_ind' arr)
    end.
End Ind.

Lemma cgpm_ind_In : forall P : cgpm -> Prop,
  (forall d, P (CDist d)) ->
  (forall cs, (forall c, In c cs -> P c) -> P (CProd cs)) ->
  (forall ix cs m, (forall c, In c cs -> P c) -> P (CFinArr ix cs m)) ->
  (forall ix b cs m, P b -> (forall k c, In (k, c) cs -> P c) -> P (CFlexArr ix b cs m)) ->
  (forall f d arr m, P arr -> P (CMix f d arr m)) ->
  forall c, P c.
Proof.
  intros P Hd Hp Ha Hf Hm. apply cgpm_ind'; auto.
  - intros cs H. rewrite Forall_forall in H. auto.
  - intros ix cs m H. rewrite Forall_forall in H. auto.
  - intros ix b cs m Hb H. rewrite Forall_forall in H. apply Hf; auto. intros k c Hc. apply (H (k, c) Hc).
Qed.

(** ** The sampling monad *)

Lemma always_bind : forall {A B} (m : samp A) (f : A -> samp B) P,
  always m (fun a => always (f a) P) -> always (sbind m f) P.
Proof.
  induction m; cbn; intros f P Hm; auto.
Qed.

Lemma always_imp : forall {A} (m : samp A) (P Q : A -> Prop),
  (forall a, P a -> Q a) -> always m P -> always m Q.
Proof.
  induction m; cbn; intros P Q PQ Hm; eauto.
Qed.

Lemma always_True : forall {A} (m : samp A) (P : A -> Prop), (forall a, P a) -> always m P.
Proof. induction m; cbn; intros; auto. Qed.

Lemma always_possible : forall {A} (m : samp A) (P Q : A -> Prop),
  always m P -> possible m Q -> exists a, P a /\ Q a.
Proof.
  induction m as [a|ws k IH|l k IH|n p k IH|lo hi k IH|n k IH]; cbn; intros P Q Hm HQ.
  - eauto.
  - destruct HQ as (i & L & W & HQ). eauto.
  - destruct HQ as (i & L & HQ). eauto.
  - destruct HQ as (i & HQ). eauto.
  - destruct HQ as (i & L & HQ). eauto.
  - destruct HQ as (i & L & HQ). eauto.
Qed.

Lemma possible_imp : forall {A} (m : samp A) (P Q : A -> Prop),
  (forall a, P a -> Q a) -> possible m P -> possible m Q.
Proof.
  induction m as [a|ws k IH|l k IH|n p k IH|lo hi k IH|n k IH]; cbn; intros P Q PQ HP.
  - eauto.
  - destruct HP as (i & L & W & HQ). eauto 6.
  - destruct HP as (i & L & HQ). eauto.
  - destruct HP as (i & HQ). eauto.
  - destruct HP as (i & L & HQ). eauto.
  - destruct HP as (i & L & HQ). eauto.
Qed.

Lemma possible_bind : forall {A B} (m : samp A) (f : A -> samp B) P,
  possible m (fun a => possible (f a) P) <-> possible (sbind m f) P.
Proof.
  induction m as [a|ws k IH|l k IH|n p k IH|lo hi k IH|n k IH]; cbn; intros f P.
  - reflexivity.
  - split; intros (i & L & W & HQ); exists i; split; auto; split; auto; apply IH; auto.
  - split; intros (i & L & HQ); exists i; split; auto; apply IH; auto.
  - split; intros (i & HQ); exists i; apply IH; auto.
  - split; intros (i & L & HQ); exists i; split; auto; apply IH; auto.
  - split; intros (i & L & HQ); exists i; split; auto; apply IH; auto.
Qed.

(** ** [each] *)

Lemma each_Forall : forall {A} (P : A -> Prop) l, each P l <-> Forall P l.
Proof.
  induction l; cbn; split; intros Hx.
  - constructor.
  - exact I.
  - destruct Hx. constructor; [|apply IHl]; auto.
  - inversion Hx; subst. split; [|apply IHl]; auto.
Qed.

Lemma each_In : forall {A} (P : A -> Prop) l, each P l <-> forall x, In x l -> P x.
Proof. intros. rewrite each_Forall, Forall_forall. reflexivity. Qed.

(** ** Well-formed models *)

Definition fixed_support (d : dist) : Prop := match d with DCat _ | DBer _ => True | _ => False end.
Definition has_support (d : dist) : Prop := match d with DCat _ | DBer _ | DCrp _ => True | _ => False end.

Inductive wf : cgpm -> Prop :=
| wf_dist : forall d, dinv d -> wf (CDist d)
| wf_prod : forall cs, (forall c, In c cs -> wf c) -> NoDup (flat_map outputs cs) -> wf (CProd cs)
| wf_fin : forall div cs r2i r2c,
    dinv div -> fixed_support div -> dist_support div = Ok (zrange (List.length cs)) -> cs <> [] ->
    (forall c, In c cs -> wf c) ->
    (forall c, In c cs -> outputs c = outputs (hd c cs) /\ ~ In (dist_o div) (outputs c)) ->
    wf (CMix false div (CFinArr (dist_o div) cs r2i) r2c)
| wf_flex : forall div base cs r2i r2c,
    dinv div -> has_support div -> wf base -> ~ In (dist_o div) (outputs base) ->
    NoDup (keys cs) ->
    (forall k c, In (k, c) cs -> wf c) ->
    (forall k c, In (k, c) cs -> outputs c = outputs base) ->
    wf (CMix true div (CFlexArr (dist_o div) base cs r2i) r2c).

Lemma wf_inputs : forall c, wf c -> inputs c = [].
Proof.
  induction 1 as [d|cs Wc IH ND|div cs r2i r2c D F SU NE Wc IH O|div b cs r2i r2c D HS Wb IHb NI ND Wc IH O].
  - reflexivity.
  - cbn. clear ND Wc. induction cs as [|c cs IHcs]; [reflexivity|].
    cbn. rewrite (IH c (or_introl eq_refl)). apply IHcs. intros. apply IH. now right.
  - cbn. destruct cs as [|c cs]; [congruence|]. apply IH. now left.
  - cbn. exact IHb.
Qed.

Lemma wf_outputs_NoDup : forall c, wf c -> NoDup (outputs c).
Proof.
  induction 1 as [d|cs Wc IH ND|div cs r2i r2c D F SU NE Wc IH O|div b cs r2i r2c D HS Wb IHb NI ND Wc IH O]; cbn.
  - constructor; [intros []|constructor].
  - exact ND.
  - destruct cs as [|c cs]; [congruence|]. constructor.
    + apply (O c). now left.
    + apply IH. now left.
  - constructor; auto.
Qed.

(** A step keeps the outputs and well-formedness. *)
Definition kept (c c' : cgpm) : Prop := wf c' /\ outputs c' = outputs c.

Lemma fixed_support_kind : forall d d', kind_of d' = kind_of d -> fixed_support d ->
  fixed_support d' /\ dist_support d' = dist_support d.
Proof.
  intros d d' K F. destruct d; try contradiction; destruct d'; cbn in K; try discriminate; cbn; auto.
  injection K as K. unfold cat_support. rewrite K. auto.
Qed.

Lemma has_support_kind : forall d d', kind_of d' = kind_of d -> has_support d -> has_support d'.
Proof.
  intros d d' K F. destruct d; try contradiction; destruct d'; cbn in K; try discriminate; cbn; auto.
Qed.

Lemma Forall2_outputs : forall cs cs', Forall2 kept cs cs' ->
  flat_map outputs cs' = flat_map outputs cs /\ (forall c, In c cs' -> wf c).
Proof.
  induction 1 as [|c c' cs cs' [W O] F [IH1 IH2]]; [split; [reflexivity|intros ? []]|].
  cbn. rewrite O, IH1. split; auto. intros x [<-|Hx]; auto.
Qed.

Lemma prod_observe_kept : forall cs,
  (forall c, In c cs -> wf c) ->
  (forall c, In c cs -> forall rid obs ins, always (observe c rid obs ins) (fun r => kept c (fst r))) ->
  forall rid obs ins,
  always (prod_observe (map (fun c' => (c', observe c')) cs) rid obs ins)
    (fun r => Forall2 kept cs (fst r)).
Proof.
  induction cs as [|c cs IH]; intros W H rid obs ins; cbn [map prod_observe].
  - constructor.
  - assert (KC : kept c c) by (split; [apply W; now left|reflexivity]).
    assert (KS : Forall2 kept cs cs).
    { clear - W. induction cs; constructor.
      - split; auto. apply W. right. now left.
      - apply IHcs. intros x [<-|Hx]; apply W; [now left|right; now right]. }
    assert (IH' := IH (fun x Hx => W x (or_intror Hx)) (fun x Hx => H x (or_intror Hx)) rid obs ins).
    destruct (interd (outputs c) obs) as [|p l] eqn:E.
    + apply always_bind. eapply always_imp; [|exact IH']. cbn. intros r Hr. constructor; auto.
    + apply always_bind. eapply always_imp; [|apply (H c (or_introl eq_refl))].
      intros [c' res] KC'. cbn in *. destruct res as [u|e]; cbn.
      * apply always_bind. eapply always_imp; [|exact IH']. cbn. intros r Hr. constructor; auto.
      * constructor; auto. rewrite map_map. cbn. rewrite map_id. exact KS.
Qed.

Lemma set_nth_In : forall {A} n (x y : A) l, In y (set_nth n x l) -> y = x \/ In y l.
Proof.
  induction n; intros x y [|z l] Hy; cbn in *; auto.
  - destruct Hy; auto.
  - destruct Hy as [Hy|Hy]; auto. apply IHn in Hy. tauto.
Qed.

Lemma set_nth_length : forall {A} n (x : A) l, List.length (set_nth n x l) = List.length l.
Proof. induction n; intros x [|z l]; cbn; auto. Qed.

Lemma hd_set_nth : forall {A B} (f : A -> B) n x y l d, f x = f y -> nth_error l n = Some y ->
  f (hd d (set_nth n x l)) = f (hd d l).
Proof. intros A B f [|n] x y [|z l] d E N; cbn in *; try discriminate; congruence. Qed.

Lemma dset_In : forall {K V} `{EqDec K} (d : dict K V) k v k' v',
  In (k', v') (dset k v d) -> (k' = k /\ v' = v) \/ In (k', v') d.
Proof.
  induction d as [|[k0 v0] d IH]; intros k v k' v' Hi; cbn in *.
  - destruct Hi as [Hi|[]]. injection Hi; auto.
  - destruct (eq_dec k k0); cbn in Hi.
    + destruct Hi as [Hi|Hi]; [injection Hi; auto|auto].
    + destruct Hi as [Hi|Hi]; [auto|]. apply IH in Hi. tauto.
Qed.

Lemma lookup_dict_map : forall {K V W} `{EqDec K} (f : V -> W) (d : dict K V) k,
  lookup k (map (fun p => let '(k', v) := p in (k', f v)) d) = option_map f (lookup k d).
Proof. induction d as [|[k0 v0] d IH]; intros k; cbn; auto. destruct (eq_dec k k0); auto. Qed.

(** The outputs seen from the array of a mixture. *)
Lemma outputs_same : forall cs (c : cgpm), In c cs ->
  (forall c, In c cs -> outputs c = outputs (hd c cs)) ->
  outputs c = match cs with [] => [] | c' :: _ => outputs c' end.
Proof. intros [|c0 cs] c Hi O; [contradiction|]. apply (O c Hi). Qed.

Lemma wf_fin_set : forall div div' cs r2i r2i' r2c r2c' n c c',
  wf (CMix false div (CFinArr (dist_o div) cs r2i) r2c) ->
  dinv div' -> kind_of div' = kind_of div -> dist_o div' = dist_o div ->
  nth_error cs n = Some c -> kept c c' ->
  kept (CMix false div (CFinArr (dist_o div) cs r2i) r2c)
       (CMix false div' (CFinArr (dist_o div) (set_nth n c' cs) r2i') r2c').
Proof.
  intros div div' cs r2i r2i' r2c r2c' n c c' W D' K' O' N [Wc' Oc'].
  inversion W as [| |? ? ? ? D F SU NE Wc O|]; subst.
  destruct (fixed_support_kind div div' K' F) as [F' SU'].
  assert (Ic : In c cs) by (eapply nth_error_In; eauto).
  split.
  - rewrite <- O'. constructor; auto.
    + rewrite SU', SU, set_nth_length. reflexivity.
    + destruct cs; [congruence|]. destruct n; discriminate.
    + intros x Hx. apply set_nth_In in Hx. destruct Hx as [->|Hx]; auto.
    + intros x Hx. apply set_nth_In in Hx.
      assert (HD : outputs (hd x (set_nth n c' cs)) = outputs (hd x cs))
        by (eapply (hd_set_nth outputs); eauto).
      rewrite HD, O'. destruct Hx as [->|Hx].
      * rewrite Oc'. destruct (O c Ic) as [OE ON]. split; auto. rewrite OE. destruct cs; [contradiction|reflexivity].
      * apply O. exact Hx.
  - cbn. f_equal; [exact O'|]. destruct cs as [|c0 cs]; [congruence|].
    destruct n; cbn in *; [injection N as ->; exact Oc'|reflexivity].
Qed.

Lemma wf_flex_set : forall div div' base cs r2i r2i' r2c r2c' k c',
  wf (CMix true div (CFlexArr (dist_o div) base cs r2i) r2c) ->
  dinv div' -> kind_of div' = kind_of div -> dist_o div' = dist_o div ->
  wf c' -> outputs c' = outputs base ->
  kept (CMix true div (CFlexArr (dist_o div) base cs r2i) r2c)
       (CMix true div' (CFlexArr (dist_o div) base (dset k c' cs) r2i') r2c').
Proof.
  intros div div' base cs r2i r2i' r2c r2c' k c' W D' K' O' Wc' Oc'.
  inversion W as [| | |? ? ? ? ? D HS Wb NI ND Wc O]; subst.
  split.
  - rewrite <- O'. constructor; auto.
    + eapply has_support_kind; eauto.
    + rewrite O'. exact NI.
    + apply NoDup_keys_dset. exact ND.
    + intros x y Hx. apply dset_In in Hx. destruct Hx as [[-> ->]|Hx]; eauto.
    + intros x y Hx. apply dset_In in Hx. destruct Hx as [[-> ->]|Hx]; eauto.
  - cbn. f_equal. exact O'.
Qed.

Lemma wf_fin_div : forall div div' cs r2i r2i' r2c r2c',
  wf (CMix false div (CFinArr (dist_o div) cs r2i) r2c) ->
  dinv div' -> kind_of div' = kind_of div -> dist_o div' = dist_o div ->
  kept (CMix false div (CFinArr (dist_o div) cs r2i) r2c)
       (CMix false div' (CFinArr (dist_o div) cs r2i') r2c').
Proof.
  intros div div' cs r2i r2i' r2c r2c' W D' K' O'.
  inversion W as [| |? ? ? ? D F SU NE Wc O|]; subst.
  destruct (fixed_support_kind div div' K' F) as [F' SU'].
  split.
  - rewrite <- O'. constructor; auto.
    + rewrite SU', SU. reflexivity.
    + rewrite O'. exact O.
  - cbn. f_equal. exact O'.
Qed.

Lemma wf_flex_div : forall div div' base cs r2i r2i' r2c r2c',
  wf (CMix true div (CFlexArr (dist_o div) base cs r2i) r2c) ->
  dinv div' -> kind_of div' = kind_of div -> dist_o div' = dist_o div ->
  kept (CMix true div (CFlexArr (dist_o div) base cs r2i) r2c)
       (CMix true div' (CFlexArr (dist_o div) base cs r2i') r2c').
Proof.
  intros div div' base cs r2i r2i' r2c r2c' W D' K' O'.
  inversion W as [| | |? ? ? ? ? D HS Wb NI ND Wc O]; subst.
  split.
  - rewrite <- O'. constructor; auto.
    + eapply has_support_kind; eauto.
    + rewrite O'. exact NI.
  - cbn. f_equal. exact O'.
Qed.

Lemma kept_refl : forall c, wf c -> kept c c.
Proof. intros c W. split; auto. Qed.

(** The tail of a mixture's observe, for either array. *)
Lemma mix_observe_x_kept_fin : forall div div' cs r2i r2c r2c' rid obs ins z,
  wf (CMix false div (CFinArr (dist_o div) cs r2i) r2c) ->
  dinv div' -> kind_of div' = kind_of div -> dist_o div' = dist_o div ->
  (forall c, In c cs -> forall rid obs ins, always (observe c rid obs ins) (fun r => kept c (fst r))) ->
  always (mix_observe_x false div' (CFinArr (dist_o div) cs r2i) (observe (CFinArr (dist_o div) cs r2i))
            r2c' rid obs ins z)
    (fun r => kept (CMix false div (CFinArr (dist_o div) cs r2i) r2c) (fst r)).
Proof.
  intros div div' cs r2i r2c r2c' rid obs ins z W D' K' O' IH.
  unfold mix_observe_x. apply always_bind. cbn [observe]. unfold finarr_observe.
  set (io := merged _ _). set (oo := interd _ _).
  assert (ST : forall m, kept (CMix false div (CFinArr (dist_o div) cs r2i) r2c)
                    (CMix false div' (CFinArr (dist_o div) cs m) r2c')) by (intros; eapply wf_fin_div; eauto).
  destruct (lookup (dist_o div) io); [|cbn; apply ST].
  destruct (py_index (map observe cs) v) as [n|e]; [|cbn; apply ST].
  destruct (nth_error (map observe cs) n) as [f|] eqn:N; [|cbn; apply ST].
  rewrite nth_error_map in N. destruct (nth_error cs n) as [c|] eqn:Nc; [|discriminate].
  injection N as <-. apply always_bind.
  eapply always_imp; [|apply IH; eapply nth_error_In; eauto].
  intros [c' [u|e]] Kc; cbn in *; eapply wf_fin_set; eauto.
Qed.

Lemma mix_observe_x_kept_flex : forall div div' base cs r2i r2c r2c' rid obs ins z,
  wf (CMix true div (CFlexArr (dist_o div) base cs r2i) r2c) ->
  dinv div' -> kind_of div' = kind_of div -> dist_o div' = dist_o div ->
  (forall k c, In (k, c) cs -> forall rid obs ins, always (observe c rid obs ins) (fun r => kept c (fst r))) ->
  (forall rid obs ins, always (observe base rid obs ins) (fun r => kept base (fst r))) ->
  always (mix_observe_x true div' (CFlexArr (dist_o div) base cs r2i) (observe (CFlexArr (dist_o div) base cs r2i))
            r2c' rid obs ins z)
    (fun r => kept (CMix true div (CFlexArr (dist_o div) base cs r2i) r2c) (fst r)).
Proof.
  intros div div' base cs r2i r2c r2c' rid obs ins z W D' K' O' IH IHb.
  unfold mix_observe_x. apply always_bind. cbn [observe]. unfold flexarr_observe.
  set (io := merged _ _). set (oo := interd _ _).
  destruct (lookup (dist_o div) io); [|cbn; eapply wf_flex_div; eauto].
  rewrite lookup_dict_map.
  inversion W as [| | |? ? ? ? ? D HS Wb NI ND Wc O]; subst.
  destruct (lookup v cs) as [c|] eqn:L; cbn [option_map].
  - apply always_bind. assert (Ic := lookup_In _ _ _ L).
    eapply always_imp; [|eapply IH; eauto].
    intros [c' [u|e]] [Wc' Oc']; cbn in *; eapply wf_flex_set; eauto; rewrite Oc'; eauto.
  - apply always_bind. eapply always_imp; [|apply IHb].
    intros [c' [u|e]] [Wc' Oc']; cbn in *; eapply wf_flex_set; eauto.
Qed.

Lemma observe_wf : forall c, wf c -> forall rid obs ins,
  always (observe c rid obs ins) (fun r => kept c (fst r)).
Proof.
  induction 1 as [d D|cs Wc IH ND|div cs r2i r2c D F SU NE Wc IH O|div b cs r2i r2c D HS Wb IHb NI ND Wc IH O];
    intros rid obs ins.
  - cbn. destruct (dist_observe d rid obs ins) as [d' r] eqn:E. cbn.
    assert (D' := observe_dinv d rid obs ins D). assert (Fr := observe_frame d rid obs ins).
    cbn in Fr. rewrite E in D', Fr. cbn in D', Fr. split; [constructor; exact D'|].
    cbn. f_equal. apply Fr.
  - cbn [observe]. apply always_bind. eapply always_imp; [|apply prod_observe_kept; auto].
    intros [cs' res] F2. cbn in *. apply Forall2_outputs in F2. destruct F2 as [E W'].
    split; [constructor; auto; rewrite E; exact ND|exact E].
  - assert (W : wf (CMix false div (CFinArr (dist_o div) cs r2i) r2c)) by (constructor; auto).
    cbn [observe]. unfold mix_observe. change (finarr_observe (dist_o div) cs (map observe cs) r2i) with
      (observe (CFinArr (dist_o div) cs r2i)).
    destruct (lookup rid r2c) as [z|].
    + eapply mix_observe_x_kept_fin; eauto.
    + apply always_bind. apply always_True. intros [z|e]; [|cbn; eapply wf_fin_div; eauto].
      assert (D' := observe_dinv div rid [(dist_o div, z)] [] D).
      assert (Fr := observe_frame div rid [(dist_o div, z)] []). cbn in Fr.
      destruct (dist_observe div rid [(dist_o div, z)] []) as [div' [u|e]]; cbn in D', Fr;
        destruct Fr as (K' & O' & _).
      * eapply mix_observe_x_kept_fin; eauto.
      * cbn. eapply wf_fin_div; eauto.
  - assert (W : wf (CMix true div (CFlexArr (dist_o div) b cs r2i) r2c)) by (constructor; auto).
    cbn [observe]. unfold mix_observe.
    change (flexarr_observe (dist_o div) b (observe b) cs
               (map (fun p => let '(k, c') := p in (k, observe c')) cs) r2i) with
      (observe (CFlexArr (dist_o div) b cs r2i)).
    destruct (lookup rid r2c) as [z|].
    + eapply mix_observe_x_kept_flex; eauto.
    + apply always_bind. apply always_True. intros [z|e]; [|cbn; eapply wf_flex_div; eauto].
      assert (D' := observe_dinv div rid [(dist_o div, z)] [] D).
      assert (Fr := observe_frame div rid [(dist_o div, z)] []). cbn in Fr.
      destruct (dist_observe div rid [(dist_o div, z)] []) as [div' [u|e]]; cbn in D', Fr;
        destruct Fr as (K' & O' & _).
      * eapply mix_observe_x_kept_flex; eauto.
      * cbn. eapply wf_flex_div; eauto.
Qed.

Lemma unobserve_wf : forall c, wf c -> forall rid, kept c (fst (unobserve c rid)).
Proof.
  induction 1 as [d D|cs Wc IH ND|div cs r2i r2c D F SU NE Wc IH O|div b cs r2i r2c D HS Wb IHb NI ND Wc IH O];
    intros rid.
  - cbn. assert (D' := unobserve_dinv d rid D). assert (Fr := unobserve_frame d rid). cbn in Fr.
    destruct (dist_unobserve d rid) as [d' r]. cbn in *. split; [constructor; exact D'|].
    cbn. f_equal. apply Fr.
  - cbn [unobserve]. unfold prod_unobserve.
    destruct (map (fun c' => unobserve c' rid) cs) as [|p l] eqn:E.
    + destruct cs; [|discriminate]. apply kept_refl. constructor; auto.
    + rewrite <- E. cbn [fst].
      assert (F2 : Forall2 kept cs (map fst (map unobserve_one (map (fun c' => unobserve c' rid) cs)))).
      { clear E ND Wc. induction cs as [|c cs IHcs]; [constructor|]. cbn [map]. constructor.
        - assert (Hc := IH c (or_introl eq_refl) rid). unfold unobserve_one.
          destruct (snd (unobserve c rid)); exact Hc.
        - apply IHcs. intros. apply IH. now right. }
      apply Forall2_outputs in F2. destruct F2 as [E2 W'].
      split; [constructor; auto; rewrite E2; exact ND|exact E2].
  - assert (W : wf (CMix false div (CFinArr (dist_o div) cs r2i) r2c)) by (constructor; auto).
    cbn [unobserve]. unfold mix_unobserve.
    assert (D' := unobserve_dinv div rid D). assert (Fr := unobserve_frame div rid). cbn in Fr.
    destruct (dist_unobserve div rid) as [div' [[oz iz]|e]]; cbn in D', Fr; destruct Fr as (K' & O' & _).
    + unfold finarr_unobserve.
      assert (ST : forall m m', kept (CMix false div (CFinArr (dist_o div) cs r2i) r2c)
                    (CMix false div' (CFinArr (dist_o div) cs m) m')) by (intros; eapply wf_fin_div; eauto).
      destruct (lookup rid r2i); [|apply ST].
      destruct (py_index (map unobserve cs) v) as [n|e]; [|apply ST].
      destruct (nth_error (map unobserve cs) n) as [f|] eqn:N; [|apply ST].
      rewrite nth_error_map in N. destruct (nth_error cs n) as [c|] eqn:Nc; [|discriminate].
      injection N as <-. assert (Hc := IH c (nth_error_In _ _ Nc) rid).
      destruct (unobserve c rid) as [c' [[ox inx]|e]]; cbn in Hc.
      * destruct (dmem rid r2c); eapply wf_fin_set; eauto.
      * eapply wf_fin_set; eauto.
    + cbn. eapply wf_fin_div; eauto.
  - assert (W : wf (CMix true div (CFlexArr (dist_o div) b cs r2i) r2c)) by (constructor; auto).
    cbn [unobserve]. unfold mix_unobserve.
    assert (D' := unobserve_dinv div rid D). assert (Fr := unobserve_frame div rid). cbn in Fr.
    destruct (dist_unobserve div rid) as [div' [[oz iz]|e]]; cbn in D', Fr; destruct Fr as (K' & O' & _).
    + unfold flexarr_unobserve.
      destruct (lookup rid r2i); [|eapply wf_flex_div; eauto].
      rewrite lookup_dict_map.
      destruct (lookup v cs) as [c|] eqn:L; cbn [option_map].
      * assert (Ic := lookup_In _ _ _ L). assert (Hc := IH v c Ic rid).
        destruct (unobserve c rid) as [c' [[ox inx]|e]]; destruct Hc as [Wc' Oc']; cbn in Wc', Oc';
          [destruct (dmem rid r2c)|]; eapply wf_flex_set; eauto; rewrite Oc'; eauto.
      * assert (Hc := IHb rid).
        destruct (unobserve b rid) as [c' [[ox inx]|e]]; destruct Hc as [Wc' Oc']; cbn in Wc', Oc';
          [destruct (dmem rid r2c)|]; eapply wf_flex_set; eauto.
    + cbn. eapply wf_flex_div; eauto.
Qed.

Lemma set_hypers_dinv : forall d h, dinv d -> dinv (fst (dist_set_hypers d h)).
Proof. intros d h D. exact (after_dinv d (SetHypers h) D). Qed.

Lemma set_params_dinv : forall d p, dinv d -> dinv (fst (dist_set_params d p)).
Proof. intros d p D. exact (after_dinv d (SetParams p) D). Qed.

Lemma retuned_dist : forall d d', retuned (CDist d) (CDist d') -> dinv d ->
  dinv d' /\ kind_of d' = kind_of d /\ dist_o d' = dist_o d.
Proof.
  intros d d' H D. inversion H; subst.
  - destruct (set_hypers_frame d h) as (A & B & _). split; [apply set_hypers_dinv; auto|auto].
  - destruct (set_params_frame d p) as (A & B & _). split; [apply set_params_dinv; auto|auto].
Qed.

Lemma Forall2_kept_mid : forall l c c' r, (forall x, In x (l ++ c :: r) -> wf x) -> kept c c' ->
  Forall2 kept (l ++ c :: r) (l ++ c' :: r).
Proof.
  intros l c c' r W K. apply Forall2_app.
  - clear K. induction l; constructor; [apply kept_refl, W; now left|]. apply IHl. intros. apply W. now right.
  - constructor; auto. clear K. assert (W' : forall x, In x r -> wf x).
    { intros. apply W. apply in_or_app. right. now right. }
    clear W. induction r; constructor; [apply kept_refl, W'; now left|]. apply IHr. intros. apply W'. now right.
Qed.

Lemma set_nth_mid : forall {A} (l : list A) c c' r, set_nth (List.length l) c' (l ++ c :: r) = l ++ c' :: r.
Proof. induction l; intros; cbn; f_equal; auto. Qed.

Lemma nth_error_mid : forall {A} (l : list A) c r, nth_error (l ++ c :: r) (List.length l) = Some c.
Proof. induction l; intros; cbn; auto. Qed.

Lemma dset_mid : forall {K V} `{EqDec K} (l : dict K V) k c c' r, ~ In k (keys l) ->
  dset k c' (l ++ (k, c) :: r) = l ++ (k, c') :: r.
Proof.
  induction l as [|[k0 v0] l IH]; intros k c c' r N; cbn.
  - destruct (eq_dec k k); congruence.
  - cbn in N. destruct (eq_dec k k0) as [->|NE]; [exfalso; tauto|]. f_equal. apply IH. tauto.
Qed.

Lemma retuned_kept : forall c c', retuned c c' ->
  (wf c -> kept c c') /\ (forall f d m, wf (CMix f d c m) -> kept (CMix f d c m) (CMix f d c' m)).
Proof.
  induction 1 as [d h|d p|l c c' r R [IH _]|ix l c c' r m R [IH _]|ix c c' cs m R [IH _]|ix b l k c c' r m R [IH _]|
                  f d d' arr m R _|f d arr arr' m R [_ IH]].
  - split; [|intros f d' m W; inversion W].
    intros W. inversion W as [? D| | |]; subst. split; [constructor; apply set_hypers_dinv; auto|].
    cbn. f_equal. apply set_hypers_frame.
  - split; [|intros f d' m W; inversion W].
    intros W. inversion W as [? D| | |]; subst. split; [constructor; apply set_params_dinv; auto|].
    cbn. f_equal. apply set_params_frame.
  - split; [|intros f d m W; inversion W].
    intros W. inversion W as [|? Wc ND| |]; subst.
    assert (F2 : Forall2 kept (l ++ c :: r) (l ++ c' :: r)).
    { apply Forall2_kept_mid; auto. apply IH, Wc. apply in_or_app. right. now left. }
    apply Forall2_outputs in F2. destruct F2 as [E W'].
    split; [constructor; auto; rewrite E; exact ND|exact E].
  - split; [intros W; inversion W|].
    intros f d m' W. inversion W as [| |? ? ? ? D F SU NE Wc O|]; subst.
    rewrite <- (set_nth_mid l c c' r). eapply wf_fin_set; eauto using nth_error_mid.
    apply IH, Wc. apply in_or_app. right. now left.
  - split; [intros W; inversion W|].
    intros f d m' W. inversion W as [| | |? ? ? ? ? D HS Wb NI ND Wc O]; subst.
    destruct (IH Wb) as [Wc' Oc']. split.
    + constructor; auto; [rewrite Oc'; exact NI|]. intros. rewrite Oc'. eauto.
    + cbn. f_equal. exact Oc'.
  - split; [intros W; inversion W|].
    intros f d m' W. inversion W as [| | |? ? ? ? ? D HS Wb NI ND Wc O]; subst.
    rewrite <- (dset_mid l k c c' r).
    + assert (Ic : In (k, c) (l ++ (k, c) :: r)) by (apply in_or_app; right; now left).
      destruct (IH (Wc _ _ Ic)) as [Wc' Oc'].
      eapply wf_flex_set; eauto. rewrite Oc'. eapply O; eauto.
    + unfold keys in ND. rewrite map_app in ND. cbn in ND. apply NoDup_remove_2 in ND.
      intros Hk. apply ND. apply in_or_app. now left.
  - split; [|intros f' d0 m' W; inversion W].
    intros W. inversion W as [| |? ? ? ? D F SU NE Wc O|? ? ? ? ? D HS Wb NI ND Wc O]; subst;
      destruct (retuned_dist _ _ R D) as (D' & K' & O').
    + eapply wf_fin_div; eauto.
    + eapply wf_flex_div; eauto.
  - split; [|intros f' d0 m' W; inversion W]. apply IH.
Qed.

Lemma flatten_wf : forall cs, (forall c, In c cs -> wf c) -> forall c, In c (flatten_products cs) -> wf c.
Proof.
  intros cs W c Hc. unfold flatten_products in Hc. apply in_flat_map in Hc.
  destruct Hc as (x & Hx & Hc). specialize (W x Hx). destruct x; cbn in Hc;
    try (destruct Hc as [<-|[]]; exact W).
  inversion W; subst. auto.
Qed.

Lemma flatten_outputs : forall cs, flat_map outputs (flatten_products cs) = flat_map outputs cs.
Proof.
  induction cs as [|c cs IH]; [reflexivity|]. cbn. unfold flatten_products in *. rewrite flat_map_app.
  rewrite IH. f_equal. destruct c; cbn; rewrite ?app_nil_r; reflexivity.
Qed.

Lemma new_product_inv : forall cs c, new_product cs = Ok c ->
  c = CProd (flatten_products cs) /\ NoDup (flat_map outputs cs) /\
  forall i, In i (flat_map inputs cs) -> ~ In i (flat_map outputs cs).
Proof.
  intros cs c H. unfold new_product, validate_product in H. apply obind_ok in H.
  destruct H as (u & H & E). injection E as <-. apply obind_ok in H. destruct H as (v & A & B).
  apply oassert_ok in A. apply oassert_ok in B. split; [reflexivity|]. split.
  - apply Nat.eqb_eq in A. apply dedup_length_NoDup. auto.
  - intros i Hi. rewrite forallb_forall in B. specialize (B i Hi). apply negb_true_iff in B.
    apply memb_false in B. exact B.
Qed.

Lemma new_product_ok : forall cs, NoDup (flat_map outputs cs) ->
  (forall i, In i (flat_map inputs cs) -> ~ In i (flat_map outputs cs)) ->
  new_product cs = Ok (CProd (flatten_products cs)).
Proof.
  intros cs ND NI. unfold new_product, validate_product. rewrite dedup_NoDup_id by auto.
  rewrite Nat.eqb_refl. cbn.
  replace (forallb _ _) with true; [reflexivity|]. symmetry. apply forallb_forall.
  intros i Hi. apply negb_true_iff, memb_false. auto.
Qed.

Lemma support_has : forall d K, dist_support d = Ok K -> has_support d.
Proof. intros [] K H; cbn in *; try discriminate; exact I. Qed.

Lemma creachable_wf : forall c, creachable c -> wf c.
Proof.
  induction 1 as [d Rd|cs c _ IH N|div cs c Rd K _ IH O N|div base K Rd SU _ IH NI|c rid obs ins c' res _ IH P|
                  c rid c' res _ IH U|c c' _ IH R].
  - constructor. apply reachable_dinv. exact Rd.
  - apply new_product_inv in N. destruct N as (-> & ND & _). constructor.
    + apply flatten_wf. exact IH.
    + rewrite flatten_outputs. exact ND.
  - unfold new_finmix in N. apply obind_ok in N. destruct N as (sup & SU & N).
    apply obind_ok in N. destruct N as (u & A & N). apply oassert_ok in A. apply eqb_true in A. subst sup.
    destruct cs as [|c0 cs]; [discriminate|]. injection N as <-.
    constructor; auto using reachable_dinv; try congruence.
    destruct div; cbn in SU, K |- *; try discriminate; auto.
  - apply wf_flex; auto using reachable_dinv.
    + eapply support_has; eauto.
    + constructor.
    + intros ? ? [].
    + intros ? ? [].
  - destruct (always_possible _ _ _ (observe_wf c IH rid obs ins) P) as ([c1 r1] & [W _] & E).
    injection E as -> ->. exact W.
  - assert (Kc := unobserve_wf c IH rid). rewrite U in Kc. apply Kc.
  - apply (retuned_kept _ _ R). exact IH.
Qed.
