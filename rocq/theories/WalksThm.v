(** Adding and removing columns. *)
From Coq Require Import List ZArith QArith Qcanon Reals Bool String Lia Lra Permutation.
From Verif Require Import Base Xr Samp Lgamma Prims Cgpm Lib SpecPrims PrimsInv SpecComp CompInv CompDens CompThm Meta MetaThm AliasThm SpecBook SpecTable Walks SpecWalks.
Import ListNotations.
Local Open Scope Z_scope.

(** ** Columns *)

Lemma inb_true : forall v D, existsb (Z.eqb v) D = true <-> In v D.
Proof.
  intros v D. rewrite existsb_exists. split.
  - intros (x & Hx & E). apply Z.eqb_eq in E. now subst.
  - intros H. exists v. split; [exact H|apply Z.eqb_refl].
Qed.

Lemma inb_false : forall v D, existsb (Z.eqb v) D = false <-> ~ In v D.
Proof. intros. rewrite <- inb_true. destruct (existsb (Z.eqb v) D); split; congruence. Qed.

Lemma without_In : forall D l v, In v (without D l) <-> In v l /\ ~ In v D.
Proof.
  intros. unfold without. rewrite filter_In. split; intros [A B]; split; auto.
  - apply negb_true_iff in B. apply inb_false. exact B.
  - apply negb_true_iff. apply inb_false. exact B.
Qed.

Lemma without_app : forall D l l', without D (l ++ l') = without D l ++ without D l'.
Proof. intros. apply filter_app. Qed.

Lemma without_all : forall D l, (forall v, In v l -> In v D) -> without D l = [].
Proof.
  induction l as [|v l IH]; intros H; [reflexivity|]. unfold without. cbn [filter].
  rewrite (proj2 (inb_true v D)) by (apply H; now left). cbn. apply IH. intros. apply H. now right.
Qed.

Lemma without_none : forall D l, (forall v, In v l -> ~ In v D) -> without D l = l.
Proof.
  induction l as [|v l IH]; intros H; [reflexivity|]. unfold without. cbn [filter].
  rewrite (proj2 (inb_false v D)) by (apply H; now left). cbn. f_equal. apply IH. intros. apply H. now right.
Qed.

Lemma NoDup_without : forall D l, NoDup l -> NoDup (without D l).
Proof. intros. apply NoDup_filter. assumption. Qed.

Lemma interd_without : forall D l (S : row), avoids D S -> interd (without D l) S = interd l S.
Proof.
  intros D l S A. unfold interd. apply filter_ext_in. intros [k x] Hk. cbn [fst].
  destruct (memb k l) eqn:E.
  - apply memb_In. apply memb_In in E. apply without_In. split; [exact E|]. intros HD. apply (A k HD).
    apply (in_map fst) in Hk. exact Hk.
  - apply memb_false. apply memb_false in E. intros X. apply without_In in X. tauto.
Qed.

Lemma avoids_interd : forall D l S, avoids D S -> avoids D (interd l S).
Proof. intros D l S A k Hk X. apply (A k Hk). eapply keys_interd_sub; eauto. Qed.

Lemma dset_keys_sub : forall (d : row) k x k', In k' (keys (dset k x d)) -> k' = k \/ In k' (keys d).
Proof.
  induction d as [|[k0 x0] d IH]; intros k x k' H; cbn in H.
  - destruct H as [<-|[]]. now left.
  - destruct (eq_dec k k0) as [->|N]; cbn in H.
    + destruct H as [<-|H]; [now left|right; right; exact H].
    + destruct H as [<-|H]; [right; now left|]. destruct (IH _ _ _ H) as [E|E]; [now left|right; right; exact E].
Qed.

Lemma fold_dset_keys_sub : forall (b a : row) k,
  In k (keys (fold_left (fun d kv => dset (fst kv) (snd kv) d) b a)) -> In k (keys a) \/ In k (keys b).
Proof.
  induction b as [|[k0 x0] b IH]; intros a k H; cbn [fold_left] in H; [now left|].
  destruct (IH _ _ H) as [X|X]; [|right; right; exact X].
  apply dset_keys_sub in X. cbn [fst] in X. destruct X as [->|X]; [right; now left|now left].
Qed.

Lemma avoids_merged : forall D a b, avoids D a -> avoids D b -> avoids D (merged a b).
Proof.
  intros D a b A B k Hk X. unfold merged in X. apply fold_dset_keys_sub in X. destruct X as [X|X].
  - apply fold_dset_keys_sub in X. destruct X as [[]|X]. apply (A k Hk X).
  - apply (B k Hk X).
Qed.

Lemma ddel_keys_sub : forall (d : row) k k', In k' (keys (ddel k d)) -> In k' (keys d).
Proof.
  induction d as [|[k0 x0] d IH]; intros k k' H; [exact H|]. cbn in H. destruct (eq_dec k k0); [right; exact H|].
  destruct H as [<-|H]; [now left|right; eapply IH; exact H].
Qed.

Lemma avoids_ddel : forall D k S, avoids D S -> avoids D (ddel k S).
Proof. intros D k S A k' Hk X. apply (A k' Hk). eapply ddel_keys_sub; eauto. Qed.

Lemma avoids_nil : forall D, avoids D [].
Proof. intros D k _ []. Qed.

(** ** A model without some of the children of its Products *)

Definition apart (D : list Z) (c : cgpm) : bool := forallb (fun v => negb (existsb (Z.eqb v) D)) (outputs c).

Lemma apart_true : forall D c, apart D c = true <-> forall v, In v (outputs c) -> ~ In v D.
Proof.
  intros. unfold apart. rewrite forallb_forall. split; intros H v Hv.
  - apply inb_false. apply negb_true_iff. auto.
  - apply negb_true_iff. apply inb_false. auto.
Qed.

Definition lefts (l : list (val * (cgpm * cgpm))) : dict val cgpm := map (fun p => (fst p, fst (snd p))) l.
Definition rights (l : list (val * (cgpm * cgpm))) : dict val cgpm := map (fun p => (fst p, snd (snd p))) l.

Inductive shrunk (D : list Z) : cgpm -> cgpm -> Prop :=
| sh_prod : forall cs, (forall c, In c cs -> apart D c = false -> forall v, In v (outputs c) -> In v D) ->
    shrunk D (CProd cs) (CProd (filter (apart D) cs))
| sh_fin : forall div l r2i r2c r2c', ~ In (dist_o div) D ->
    (forall c c', In (c, c') l -> shrunk D c c') -> (NoDup (keys r2c) -> NoDup (keys r2c')) ->
    shrunk D (CMix false div (CFinArr (dist_o div) (map fst l) r2i) r2c)
             (CMix false div (CFinArr (dist_o div) (map snd l) r2i) r2c')
| sh_flex : forall div b b' l r2i r2c, ~ In (dist_o div) D -> shrunk D b b' ->
    (forall k c c', In (k, (c, c')) l -> shrunk D c c') ->
    shrunk D (CMix true div (CFlexArr (dist_o div) b (lefts l) r2i) r2c)
             (CMix true div (CFlexArr (dist_o div) b' (rights l) r2i) r2c).

Lemma shrunk_outputs : forall D c c', shrunk D c c' -> outputs c' = without D (outputs c).
Proof.
  induction 1 as [cs H|div l r2i r2c r2c' N _ IH K|div b b' l r2i r2c N _ IHb _ IH].
  - cbn [outputs]. induction cs as [|c cs IH]; [reflexivity|]. cbn [filter flat_map]. rewrite without_app.
    assert (IH' := IH (fun c' Hc' => H c' (or_intror Hc'))). destruct (apart D c) eqn:E.
    + cbn [flat_map]. rewrite IH'. f_equal. symmetry. apply without_none. apply apart_true. exact E.
    + rewrite IH'. rewrite (without_all D (outputs c)); [reflexivity|]. apply (H c); [now left|exact E].
  - cbn [outputs]. unfold without. cbn [filter]. rewrite (proj2 (inb_false _ _) N). cbn [negb]. f_equal.
    destruct l as [|[c c'] l]; [reflexivity|]. cbn [map fst snd]. apply IH. now left.
  - cbn [outputs]. unfold without. cbn [filter]. rewrite (proj2 (inb_false _ _) N). cbn [negb]. f_equal. exact IHb.
Qed.

Lemma In_lefts : forall l k c, In (k, c) (lefts l) -> exists c', In (k, (c, c')) l.
Proof.
  intros l k c H. apply in_map_iff in H. destruct H as ([k0 [c0 c1]] & E & H). cbn in E. injection E as <- <-. exists c1. exact H.
Qed.

Lemma In_rights : forall l k c', In (k, c') (rights l) -> exists c, In (k, (c, c')) l.
Proof.
  intros l k c H. apply in_map_iff in H. destruct H as ([k0 [c0 c1]] & E & H). cbn in E. injection E as <- <-. exists c0. exact H.
Qed.

Lemma keys_sides : forall l, keys (rights l) = keys (lefts l).
Proof. intros. unfold keys, lefts, rights. rewrite !map_map. reflexivity. Qed.

Lemma flat_map_filter_NoDup : forall (p : cgpm -> bool) cs, NoDup (flat_map outputs cs) -> NoDup (flat_map outputs (filter p cs)).
Proof.
  induction cs as [|c cs IH]; intros ND; [exact ND|]. cbn [flat_map] in ND. cbn [filter].
  destruct (NoDup_app_parts _ _ ND) as [A B]. destruct (p c); [|apply IH, B]. cbn [flat_map].
  apply NoDup_app_intro; [exact A|apply IH, B|]. intros x Hx Y. apply (NoDup_app_disj _ _ ND x Hx).
  apply in_flat_map in Y. destruct Y as (c' & Hc' & Hv). apply filter_In in Hc'. apply in_flat_map. exists c'. tauto.
Qed.

Lemma shrunk_wf : forall D c c', shrunk D c c' -> wf c -> wf c'.
Proof.
  intros D c c' SH. induction SH as [cs H|div l r2i r2c r2c' N SH IH K|div b b' l r2i r2c N SHb IHb SH IH]; intros W.
  - inversion W as [|cs0 Wc ND| |]; subst. constructor; [|apply flat_map_filter_NoDup, ND].
    intros c Hc. apply filter_In in Hc. apply Wc, Hc.
  - inversion W as [| |div0 cs0 r1 r2 Dd F SU NE Wc OO|]; subst. constructor; auto.
    + rewrite SU. rewrite !map_length. reflexivity.
    + destruct l; [exfalso; apply NE; reflexivity|discriminate].
    + intros c' Hc'. apply in_map_iff in Hc'. destruct Hc' as ([c0 c1] & <- & Hl). cbn. apply (IH c0 c1 Hl).
      apply Wc. apply (in_map fst) in Hl. exact Hl.
    + intros c' Hc'. apply in_map_iff in Hc'. destruct Hc' as ([c0 c1] & <- & Hl). cbn [snd].
      assert (O0 := OO c0 (in_map fst _ _ Hl)). rewrite (shrunk_outputs _ _ _ (SH c0 c1 Hl)). split.
      * destruct l as [|[a a'] l]; [destruct Hl|]. cbn [map hd fst snd] in O0 |- *.
        rewrite (shrunk_outputs _ _ _ (SH a a' (or_introl eq_refl))). now rewrite (proj1 O0).
      * intros X. apply without_In in X. tauto.
  - inversion W as [| | |div0 b0 cs0 r1 r2 Dd HS Wb NI ND Wc OO]; subst. apply wf_flex; auto.
    + rewrite (shrunk_outputs _ _ _ SHb). intros X. apply without_In in X. tauto.
    + rewrite keys_sides. exact ND.
    + intros k c' Hc'. apply In_rights in Hc'. destruct Hc' as (c0 & Hl). apply (IH k c0 c' Hl). apply (Wc k).
      apply (in_map (fun p => (fst p, fst (snd p)))) in Hl. exact Hl.
    + intros k c' Hc'. apply In_rights in Hc'. destruct Hc' as (c0 & Hl).
      rewrite (shrunk_outputs _ _ _ (SH k c0 c' Hl)), (shrunk_outputs _ _ _ SHb). f_equal. apply (OO k).
      apply (in_map (fun p => (fst p, fst (snd p)))) in Hl. exact Hl.
Qed.

Lemma shrunk_maps : forall D c c', shrunk D c c' -> maps c -> maps c'.
Proof.
  intros D c c' SH. induction SH as [cs H|div l r2i r2c r2c' N SH IH K|div b b' l r2i r2c N SHb IHb SH IH]; intros M.
  - rewrite maps_prod in *. intros c Hc. apply filter_In in Hc. apply M, Hc.
  - destruct M as [ND M]. split; [auto|]. rewrite maps_fin in *. destruct M as [ND2 M]. split; [exact ND2|].
    intros c' Hc'. apply in_map_iff in Hc'. destruct Hc' as ([c0 c1] & <- & Hl). apply (IH c0 c1 Hl). apply M.
    apply (in_map fst) in Hl. exact Hl.
  - destruct M as [ND M]. split; [exact ND|]. rewrite maps_flex in *. destruct M as (ND2 & Mb & M). repeat split; auto.
    intros k c' Hc'. apply In_rights in Hc'. destruct Hc' as (c0 & Hl). apply (IH k c0 c' Hl). apply (M k).
    apply (in_map (fun p => (fst p, fst (snd p)))) in Hl. exact Hl.
Qed.

(** *** Primitives *)

Lemma prims_outputs : forall c, wf c -> forall d, In d (prims c) -> In (dist_o d) (outputs c).
Proof.
  induction 1 as [d D|cs Wc IH ND|div cs r2i r2c D F SU NE Wc IH OO|div b cs r2i r2c D HS Wb IHb NI ND Wc IH OO]; intros x Hx.
  - cbn in Hx. destruct Hx as [<-|[]]. now left.
  - cbn [prims outputs] in *. apply in_flat_map in Hx. destruct Hx as (c & Hc & Hx). apply in_flat_map. exists c. auto.
  - cbn [prims outputs] in *. destruct Hx as [<-|Hx]; [now left|right]. apply in_flat_map in Hx. destruct Hx as (c & Hc & Hx).
    assert (X := IH c Hc x Hx). rewrite (proj1 (OO c Hc)) in X. destruct cs; [destruct Hc|exact X].
  - cbn [prims outputs] in *. destruct Hx as [<-|Hx]; [now left|right]. apply in_app_or in Hx. destruct Hx as [Hx|Hx]; [|auto].
    apply in_flat_map in Hx. destruct Hx as ([k c] & Hc & Hx). rewrite <- (OO k c Hc). apply (IH k c Hc x Hx).
Qed.

Definition at_col (v : Z) (d : dist) : bool := dist_o d =? v.

Lemma filter_none : forall {A} (f : A -> bool) l, (forall x, In x l -> f x = false) -> filter f l = [].
Proof.
  induction l as [|x l IH]; intros H; [reflexivity|]. cbn. rewrite H by now left. apply IH. intros. apply H. now right.
Qed.

Lemma filter_flat_map : forall {A B} (f : B -> bool) (g : A -> list B) l, filter f (flat_map g l) = flat_map (fun x => filter f (g x)) l.
Proof. induction l as [|x l IH]; [reflexivity|]. cbn. rewrite filter_app, IH. reflexivity. Qed.

Lemma modelling_none : forall c v, wf c -> ~ In v (outputs c) -> modelling c v = [].
Proof.
  intros c v W N. apply filter_none. intros d Hd. apply Z.eqb_neq. intros <-. apply N. apply prims_outputs; auto.
Qed.

Lemma modelling_prod : forall cs v, modelling (CProd cs) v = flat_map (fun c => modelling c v) cs.
Proof. intros. unfold modelling. cbn [prims]. apply filter_flat_map. Qed.

Lemma modelling_fin : forall div ix cs r2i r2c v, modelling (CMix false div (CFinArr ix cs r2i) r2c) v =
  (if dist_o div =? v then [div] else []) ++ flat_map (fun c => modelling c v) cs.
Proof.
  intros. unfold modelling. cbn [prims filter]. rewrite filter_flat_map. destruct (dist_o div =? v); reflexivity.
Qed.

Lemma modelling_flex : forall div ix b cs r2i r2c v, modelling (CMix true div (CFlexArr ix b cs r2i) r2c) v =
  (if dist_o div =? v then [div] else []) ++ flat_map (fun p => modelling (snd p) v) cs ++ modelling b v.
Proof.
  intros. unfold modelling. cbn [prims filter]. rewrite filter_app, filter_flat_map.
  assert (E : flat_map (fun x : val * cgpm => filter (fun d => dist_o d =? v) (let '(_, c') := x in prims c')) cs
            = flat_map (fun p => filter (fun d => dist_o d =? v) (prims (snd p))) cs).
  { induction cs as [|[k c] cs IH]; [reflexivity|]. cbn [flat_map snd]. rewrite IH. reflexivity. }
  rewrite E. destruct (dist_o div =? v); reflexivity.
Qed.

Lemma flat_map_eq : forall {A B C} (f : A -> list C) (g : B -> list C) (h : A -> B) l, (forall x, In x l -> f x = g (h x)) ->
  flat_map f l = flat_map g (map h l).
Proof. induction l as [|x l IH]; intros H; [reflexivity|]. cbn. rewrite H by now left. f_equal. apply IH. intros. apply H. now right. Qed.

Lemma shrunk_modelling : forall D c c', shrunk D c c' -> wf c -> forall v,
  modelling c' v = if existsb (Z.eqb v) D then [] else modelling c v.
Proof.
  intros D c c' SH. induction SH as [cs H|div l r2i r2c r2c' N SH IH K|div b b' l r2i r2c N SHb IHb SH IH]; intros W v.
  - inversion W as [|cs0 Wc ND| |]; subst. rewrite !modelling_prod. clear W ND.
    induction cs as [|c cs IH]; [destruct (existsb (Z.eqb v) D); reflexivity|]. cbn [filter flat_map].
    assert (IH' := IH (fun x Hx => H x (or_intror Hx)) (fun x Hx => Wc x (or_intror Hx))).
    assert (Wc0 := Wc c (or_introl eq_refl)). destruct (apart D c) eqn:E.
    + cbn [flat_map]. rewrite IH'. destruct (existsb (Z.eqb v) D) eqn:V; [|reflexivity].
      rewrite modelling_none; [reflexivity|exact Wc0|]. intros X. apply (proj1 (apart_true D c) E v X). apply inb_true, V.
    + rewrite IH'. destruct (existsb (Z.eqb v) D) eqn:V; [reflexivity|].
      rewrite (modelling_none c v Wc0); [reflexivity|]. intros X. apply inb_false in V. apply V. apply (H c); auto. now left.
  - inversion W as [| |div0 cs0 r1 r2 Dd F SU NE Wc OO|]; subst. rewrite !modelling_fin.
    assert (X : flat_map (fun c => modelling c v) (map snd l) =
                if existsb (Z.eqb v) D then [] else flat_map (fun c => modelling c v) (map fst l)).
    { clear - IH Wc. induction l as [|[c c'] l IHl]; [destruct (existsb (Z.eqb v) D); reflexivity|]. cbn [map fst snd flat_map].
      rewrite IHl; [|intros; apply IH; [now right|assumption]|intros; apply Wc; now right].
      rewrite (IH c c') by (first [now left | apply Wc; now left]). destruct (existsb (Z.eqb v) D); reflexivity. }
    rewrite X. destruct (existsb (Z.eqb v) D) eqn:V; [|reflexivity].
    destruct (dist_o div =? v) eqn:E; [|reflexivity]. apply Z.eqb_eq in E. apply inb_true in V. congruence.
  - inversion W as [| | |div0 b0 cs0 r1 r2 Dd HS Wb NI ND Wc OO]; subst. rewrite !modelling_flex.
    assert (X : flat_map (fun p => modelling (snd p) v) (rights l) =
                if existsb (Z.eqb v) D then [] else flat_map (fun p => modelling (snd p) v) (lefts l)).
    { clear - IH Wc. induction l as [|[k [c c']] l IHl]; [destruct (existsb (Z.eqb v) D); reflexivity|]. cbn [lefts rights map fst snd flat_map].
      unfold lefts, rights in *.
      rewrite IHl; [|intros; eapply IH; [right; eassumption|assumption]|intros; eapply Wc; right; eassumption].
      rewrite (IH k c c'); [|now left|apply (Wc k); now left]. destruct (existsb (Z.eqb v) D); reflexivity. }
    rewrite X, (IHb Wb v). destruct (existsb (Z.eqb v) D) eqn:V; [|reflexivity].
    destruct (dist_o div =? v) eqn:E; [|reflexivity]. apply Z.eqb_eq in E. apply inb_true in V. congruence.
Qed.

(** *** Densities *)

Lemma oseq_skip : forall {A} (f : A -> out xr) (p : A -> bool) l, (forall x, In x l -> p x = false -> f x = Ok (Fin 0%R)) ->
  omap xsum (oseq (map f (filter p l))) = omap xsum (oseq (map f l)).
Proof.
  induction l as [|x l IH]; intros H; [reflexivity|]. assert (IH' := IH (fun y Hy => H y (or_intror Hy))).
  cbn [filter map]. destruct (p x) eqn:E.
  - cbn [map oseq]. destruct (f x) as [a|e]; [|reflexivity].
    destruct (oseq (map f (filter p l))), (oseq (map f l)); cbn [omap] in IH' |- *; try discriminate.
    + injection IH' as IH'. rewrite !xsum_cons, IH'. reflexivity.
    + exact IH'.
  - rewrite IH'. cbn [oseq]. rewrite (H x (or_introl eq_refl) E). destruct (oseq (map f l)); [|reflexivity].
    cbn [omap]. rewrite xsum_cons, xadd_0_l. reflexivity.
Qed.

(** Two ways of answering that agree on what does not mention [D]. *)
Definition agree (D : list Z) (f g : logpdf_m) : Prop := forall rid T C I0,
  avoids D T -> avoids D C -> avoids D I0 -> f rid T C I0 = g rid T C I0.

Lemma agree_rid : forall D (f g : logpdf_m) rid, (forall T C I0, avoids D T -> avoids D C -> avoids D I0 -> f rid T C I0 = g rid T C I0) ->
  forall ix ox T C I0 z, ~ In ix D -> avoids D T -> avoids D C -> avoids D I0 ->
  mix_logpdf_one ix (without D ox) f rid T C I0 z = mix_logpdf_one ix ox g rid T C I0 z.
Proof.
  intros D f g rid H ix ox T C I0 z N HT HC HI. unfold mix_logpdf_one. rewrite !interd_without by assumption.
  destruct (interd ox T) as [|p Tx] eqn:E; [reflexivity|]. rewrite <- E. apply H; try (apply avoids_interd; assumption).
  apply avoids_merged; [apply avoids_interd; assumption|]. intros k Hk [X|[]]. cbn in X. subst. contradiction.
Qed.

Lemma mix_agree : forall D (f g : logpdf_m) rid div ox r2c r2c',
  (forall T C I0, avoids D T -> avoids D C -> avoids D I0 -> f rid T C I0 = g rid T C I0) ->
  ~ In (dist_o div) D -> (rid = None \/ r2c = r2c') ->
  forall T C I0, avoids D T -> avoids D C -> avoids D I0 ->
  mix_logpdf div (without D ox) r2c' f rid T C I0 = mix_logpdf div ox r2c g rid T C I0.
Proof.
  intros D f g rid div ox r2c r2c' H N R0 T C I0 HT HC HI.
  assert (One := agree_rid D f g rid H (dist_o div) ox).
  assert (Marg : forall T C, avoids D T -> avoids D C ->
    mix_logpdf_marg div (without D ox) f rid T C I0 = mix_logpdf_marg div ox g rid T C I0).
  { intros T0 C0 HT0 HC0. unfold mix_logpdf_marg. destruct (dist_support div) as [sup|]; [|reflexivity]. cbn [obind].
    destruct (oseq (map (fun z => dist_logpdf div rid [(dist_o div, vz z)] [] []) sup)); [|reflexivity]. cbn [obind].
    rewrite (oseq_ext _ (fun z => mix_logpdf_one (dist_o div) ox g rid C0 [] I0 (vz z))) by (intros; apply One; auto using avoids_nil).
    rewrite (oseq_ext (fun z => mix_logpdf_one (dist_o div) (without D ox) f rid T0 C0 I0 (vz z))
                      (fun z => mix_logpdf_one (dist_o div) ox g rid T0 C0 I0 (vz z))) by (intros; apply One; auto).
    reflexivity. }
  assert (Zero : forall C, avoids D C -> mix_logpdf0 div (without D ox) f rid C I0 = mix_logpdf0 div ox g rid C I0).
  { intros C0 HC0. unfold mix_logpdf0. destruct (lookup (dist_o div) C0) as [z|]; [|apply Marg; auto using avoids_nil].
    unfold mix_logpdf_z0. rewrite One by (auto using avoids_nil, avoids_merged). reflexivity. }
  unfold mix_logpdf.
  assert (ER : match rid with None => None | Some r => lookup r r2c' end = match rid with None => None | Some r => lookup r r2c end).
  { destruct R0 as [-> | ->]; reflexivity. }
  rewrite ER. destruct (match rid with None => None | Some r => lookup r r2c end) as [z|].
  - rewrite One by auto. reflexivity.
  - destruct (lookup (dist_o div) T) as [z|].
    + rewrite One by (auto using avoids_nil, avoids_merged). rewrite Zero by exact HC. reflexivity.
    + destruct (lookup (dist_o div) C) as [z|].
      * rewrite !One by (auto using avoids_nil, avoids_merged). reflexivity.
      * apply Marg; auto.
Qed.

Lemma lookup_sides : forall l (k : val), match lookup k (lefts l), lookup k (rights l) with
  | Some c, Some c' => In (k, (c, c')) l | None, None => True | _, _ => False end.
Proof.
  induction l as [|[k0 [c0 c1]] l IH]; intros k; cbn; [exact Logic.I|].
  destruct (eq_dec k k0) as [->|N]; [now left|]. specialize (IH k). unfold lefts, rights in IH.
  destruct (lookup k (map _ l)), (lookup k (map _ l)); auto.
Qed.

Lemma nth_error_map2 : forall {A B} (f : A -> B) l n, nth_error (map f l) n = match nth_error l n with Some x => Some (f x) | None => None end.
Proof. induction l as [|x l IH]; intros [|n]; cbn; auto. Qed.

Lemma py_index_len : forall {A B} (l : list A) (l' : list B) i, List.length l = List.length l' -> py_index l i = py_index l' i.
Proof. intros A B l l' i E. unfold py_index. rewrite E. reflexivity. Qed.

Lemma shrunk_logpdf : forall D c c', shrunk D c c' -> forall rid, rid = None \/ steady c -> forall T C I0,
  avoids D T -> avoids D C -> avoids D I0 -> logpdf c' rid T C I0 = logpdf c rid T C I0.
Proof.
  intros D c c' SH. induction SH as [cs H|div l r2i r2c r2c' N SH IH K|div b b' l r2i r2c N SHb IHb SH IH];
    intros rid R0 T C I0 HT HC HI.
  - cbn [logpdf]. unfold prod_logpdf. rewrite !map_map. apply oseq_skip. intros c Hc E. unfold logpdf_one.
    rewrite interd_out; [reflexivity|]. intros k Hk X. apply (HT k); [|exact Hk]. apply (H c Hc E k X).
  - cbn [logpdf]. assert (EO : outputs (CFinArr (dist_o div) (map snd l) r2i) = without D (outputs (CFinArr (dist_o div) (map fst l) r2i))).
    { destruct l as [|[c c'] l]; [reflexivity|]. cbn. apply shrunk_outputs. apply SH. now left. }
    rewrite EO. apply mix_agree; auto.
    + intros T0 C0 I1 HT0 HC0 HI0. unfold finarr_logpdf. destruct (lookup (dist_o div) I1) as [i|]; [|reflexivity].
      rewrite (py_index_len (map logpdf (map snd l)) (map logpdf (map fst l))) by (now rewrite !map_length).
      destruct (py_index (map logpdf (map fst l)) i) as [n|]; [|reflexivity]. cbn [obind].
      rewrite !map_map, !nth_error_map2. destruct (nth_error l n) as [[c c']|] eqn:E; [|reflexivity]. cbn [fst snd].
      apply IH; auto using avoids_ddel.
      * eapply nth_error_In; exact E.
      * destruct R0 as [R0|[R0 _]]; [now left|discriminate].
    + destruct R0 as [R0|[R0 _]]; [now left|discriminate].
  - cbn [logpdf]. change (outputs (CFlexArr (dist_o div) b (lefts l) r2i)) with (outputs b).
    change (outputs (CFlexArr (dist_o div) b' (rights l) r2i)) with (outputs b'). rewrite (shrunk_outputs _ _ _ SHb).
    apply mix_agree; auto.
    intros T0 C0 I1 HT0 HC0 HI0. unfold flexarr_logpdf. destruct (lookup (dist_o div) I1) as [i|]; [|reflexivity].
    assert (LM : forall cs : dict val cgpm, lookup i (map (fun p => let '(k, c') := p in (k, logpdf c')) cs) =
                 match lookup i cs with Some c => Some (logpdf c) | None => None end).
    { induction cs as [|[k c] cs IHc]; [reflexivity|]. cbn. destruct (eq_dec i k); [reflexivity|exact IHc]. }
    rewrite !LM. assert (X := lookup_sides l i).
    assert (R1 : rid = None \/ (steady b /\ forall k c, In (k, c) (lefts l) -> steady c)).
    { destruct R0 as [R0|[_ [R1 R2]]]; [now left|right]. split; [exact R1|]. rewrite each_In in R2. intros k c Hc. apply (R2 (k, c) Hc). }
    destruct (lookup i (lefts l)) as [c|] eqn:E1, (lookup i (rights l)) as [c'|]; try contradiction.
    + apply (IH i c c' X); auto using avoids_ddel. destruct R1 as [R1|[_ R1]]; [now left|right].
      apply (R1 i). apply lookup_In. exact E1.
    + apply IHb; auto using avoids_ddel. destruct R1 as [R1|[R1 _]]; [now left|now right].
Qed.

(** ** Removing *)

Fixpoint trim (o : Z) (c : cgpm) : cgpm :=
  match c with
  | CDist d => CDist d
  | CProd cs => CProd (filter (fun c' => negb (memb o (outputs c'))) cs)
  | CFinArr ix cs r2i => CFinArr ix (map (trim o) cs) r2i
  | CFlexArr ix base cs r2i => CFlexArr ix (trim o base) (map (fun p => let '(k, c') := p in (k, trim o c')) cs) r2i
  | CMix true div arr r2c => CMix true div (trim o arr) r2c
  | CMix false div arr r2c => CMix false div (trim o arr) []
  end.

Lemma filter_len : forall o cs, NoDup (flat_map outputs cs) ->
  List.length (filter (fun c' => negb (memb o (outputs c'))) cs) = List.length cs \/
  S (List.length (filter (fun c' => negb (memb o (outputs c'))) cs)) = List.length cs.
Proof.
  induction cs as [|c cs IH]; intros ND; [now left|]. cbn [flat_map] in ND. destruct (NoDup_app_parts _ _ ND) as [A B].
  cbn [filter]. destruct (memb o (outputs c)) eqn:E; cbn [negb List.length].
  - right. f_equal. f_equal. apply memb_In in E. clear - ND E.
    assert (X : forall c', In c' cs -> ~ In o (outputs c')).
    { intros c' Hc' Y. apply (NoDup_app_disj _ _ ND o E). apply in_flat_map. exists c'. auto. }
    clear ND. induction cs as [|c' cs IH]; [reflexivity|]. cbn [filter].
    rewrite (proj2 (memb_false o (outputs c'))) by (apply X; now left). cbn [negb]. f_equal. apply IH. intros. apply X. now right.
  - destruct (IH B) as [X|X]; [left|right]; lia.
Qed.

Lemma filter_map_NoInputs : forall cs, (forall c, In c cs -> wf c) -> flat_map inputs cs = [].
Proof.
  induction cs as [|c cs IH]; intros H; [reflexivity|]. cbn. rewrite (wf_inputs c) by (apply H; now left). apply IH. intros. apply H. now right.
Qed.

Lemma product_again : forall cs, (forall c, In c cs -> wf c) -> NoDup (flat_map outputs cs) -> new_product cs = Ok (CProd (flatten_products cs)).
Proof. intros cs W ND. apply new_product_ok; [exact ND|]. rewrite (filter_map_NoInputs _ W). intros i []. Qed.

Lemma remove_ok : forall o D c, wf c -> maps c -> cuts o D c -> remove_cgpm c o = Ok (trim o c).
Proof.
  intros o D c W. induction W as [d Dd|cs Wc IH ND|div cs r2i r2c Dd F SU NE Wc IH OO|div b cs r2i r2c Dd HS Wb IHb NI ND Wc IH OO]; intros M Cu.
  - destruct Cu.
  - cbn [remove_cgpm trim]. rewrite maps_prod in M.
    replace (Nat.eqb _ _ || Nat.eqb _ _) with true.
    2:{ symmetry. apply orb_true_iff. destruct (filter_len o cs ND) as [E|E]; rewrite E; [left|right]; apply Nat.eqb_refl. }
    cbn [oassert obind]. rewrite product_again.
    + rewrite flatten_flat; [reflexivity|]. intros c Hc. apply filter_In in Hc. apply M, Hc.
    + intros c Hc. apply filter_In in Hc. apply Wc, Hc.
    + apply flat_map_filter_NoDup, ND.
  - destruct M as [ND1 M]. rewrite maps_fin in M. destruct M as [ND2 M]. destruct Cu as [[N1 N2] Cu]. cbn [cuts] in Cu. rewrite each_In in Cu.
    cbn [remove_cgpm trim]. rewrite (proj2 (Z.eqb_neq _ _) N1). cbn [negb oassert obind].
    rewrite (oseq_map_ok _ (trim o)) by (intros c Hc; apply IH; auto). cbn [obind].
    assert (X : new_finarr (map (trim o) cs) (dist_o div) = Ok (CFinArr (dist_o div) (map (trim o) cs) [])).
    { destruct cs; [congruence|reflexivity]. }
    rewrite X. cbn [obind array_cgpms]. unfold new_finmix. rewrite SU, map_length. cbn [obind].
    rewrite (proj2 (eqb_true _ _) eq_refl). cbn [oassert obind]. rewrite X. reflexivity.
  - destruct M as [ND1 M]. rewrite maps_flex in M. destruct M as (ND2 & Mb & M). destruct Cu as [[N1 N2] [Cb Cu]]. rewrite each_In in Cu.
    cbn [remove_cgpm trim]. rewrite (proj2 (Z.eqb_neq _ _) N1). cbn [negb oassert obind]. rewrite (IHb Mb Cb). cbn [obind].
    rewrite (oseq_map_ok _ (fun p => let '(k, c') := p in (k, trim o c'))).
    + reflexivity.
    + intros [k c] Hc. rewrite (IH k c Hc (M k c Hc) (Cu (k, c) Hc)). reflexivity.
Qed.

Lemma outputs_some : forall c, wf c -> is_prod c = false -> outputs c <> [].
Proof. intros c W P. inversion W; subst; cbn; discriminate. Qed.

Lemma pair_map : forall {A B} (f : A -> B) l, l = map fst (map (fun x => (x, f x)) l) /\ map f l = map snd (map (fun x => (x, f x)) l).
Proof. intros. rewrite !map_map. split; [symmetry; apply map_id|reflexivity]. Qed.

Lemma trim_shrunk : forall o D c, wf c -> maps c -> cuts o D c -> shrunk D c (trim o c).
Proof.
  intros o D c W. induction W as [d Dd|cs Wc IH ND|div cs r2i r2c Dd F SU NE Wc IH OO|div b cs r2i r2c Dd HS Wb IHb NI ND Wc IH OO]; intros M Cu.
  - destruct Cu.
  - rewrite maps_prod in M. cbn [cuts] in Cu. rewrite each_In in Cu. cbn [trim].
    replace (filter (fun c' => negb (memb o (outputs c'))) cs) with (filter (apart D) cs).
    + apply sh_prod. intros c Hc A v Hv. destruct (in_dec Z.eq_dec o (outputs c)) as [X|X].
      * rewrite (proj1 (Cu c Hc) X) in Hv. exact Hv.
      * exfalso. assert (Y := proj2 (Cu c Hc) X). apply apart_true in Y. congruence.
    + apply filter_ext_in. intros c Hc. destruct (memb o (outputs c)) eqn:E; cbn [negb].
      * apply memb_In in E. apply not_true_is_false. intros A. apply (proj1 (apart_true D c) A o E).
        rewrite <- (proj1 (Cu c Hc) E). exact E.
      * apply memb_false in E. apply apart_true. apply (Cu c Hc). exact E.
  - destruct M as [ND1 M]. rewrite maps_fin in M. destruct M as [ND2 M]. destruct Cu as [[N1 N2] Cu]. cbn [cuts] in Cu. rewrite each_In in Cu.
    cbn [trim]. destruct (pair_map (trim o) cs) as [E1 E2]. rewrite E2. rewrite E1 at 1. apply sh_fin; [exact N2| |intros; constructor].
    intros c c' Hc. apply in_map_iff in Hc. destruct Hc as (x & E & Hx). injection E as <- <-. apply IH; auto.
  - destruct M as [ND1 M]. rewrite maps_flex in M. destruct M as (ND2 & Mb & M). destruct Cu as [[N1 N2] [Cb Cu]]. rewrite each_In in Cu.
    cbn [trim]. set (l := map (fun p => (fst p, (snd p, trim o (snd p)))) cs).
    assert (E1 : lefts l = cs).
    { unfold l, lefts. rewrite map_map. cbn. rewrite <- (map_id cs) at 2. apply map_ext. intros []; reflexivity. }
    assert (E2 : rights l = map (fun p => let '(k, c') := p in (k, trim o c')) cs).
    { unfold l, rights. rewrite map_map. cbn. apply map_ext. intros []; reflexivity. }
    rewrite <- E2. rewrite <- E1 at 1. apply sh_flex; [exact N2| |].
    + apply IHb; auto.
    + intros k c c' Hc. apply in_map_iff in Hc. destruct Hc as ([k0 x] & E & Hx). cbn in E. injection E as <- <- <-.
      apply (IH k0 x Hx (M k0 x Hx) (Cu (k0, x) Hx)).
Qed.

(** ** Adding *)

(** The children a Product gets when [new] is added. *)
Definition parts (new : cgpm) : list cgpm := match new with CProd l => l | _ => [new] end.

Fixpoint grow (new : cgpm) (c : cgpm) : cgpm :=
  match c with
  | CDist d => CDist d
  | CProd cs => CProd (cs ++ parts new)
  | CFinArr ix cs r2i => CFinArr ix (map (grow new) cs) r2i
  | CFlexArr ix base cs r2i => CFlexArr ix (grow new base) (map (fun p => let '(k, c') := p in (k, grow new c')) cs) r2i
  | CMix true div arr r2c => CMix true div (grow new arr) r2c
  | CMix false div arr r2c => CMix false div (grow new arr) []
  end.

Lemma flatten_app : forall cs cs', flatten_products (cs ++ cs') = flatten_products cs ++ flatten_products cs'.
Proof. intros. apply flat_map_app. Qed.

Lemma flatten_one : forall new, flatten_products [new] = parts new.
Proof. intros []; cbn; rewrite ?app_nil_r; reflexivity. Qed.

Lemma clone_ok : forall c, wf c -> maps c -> clone c = Ok c.
Proof. intros c W M. apply build_round_trip. apply wf_loadable; assumption. Qed.

Lemma parts_outputs : forall new, flat_map outputs (parts new) = outputs new.
Proof. intros []; cbn; rewrite ?app_nil_r; reflexivity. Qed.

Lemma parts_ok : forall new, wf new -> maps new -> forall c, In c (parts new) -> wf c /\ maps c /\ is_prod c = false.
Proof.
  intros new W M c Hc. destruct new as [d|l| | |]; cbn [parts] in Hc; try (destruct Hc as [<-|[]]; auto).
  inversion W; subst. rewrite maps_prod in M. destruct (M c Hc). auto.
Qed.

Lemma add_product : forall cs new, (forall c, In c cs -> wf c) -> (forall c, In c cs -> is_prod c = false) -> wf new ->
  NoDup (flat_map outputs cs ++ outputs new) -> new_product (cs ++ [new]) = Ok (CProd (cs ++ parts new)).
Proof.
  intros cs new W P Wn ND. rewrite product_again.
  - rewrite flatten_app, flatten_one, flatten_flat by exact P. reflexivity.
  - intros c Hc. apply in_app_or in Hc. destruct Hc as [Hc|[<-|[]]]; auto.
  - rewrite flat_map_app. cbn [flat_map]. rewrite app_nil_r. exact ND.
Qed.

Lemma add_ok : forall new c, wf c -> maps c -> wf new -> maps new -> open c -> NoDup (outputs c ++ outputs new) ->
  add_cgpm c new = Ok (grow new c).
Proof.
  intros new c W M Wn Mn. revert M. induction W as [d Dd|cs Wc IH ND|div cs r2i r2c Dd F SU NE Wc IH OO|div b cs r2i r2c Dd HS Wb IHb NI ND Wc IH OO]; intros M Op N.
  - destruct Op.
  - cbn [add_cgpm grow]. rewrite maps_prod in M. apply add_product; auto. intros c Hc. apply M, Hc.
  - destruct M as [ND1 M]. rewrite maps_fin in M. destruct M as [ND2 M]. cbn [open] in Op. rewrite each_In in Op.
    cbn [add_cgpm grow]. rewrite (oseq_map_ok _ (grow new)).
    2:{ intros c Hc. rewrite clone_ok by assumption. cbn [obind]. apply IH; auto.
        cbn [outputs] in N. rewrite (proj1 (OO c Hc)). destruct cs as [|c0 cs]; [destruct Hc|]. inversion N; assumption. }
    cbn [obind].
    assert (X : new_finarr (map (grow new) cs) (dist_o div) = Ok (CFinArr (dist_o div) (map (grow new) cs) [])).
    { destruct cs; [congruence|reflexivity]. }
    rewrite X. cbn [obind array_cgpms]. unfold new_finmix. rewrite SU, map_length. cbn [obind].
    rewrite (proj2 (eqb_true _ _) eq_refl). cbn [oassert obind]. rewrite X. reflexivity.
  - destruct M as [ND1 M]. rewrite maps_flex in M. destruct M as (ND2 & Mb & M). destruct Op as [Ob Op]. rewrite each_In in Op.
    cbn [outputs] in N. assert (Nb : NoDup (outputs b ++ outputs new)) by (inversion N; assumption).
    cbn [add_cgpm grow]. rewrite (IHb Mb Ob Nb). cbn [obind].
    rewrite (oseq_map_ok _ (fun p => let '(k, c') := p in (k, grow new c'))); [reflexivity|].
    intros [k c] Hc. rewrite clone_ok by assumption. cbn [obind]. rewrite (IH k c Hc (M k c Hc) (Op (k, c) Hc)); [reflexivity|].
    rewrite (OO k c Hc). exact Nb.
Qed.

Lemma add_open : forall new c, wf c -> wf new -> maps new -> forall c', add_cgpm c new = Ok c' -> open c.
Proof.
  intros new c W Wn Mn. induction W as [d Dd|cs Wc IH ND|div cs r2i r2c Dd F SU NE Wc IH OO|div b cs r2i r2c Dd HS Wb IHb NI ND Wc IH OO]; intros c' A.
  - discriminate.
  - exact Logic.I.
  - cbn [open]. apply each_In. intros c Hc. cbn [add_cgpm] in A. apply obind_ok in A. destruct A as (arr' & A & _).
    apply obind_ok in A. destruct A as (cs' & A & _). apply oseq_inv in A.
    assert (X : In (do n <- clone new; add_cgpm c n) (map Ok cs')).
    { rewrite <- A. apply (in_map (fun c' => do n <- clone new; add_cgpm c' n)). exact Hc. }
    apply in_map_iff in X. destruct X as (x & E & _). rewrite clone_ok in E by assumption. cbn [obind] in E. apply (IH c Hc x). auto.
  - cbn [open]. rewrite each_In. cbn [add_cgpm] in A. apply obind_ok in A. destruct A as (arr' & A & _).
    apply obind_ok in A. destruct A as (b' & Ab & A). split; [apply (IHb b' Ab)|].
    apply obind_ok in A. destruct A as (cs' & A & _). apply oseq_inv in A. intros [k c] Hc.
    assert (X : In (do n <- clone new; do c2 <- add_cgpm c n; Ok (k, c2)) (map Ok cs')).
    { rewrite <- A. apply (in_map (fun p : val * cgpm => let '(k, c') := p in do n <- clone new; do c2 <- add_cgpm c' n; Ok (k, c2)) cs (k, c)). exact Hc. }
    apply in_map_iff in X. destruct X as (x & E & _). rewrite clone_ok in E by assumption. cbn [obind] in E.
    destruct (add_cgpm c new) as [c2|] eqn:Ec; [|discriminate]. apply (IH k c Hc c2). exact Ec.
Qed.

Lemma filter_all : forall {A} (f : A -> bool) l, (forall x, In x l -> f x = true) -> filter f l = l.
Proof.
  induction l as [|x l IH]; intros H; [reflexivity|]. cbn. rewrite H by now left. f_equal. apply IH. intros. apply H. now right.
Qed.

(** What was added can be taken out again. *)
Lemma grow_shrunk : forall new c, wf c -> maps c -> wf new -> maps new -> open c -> NoDup (outputs c ++ outputs new) ->
  shrunk (outputs new) (grow new c) c.
Proof.
  intros new c W M Wn Mn. revert M. induction W as [d Dd|cs Wc IH ND|div cs r2i r2c Dd F SU NE Wc IH OO|div b cs r2i r2c Dd HS Wb IHb NI ND Wc IH OO]; intros M Op N.
  - destruct Op.
  - cbn [grow]. replace (CProd cs) with (CProd (filter (apart (outputs new)) (cs ++ parts new))).
    + apply sh_prod. intros c Hc A v Hv. apply in_app_or in Hc. destruct Hc as [Hc|Hc].
      * exfalso. assert (Y : apart (outputs new) c = true); [|congruence]. apply apart_true. intros w Hw.
        apply (NoDup_app_disj _ _ N). cbn [outputs]. apply in_flat_map. exists c. auto.
      * rewrite <- (parts_outputs new). apply in_flat_map. exists c. auto.
    + f_equal. rewrite filter_app. rewrite (filter_all _ cs), (filter_none _ (parts new)); [apply app_nil_r| |].
      * intros c Hc. apply not_true_is_false. intros A. destruct (parts_ok new Wn Mn c Hc) as (Wc0 & _ & Pc).
        assert (NE := outputs_some c Wc0 Pc). destruct (outputs c) as [|v vs] eqn:E; [congruence|].
        apply (proj1 (apart_true _ c) A v); [rewrite E; now left|].
        rewrite <- (parts_outputs new). apply in_flat_map. exists c. split; [exact Hc|]. rewrite E. now left.
      * intros c Hc. apply apart_true. intros w Hw. apply (NoDup_app_disj _ _ N). cbn [outputs]. apply in_flat_map. exists c. auto.
  - destruct M as [ND1 M]. rewrite maps_fin in M. destruct M as [ND2 M]. cbn [open] in Op. rewrite each_In in Op.
    cbn [grow]. set (l := map (fun c => (grow new c, c)) cs).
    assert (E1 : map fst l = map (grow new) cs) by (unfold l; rewrite map_map; reflexivity).
    assert (E2 : map snd l = cs) by (unfold l; rewrite map_map; apply map_id).
    rewrite <- E1. rewrite <- E2 at 1. apply sh_fin.
    + apply (NoDup_app_disj _ _ N). now left.
    + intros c c' Hc. apply in_map_iff in Hc. destruct Hc as (x & E & Hx). injection E as <- <-. apply IH; auto.
      cbn [outputs] in N. rewrite (proj1 (OO x Hx)). destruct cs as [|c0 cs]; [destruct Hx|]. inversion N; assumption.
    + intros _. exact ND1.
  - destruct M as [ND1 M]. rewrite maps_flex in M. destruct M as (ND2 & Mb & M). destruct Op as [Ob Op]. rewrite each_In in Op.
    cbn [outputs] in N. assert (Nb : NoDup (outputs b ++ outputs new)) by (inversion N; assumption).
    cbn [grow]. set (l := map (fun p : val * cgpm => (fst p, (grow new (snd p), snd p))) cs).
    assert (E1 : lefts l = map (fun p => let '(k, c') := p in (k, grow new c')) cs).
    { unfold l, lefts. rewrite map_map. cbn. apply map_ext. intros []; reflexivity. }
    assert (E2 : rights l = cs).
    { unfold l, rights. rewrite map_map. cbn. rewrite <- (map_id cs) at 2. apply map_ext. intros []; reflexivity. }
    rewrite <- E1. rewrite <- E2 at 1. apply sh_flex.
    + intros X. apply (NoDup_app_disj (dist_o div :: outputs b) (outputs new) N (dist_o div)); [now left|exact X].
    + apply IHb; auto.
    + intros k c c' Hc. apply in_map_iff in Hc. destruct Hc as ([k0 x] & E & Hx). cbn in E. injection E as <- <- <-.
      apply (IH k0 x Hx (M k0 x Hx) (Op (k0, x) Hx)). rewrite (OO k0 x Hx). exact Nb.
Qed.

Lemma grow_outputs : forall new c, wf c -> open c -> outputs (grow new c) = outputs c ++ outputs new.
Proof.
  intros new c W. induction W as [d Dd|cs Wc IH ND|div cs r2i r2c Dd F SU NE Wc IH OO|div b cs r2i r2c Dd HS Wb IHb NI ND Wc IH OO]; intros Op.
  - destruct Op.
  - cbn [grow outputs]. rewrite flat_map_app, parts_outputs. reflexivity.
  - cbn [open] in Op. rewrite each_In in Op. cbn [grow outputs]. destruct cs as [|c cs]; [congruence|]. cbn [map app]. f_equal.
    apply IH; [now left|apply Op; now left].
  - destruct Op as [Ob Op]. cbn [grow outputs app]. f_equal. apply IHb. exact Ob.
Qed.

Lemma grow_wf : forall new c, wf c -> maps c -> wf new -> maps new -> open c -> NoDup (outputs c ++ outputs new) ->
  wf (grow new c) /\ maps (grow new c).
Proof.
  intros new c W M Wn Mn. revert M. induction W as [d Dd|cs Wc IH ND|div cs r2i r2c Dd F SU NE Wc IH OO|div b cs r2i r2c Dd HS Wb IHb NI ND Wc IH OO]; intros M Op N.
  - destruct Op.
  - cbn [grow]. rewrite maps_prod in M. split.
    + constructor.
      * intros c Hc. apply in_app_or in Hc. destruct Hc as [Hc|Hc]; [auto|]. apply (parts_ok new Wn Mn c Hc).
      * rewrite flat_map_app, parts_outputs. exact N.
    + apply maps_prod. intros c Hc. apply in_app_or in Hc. destruct Hc as [Hc|Hc]; [auto|]. apply (parts_ok new Wn Mn c Hc).
  - destruct M as [ND1 M]. rewrite maps_fin in M. destruct M as [ND2 M]. cbn [open] in Op. rewrite each_In in Op.
    assert (X : forall c, In c cs -> NoDup (outputs c ++ outputs new)).
    { intros c Hc. cbn [outputs] in N. rewrite (proj1 (OO c Hc)). destruct cs as [|c0 cs]; [destruct Hc|]. inversion N; assumption. }
    cbn [grow]. split.
    + constructor; auto.
      * rewrite map_length. exact SU.
      * destruct cs; [congruence|discriminate].
      * intros c Hc. apply in_map_iff in Hc. destruct Hc as (x & <- & Hx). apply IH; auto.
      * intros c Hc. apply in_map_iff in Hc. destruct Hc as (x & <- & Hx). rewrite (grow_outputs new x) by auto. split.
        -- destruct cs as [|c0 cs]; [destruct Hx|]. cbn [map hd]. rewrite grow_outputs by (first [apply Wc; now left|apply Op; now left]).
           f_equal. apply (OO x Hx).
        -- intros Y. apply in_app_or in Y. destruct Y as [Y|Y]; [apply (proj2 (OO x Hx) Y)|].
           apply (NoDup_app_disj _ _ N (dist_o div)); [now left|exact Y].
    + split; [constructor|]. apply maps_fin. split; [exact ND2|]. intros c Hc. apply in_map_iff in Hc. destruct Hc as (x & <- & Hx). apply IH; auto.
  - destruct M as [ND1 M]. rewrite maps_flex in M. destruct M as (ND2 & Mb & M). destruct Op as [Ob Op]. rewrite each_In in Op.
    cbn [outputs] in N. assert (Nb : NoDup (outputs b ++ outputs new)) by (inversion N; assumption).
    assert (X : forall k c, In (k, c) cs -> wf (grow new c) /\ maps (grow new c)).
    { intros k c Hc. apply (IH k c Hc (M k c Hc) (Op (k, c) Hc)). rewrite (OO k c Hc). exact Nb. }
    cbn [grow]. split.
    + apply wf_flex; auto.
      * apply IHb; auto.
      * rewrite grow_outputs by assumption. intros Y. apply in_app_or in Y. destruct Y as [Y|Y]; [contradiction|].
        apply (NoDup_app_disj (dist_o div :: outputs b) (outputs new) N (dist_o div)); [now left|exact Y].
      * replace (keys (map _ cs)) with (keys cs); [exact ND|]. unfold keys. rewrite map_map. apply map_ext. intros []; reflexivity.
      * intros k c Hc. apply in_map_iff in Hc. destruct Hc as ([k0 x] & E & Hx). injection E as <- <-. apply (X k0 x Hx).
      * intros k c Hc. apply in_map_iff in Hc. destruct Hc as ([k0 x] & E & Hx). injection E as <- <-.
        rewrite !grow_outputs; auto; [f_equal; apply (OO k0 x Hx)|apply (Wc k0 x Hx)|apply (Op (k0, x) Hx)].
    + split; [exact ND1|]. apply maps_flex. split; [exact ND2|]. split; [apply IHb; auto|].
      intros k c Hc. apply in_map_iff in Hc. destruct Hc as ([k0 x] & E & Hx). injection E as <- <-. apply (X k0 x Hx).
Qed.

(** *** The new columns *)

Lemma parts_modelling : forall new v, flat_map (fun c => modelling c v) (parts new) = modelling new v.
Proof.
  intros new v. destruct new as [d|l| | |]; cbn [parts flat_map]; rewrite ?app_nil_r; try reflexivity.
  symmetry. apply modelling_prod.
Qed.

Lemma copies_app : forall {A} (l : list A) n m, List.concat (repeat l n) ++ List.concat (repeat l m) = List.concat (repeat l (n + m)).
Proof. intros. rewrite repeat_app, concat_app. reflexivity. Qed.

Lemma grow_modelling : forall new c, wf c -> open c -> forall v, In v (outputs new) -> ~ In v (outputs c) ->
  exists n, (0 < n)%nat /\ modelling (grow new c) v = List.concat (repeat (modelling new v) n).
Proof.
  intros new c W. induction W as [d Dd|cs Wc IH ND|div cs r2i r2c Dd F SU NE Wc IH OO|div b cs r2i r2c Dd HS Wb IHb NI ND Wc IH OO]; intros Op v V N.
  - destruct Op.
  - exists 1%nat. split; [lia|]. cbn [grow]. rewrite modelling_prod, flat_map_app, parts_modelling. cbn. rewrite app_nil_r.
    rewrite <- modelling_prod, modelling_none; [reflexivity| |exact N]. constructor; assumption.
  - cbn [open] in Op. rewrite each_In in Op. cbn [grow]. rewrite modelling_fin.
    assert (E : (dist_o div =? v) = false) by (apply Z.eqb_neq; intros <-; apply N; now left). rewrite E. cbn [app].
    assert (X : forall c, In c cs -> exists n, (0 < n)%nat /\ modelling (grow new c) v = List.concat (repeat (modelling new v) n)).
    { intros c Hc. apply IH; auto. intros Y. apply N. cbn [outputs]. right. rewrite (proj1 (OO c Hc)) in Y. destruct cs; [destruct Hc|exact Y]. }
    clear - X NE. destruct cs as [|c cs]; [congruence|]. cbn [map flat_map].
    destruct (X c (or_introl eq_refl)) as (n & Pn & En). rewrite En.
    assert (Y : exists m, flat_map (fun c => modelling c v) (map (grow new) cs) = List.concat (repeat (modelling new v) m)).
    { assert (X' := fun x Hx => X x (or_intror Hx)). clear - X'. induction cs as [|c cs IH]; [exists 0%nat; reflexivity|].
      cbn [map flat_map]. destruct (X' c (or_introl eq_refl)) as (n & _ & ->). destruct IH as (m & ->); [intros; apply X'; now right|].
      exists (n + m)%nat. apply copies_app. }
    destruct Y as (m & ->). exists (n + m)%nat. split; [lia|apply copies_app].
  - destruct Op as [Ob Op]. rewrite each_In in Op. cbn [grow]. rewrite modelling_flex.
    assert (E : (dist_o div =? v) = false) by (apply Z.eqb_neq; intros <-; apply N; now left). rewrite E. cbn [app].
    destruct (IHb Ob v V) as (n & Pn & ->); [intros Y; apply N; cbn [outputs]; right; exact Y|].
    assert (X : forall k c, In (k, c) cs -> exists n, (0 < n)%nat /\ modelling (grow new c) v = List.concat (repeat (modelling new v) n)).
    { intros k c Hc. apply (IH k c Hc (Op (k, c) Hc) v V). rewrite (OO k c Hc). intros Y. apply N. cbn [outputs]. right. exact Y. }
    assert (Y : exists m, flat_map (fun p => modelling (snd p) v) (map (fun p => let '(k, c') := p in (k, grow new c')) cs) = List.concat (repeat (modelling new v) m)).
    { clear - X. induction cs as [|[k c] cs IH]; [exists 0%nat; reflexivity|].
      cbn [map flat_map snd]. destruct (X k c (or_introl eq_refl)) as (n & _ & ->). destruct IH as (m & ->); [intros; eapply X; right; eassumption|].
      exists (n + m)%nat. apply copies_app. }
    destruct Y as (m & ->). exists (m + n)%nat. split; [lia|apply copies_app].
Qed.

(** *** Removing what was added *)

Lemma trim_grow : forall new o c, wf c -> open c -> is_prod new = false -> In o (outputs new) -> ~ In o (outputs c) ->
  trim o (grow new c) = forget c.
Proof.
  intros new o c W. induction W as [d Dd|cs Wc IH ND|div cs r2i r2c Dd F SU NE Wc IH OO|div b cs r2i r2c Dd HS Wb IHb NI ND Wc IH OO]; intros Op P V N.
  - destruct Op.
  - cbn [grow trim forget]. f_equal. assert (EP : parts new = [new]) by (destruct new; try reflexivity; discriminate).
    rewrite EP, filter_app. cbn [filter]. rewrite (proj2 (memb_In _ _) V). cbn [negb]. rewrite app_nil_r. apply filter_all.
    intros c Hc. apply negb_true_iff, memb_false. intros X. apply N. cbn [outputs]. apply in_flat_map. exists c. auto.
  - cbn [open] in Op. rewrite each_In in Op. cbn [grow trim forget]. f_equal. f_equal. rewrite map_map. apply map_ext_in. intros c Hc.
    apply IH; auto. intros Y. apply N. cbn [outputs]. right. rewrite (proj1 (OO c Hc)) in Y. destruct cs; [destruct Hc|exact Y].
  - destruct Op as [Ob Op]. rewrite each_In in Op. cbn [grow trim forget]. f_equal. f_equal.
    + apply IHb; auto. intros Y. apply N. cbn [outputs]. right. exact Y.
    + rewrite map_map. apply map_ext_in. intros [k c] Hc. f_equal. apply (IH k c Hc (Op (k, c) Hc)); auto.
      rewrite (OO k c Hc). intros Y. apply N. cbn [outputs]. right. exact Y.
Qed.

Lemma grow_cuts : forall new o c, wf c -> open c -> is_prod new = false -> In o (outputs new) -> NoDup (outputs c ++ outputs new) ->
  cuts o (outputs new) (grow new c).
Proof.
  intros new o c W. induction W as [d Dd|cs Wc IH ND|div cs r2i r2c Dd F SU NE Wc IH OO|div b cs r2i r2c Dd HS Wb IHb NI ND Wc IH OO]; intros Op P V N.
  - destruct Op.
  - cbn [grow cuts]. assert (EP : parts new = [new]) by (destruct new; try reflexivity; discriminate). rewrite EP. apply each_In.
    intros c Hc. apply in_app_or in Hc. destruct Hc as [Hc|[<-|[]]].
    + assert (X : forall v, In v (outputs c) -> ~ In v (outputs new)).
      { intros v Hv. apply (NoDup_app_disj _ _ N). cbn [outputs]. apply in_flat_map. exists c. auto. }
      split; [|auto]. intros Y. exfalso. apply (X o Y V).
    + split; [reflexivity|]. intros Y. contradiction.
  - cbn [open] in Op. rewrite each_In in Op. cbn [grow cuts]. rewrite each_In.
    assert (ND : ~ In (dist_o div) (outputs new)) by (apply (NoDup_app_disj _ _ N); now left).
    split; [split; [intros ->; contradiction|exact ND]|].
    intros c Hc. apply in_map_iff in Hc. destruct Hc as (x & <- & Hx). apply IH; auto.
    cbn [outputs] in N. rewrite (proj1 (OO x Hx)). destruct cs as [|c0 cs]; [destruct Hx|]. inversion N; assumption.
  - destruct Op as [Ob Op]. rewrite each_In in Op. cbn [grow cuts]. rewrite each_In.
    assert (NDi : ~ In (dist_o div) (outputs new)) by (apply (NoDup_app_disj (dist_o div :: outputs b) _ N); now left).
    assert (Nb : NoDup (outputs b ++ outputs new)) by (cbn [outputs] in N; inversion N; assumption).
    split; [split; [intros ->; contradiction|exact NDi]|]. split; [apply IHb; auto|].
    intros p Hp. apply in_map_iff in Hp. destruct Hp as ([k x] & <- & Hx). apply (IH k x Hx (Op (k, x) Hx)); auto.
    rewrite (OO k x Hx). exact Nb.
Qed.

Lemma forget_prims : forall c, prims (forget c) = prims c.
Proof.
  induction c as [d|cs IH|ix cs r2i IH|ix b cs r2i IHb IH|flex div arr r2c IH] using cgpm_ind_In; try reflexivity.
  - cbn [forget prims]. rewrite flat_map_concat_map, map_map, flat_map_concat_map. f_equal. apply map_ext_in. auto.
  - cbn [forget prims]. rewrite IHb. f_equal. rewrite !flat_map_concat_map, map_map. f_equal. apply map_ext_in.
    intros [k c] Hc. apply (IH k c Hc).
  - destruct flex; cbn [forget prims]; rewrite IH; reflexivity.
Qed.

Lemma map_same : forall {A} (f : A -> A) l, (forall x, In x l -> f x = x) -> map f l = l.
Proof. intros A f l H. rewrite <- (map_id l) at 2. apply map_ext_in. exact H. Qed.

Lemma forget_outputs : forall c, outputs (forget c) = outputs c.
Proof.
  induction c as [d|cs IH|ix cs r2i IH|ix b cs r2i IHb IH|flex div arr r2c IH] using cgpm_ind_In; try reflexivity.
  - cbn [forget outputs]. destruct cs as [|c cs]; [reflexivity|]. apply IH. now left.
  - exact IHb.
  - destruct flex; cbn [forget outputs]; rewrite IH; reflexivity.
Qed.

Lemma forget_steady : forall c, steady c -> forget c = c.
Proof.
  induction c as [d|cs IH|ix cs r2i IH|ix b cs r2i IHb IH|flex div arr r2c IH] using cgpm_ind_In; intros S; try reflexivity.
  - cbn [forget]. f_equal. cbn [steady] in S. rewrite each_In in S. apply map_same. auto.
  - cbn [forget]. destruct S as [Sb S]. rewrite each_In in S. rewrite (IHb Sb). f_equal. apply map_same.
    intros [k c] Hc. f_equal. apply (IH k c Hc). apply (S (k, c) Hc).
  - destruct S as [-> S]. cbn [forget]. rewrite (IH S). reflexivity.
Qed.

Lemma shrunk_forget : forall c, wf c -> open c -> shrunk [] c (forget c).
Proof.
  intros c W. induction W as [d Dd|cs Wc IH ND|div cs r2i r2c Dd F SU NE Wc IH OO|div b cs r2i r2c Dd HS Wb IHb NI ND Wc IH OO]; intros Op.
  - destruct Op.
  - cbn [forget]. assert (A : forall c, In c cs -> apart [] c = true) by (intros; apply apart_true; intros v _ []).
    assert (E : filter (apart []) cs = cs) by (apply filter_all; exact A).
    rewrite <- E at 2. apply sh_prod. intros c Hc X. rewrite A in X by exact Hc. discriminate.
  - cbn [open] in Op. rewrite each_In in Op. cbn [forget]. destruct (pair_map forget cs) as [E1 E2]. rewrite E2. rewrite E1 at 1.
    apply sh_fin; [intros []| |intros; constructor]. intros c c' Hc. apply in_map_iff in Hc. destruct Hc as (x & E & Hx). injection E as <- <-. auto.
  - destruct Op as [Ob Op]. rewrite each_In in Op. cbn [forget].
    set (l := map (fun p => (fst p, (snd p, forget (snd p)))) cs).
    assert (E1 : lefts l = cs).
    { unfold l, lefts. rewrite map_map. cbn. rewrite <- (map_id cs) at 2. apply map_ext. intros []; reflexivity. }
    assert (E2 : rights l = map (fun p => let '(k, c') := p in (k, forget c')) cs).
    { unfold l, rights. rewrite map_map. cbn. apply map_ext. intros []; reflexivity. }
    rewrite <- E2. rewrite <- E1 at 1. apply sh_flex; [intros []|apply IHb; exact Ob|].
    intros k c c' Hc. apply in_map_iff in Hc. destruct Hc as ([k0 x] & E & Hx). cbn in E. injection E as <- <- <-.
    apply (IH k0 x Hx (Op (k0, x) Hx)).
Qed.

(** ** States with columns added and removed *)

Lemma grown_sound : forall c, grown c -> wf c /\ maps c.
Proof.
  induction 1 as [d Rd|cs c _ IH N|div cs c Rd K _ IH OO N|div base K Rd SU _ IH NI|c rid obs ins c' res _ IH P|
                  c rid c' res _ IH U|c c' _ IH R0|c o D c' _ IH Cu E|c new c' _ IH _ IHn ND A].
  - split; [constructor; apply reachable_dinv; exact Rd|exact Logic.I].
  - apply new_product_inv in N. destruct N as (-> & ND & _). split.
    + constructor; [apply flatten_wf; intros; apply IH; assumption|rewrite flatten_outputs; exact ND].
    + apply flatten_maps. intros. apply IH. assumption.
  - unfold new_finmix in N. apply obind_ok in N. destruct N as (sup & SU & N).
    apply obind_ok in N. destruct N as (u & A & N). apply oassert_ok in A. apply eqb_true in A. subst sup.
    destruct cs as [|c0 cs]; [discriminate|]. injection N as <-. split.
    + constructor; auto using reachable_dinv; try congruence.
      * destruct div; cbn in SU, K |- *; try discriminate; auto.
      * intros. apply IH. assumption.
    + split; [constructor|]. apply maps_fin. split; [constructor|intros; apply IH; assumption].
  - split.
    + apply wf_flex; auto using reachable_dinv; try apply IH.
      * eapply support_has; eauto.
      * constructor.
      * intros ? ? [].
      * intros ? ? [].
    + split; [constructor|]. apply maps_flex. split; [constructor|]. split; [apply IH|]. intros ? ? [].
  - destruct IH as [W M]. split.
    + destruct (always_possible _ _ _ (observe_wf c W rid obs ins) P) as ([c1 r1] & [W1 _] & E). injection E as -> ->. exact W1.
    + destruct (always_possible _ _ _ (observe_maps c M rid obs ins) P) as ([c1 r1] & [W1 _] & E). injection E as -> ->. exact W1.
  - destruct IH as [W M]. split.
    + assert (Kc := unobserve_wf c W rid). rewrite U in Kc. apply Kc.
    + assert (Kc := unobserve_maps c rid M). rewrite U in Kc. apply Kc.
  - destruct IH as [W M]. split; [apply (proj1 (retuned_kept _ _ R0) W)|apply (retuned_maps _ _ R0 M)].
  - destruct IH as [W M]. rewrite (remove_ok o D c W M Cu) in E. injection E as <-.
    assert (SH := trim_shrunk o D c W M Cu). split; [apply (shrunk_wf _ _ _ SH W)|apply (shrunk_maps _ _ _ SH M)].
  - destruct IH as [W M], IHn as [Wn Mn]. assert (Op := add_open new c W Wn Mn c' A).
    rewrite (add_ok new c W M Wn Mn Op ND) in A. injection A as <-. apply grow_wf; assumption.
Qed.

Lemma grown_wf : forall c, grown c -> wf c.
Proof. intros c G. apply (grown_sound c G). Qed.

Lemma grown_maps : forall c, grown c -> maps c.
Proof. intros c G. apply (grown_sound c G). Qed.

Lemma creachable_grown : forall c, creachable c -> grown c.
Proof.
  induction 1 as [d Rd|cs c _ IH N|div cs c Rd K _ IH OO N|div base K Rd SU _ IH NI|c rid obs ins c' res _ IH P|
                  c rid c' res _ IH U|c c' _ IH R0].
  - constructor. exact Rd.
  - eapply gr_product; eauto.
  - eapply gr_finite; eauto.
  - eapply gr_flexible; eauto.
  - eapply gr_observe; eauto.
  - eapply gr_unobserve; eauto.
  - eapply gr_retuned; eauto.
Qed.

(** ** Finding columns *)

Lemma omap_concat_ok : forall {A B} (f : A -> out (list B)) (g : A -> list B) l, (forall x, In x l -> f x = Ok (g x)) ->
  omap (@List.concat B) (oseq (map f l)) = Ok (flat_map g l).
Proof. intros A B f g l H. rewrite (oseq_map_ok f g l H). cbn. rewrite flat_map_concat_map. reflexivity. Qed.

Lemma find_ok : forall c, wf c -> forall o, In o (outputs c) -> get_cgpms_by_output_index c o = Ok (modelling c o).
Proof.
  intros c W. induction W as [d Dd|cs Wc IH ND|div cs r2i r2c Dd F SU NE Wc IH OO|div b cs r2i r2c Dd HS Wb IHb NI ND Wc IH OO]; intros o V.
  - cbn. unfold modelling. cbn. destruct (dist_o d =? o); reflexivity.
  - cbn [get_cgpms_by_output_index]. rewrite modelling_prod. cbn [outputs] in V. clear - Wc IH ND V.
    induction cs as [|c cs IHcs]; [destruct V|]. cbn [map filter fst flat_map] in *. destruct (memb o (outputs c)) eqn:E.
    + apply memb_In in E.
      assert (X : forall c', In c' cs -> ~ In o (outputs c')).
      { intros c' Hc' Y. apply (NoDup_app_disj _ _ ND o E). apply in_flat_map. exists c'. auto. }
      rewrite (filter_none _ (map _ cs)).
      2:{ intros p Hp. apply in_map_iff in Hp. destruct Hp as (c' & <- & Hc'). cbn [fst]. apply memb_false. auto. }
      rewrite (IH c (or_introl eq_refl) o E). f_equal.
      assert (Y : flat_map (fun c0 => modelling c0 o) cs = []).
      { assert (Wc' := fun x Hx => Wc x (or_intror Hx)). clear - X Wc'. induction cs as [|c' cs IH]; [reflexivity|]. cbn [flat_map].
        rewrite modelling_none by (first [apply Wc'; now left|apply X; now left]). apply IH; intros; [apply X; now right|apply Wc'; now right]. }
      rewrite Y, app_nil_r. reflexivity.
    + apply memb_false in E. rewrite (modelling_none c o) by (first [apply Wc; now left|exact E]). cbn [app].
      apply IHcs; try (intros; apply Wc; now right); try (intros; apply IH; auto; now right).
      * apply (NoDup_app_parts _ _ ND).
      * apply in_app_or in V. destruct V; [contradiction|assumption].
  - cbn [get_cgpms_by_output_index]. rewrite modelling_fin. destruct (dist_o div =? o) eqn:E.
    + apply Z.eqb_eq in E. subst o. assert (Y : flat_map (fun c => modelling c (dist_o div)) cs = []).
      { clear - Wc OO. assert (X : forall c, In c cs -> modelling c (dist_o div) = []) by (intros; apply modelling_none; [auto|apply OO; assumption]).
        clear - X. induction cs as [|c cs IH]; [reflexivity|]. cbn [flat_map]. rewrite X by now left. apply IH. intros. apply X. now right. }
      rewrite Y. reflexivity.
    + cbn [app]. apply omap_concat_ok. intros c Hc. apply IH; [exact Hc|]. rewrite (proj1 (OO c Hc)).
      apply Z.eqb_neq in E. destruct V as [V|V]; [congruence|]. destruct cs; [destruct Hc|exact V].
  - cbn [get_cgpms_by_output_index]. rewrite modelling_flex. destruct (dist_o div =? o) eqn:E.
    + apply Z.eqb_eq in E. subst o. assert (Y : flat_map (fun p => modelling (snd p) (dist_o div)) cs = []).
      { assert (X : forall p, In p cs -> modelling (snd p) (dist_o div) = []).
        { intros [k c] Hc. cbn. apply modelling_none; [apply (Wc k c Hc)|]. rewrite (OO k c Hc). exact NI. }
        clear - X. induction cs as [|c cs IH]; [reflexivity|]. cbn [flat_map]. rewrite X by now left. apply IH. intros. apply X. now right. }
      rewrite Y, (modelling_none b) by assumption. reflexivity.
    + cbn [app]. apply Z.eqb_neq in E. assert (Vb : In o (outputs b)) by (destruct V as [V|V]; [congruence|exact V]).
      rewrite oseq_app. rewrite (oseq_map_ok _ (fun p => modelling (snd p) o)).
      2:{ intros [k c] Hc. apply (IH k c Hc). rewrite (OO k c Hc). exact Vb. }
      cbn [oseq]. rewrite (IHb o Vb). cbn [obind omap]. rewrite concat_app, flat_map_concat_map. cbn. rewrite app_nil_r. reflexivity.
Qed.

(** ** Rows the divider knows but the mixture has forgotten *)

Lemma recorded_refuses : forall d r obs ins x, lookup r (dist_data d) = Some x -> dist_observe d r obs ins = (d, Err ValueError).
Proof.
  intros d r obs ins x L. destruct d; cbn [dist_data] in L; cbn [dist_observe].
  1:{ unfold crp_observe, base_observe, dmem.
      assert (Y : exists y, lookup r (crp_data s) = Some y).
      { clear - L. induction (crp_data s) as [|[k y] l IH]; [discriminate|]. cbn in L |- *. destruct (eq_dec r k); [eauto|exact (IH L)]. }
      destruct Y as (y & ->). reflexivity. }
  all: unfold cat_observe, ber_observe, poi_observe, nrm_observe, nuc_observe, base_observe, dmem; rewrite L; reflexivity.
Qed.

Lemma forgotten_observe : forall flex div arr r x obs ins, lookup r (dist_data div) = Some x ->
  always (observe (CMix flex div arr []) r obs ins) (fun p => fst p = CMix flex div arr [] /\ exists e, snd p = Err e).
Proof.
  intros flex div arr r x obs ins L. cbn [observe]. unfold mix_observe. cbn [lookup]. apply always_bind.
  apply always_True. intros [z|e].
  - rewrite (recorded_refuses div r _ _ x L). cbn. eauto.
  - cbn. eauto.
Qed.

Lemma forgotten_unobserve : forall flex div arr r, exists e, snd (unobserve (CMix flex div arr []) r) = Err e.
Proof.
  intros flex div arr r. cbn [unobserve]. unfold mix_unobserve. destruct (dist_unobserve div r) as [div' [[oz iz]|e]]; [|cbn; eauto].
  destruct (unobserve arr r) as [arr' [[ox ix]|e]]; cbn; eauto.
Qed.

(** ** Views *)

Lemma leaves_prims : forall ds, leaves (CProd (map CDist ds)) = ds.
Proof. induction ds as [|d ds IH]; [reflexivity|]. cbn in *. f_equal. exact IH. Qed.

Lemma outputs_prims : forall ds, outputs (CProd (map CDist ds)) = map dist_o ds.
Proof. induction ds as [|d ds IH]; [reflexivity|]. cbn in *. f_equal. exact IH. Qed.

Lemma alike_columns : forall ds ds', alike ds ds' -> map dist_o ds' = map dist_o ds.
Proof.
  intros ds ds' A. unfold alike in A. apply (f_equal (map fst)) in A. rewrite !map_map in A. exact A.
Qed.

Lemma trim_prims : forall o ds, trim o (CProd (map CDist ds)) = CProd (map CDist (filter (fun d => negb (dist_o d =? o)) ds)).
Proof.
  intros o ds. cbn [trim]. f_equal. induction ds as [|d ds IH]; [reflexivity|]. cbn [map filter outputs].
  assert (E : memb o [dist_o d] = (dist_o d =? o)).
  { destruct (dist_o d =? o) eqn:B.
    - apply Z.eqb_eq in B. subst. apply memb_In. now left.
    - apply Z.eqb_neq in B. apply memb_false. intros [X|[]]. congruence. }
  rewrite E. destruct (dist_o d =? o); cbn [negb map]; rewrite IH; reflexivity.
Qed.

Lemma leaves_trim : forall o ds, leaves (trim o (CProd (map CDist ds))) = filter (fun d => negb (dist_o d =? o)) ds.
Proof. intros. rewrite trim_prims. apply leaves_prims. Qed.

Lemma find_trim : forall o ds v, v <> o ->
  find (fun d => dist_o d =? v) (filter (fun d => negb (dist_o d =? o)) ds) = find (fun d => dist_o d =? v) ds.
Proof.
  induction ds as [|d ds IH]; intros v N; [reflexivity|]. cbn [filter find]. destruct (dist_o d =? o) eqn:E; cbn [negb find].
  - rewrite IH by exact N. apply Z.eqb_eq in E. rewrite (proj2 (Z.eqb_neq (dist_o d) v)) by congruence. reflexivity.
  - destruct (dist_o d =? v); [reflexivity|]. apply IH. exact N.
Qed.

Lemma in_column_trim : forall o ds r v, v <> o -> in_column (filter (fun d => negb (dist_o d =? o)) ds) r v = in_column ds r v.
Proof. intros. unfold in_column. rewrite find_trim by assumption. reflexivity. Qed.

Lemma in_column_gone : forall o ds r, in_column (filter (fun d => negb (dist_o d =? o)) ds) r o = None.
Proof.
  intros. unfold in_column. replace (find _ _) with (@None dist); [reflexivity|]. symmetry.
  induction ds as [|d ds IH]; [reflexivity|]. cbn [filter]. destruct (dist_o d =? o) eqn:E; cbn [negb find]; [exact IH|]. rewrite E. exact IH.
Qed.

Lemma lookup_trim : forall o (cs : dict val cgpm) k, lookup k (map (fun p => let '(k, c') := p in (k, trim o c')) cs) =
  match lookup k cs with Some c => Some (trim o c) | None => None end.
Proof. induction cs as [|[k0 c] cs IH]; intros k; [reflexivity|]. cbn. destruct (eq_dec k k0); [reflexivity|apply IH]. Qed.

Lemma lookup_grow : forall new (cs : dict val cgpm) k, lookup k (map (fun p => let '(k, c') := p in (k, grow new c')) cs) =
  match lookup k cs with Some c => Some (grow new c) | None => None end.
Proof. induction cs as [|[k0 c] cs IH]; intros k; [reflexivity|]. cbn. destruct (eq_dec k k0); [reflexivity|apply IH]. Qed.

Lemma prims_cuts : forall o ds, cuts o [o] (CProd (map CDist ds)).
Proof.
  intros o ds. cbn [cuts]. apply each_In. intros c Hc. apply in_map_iff in Hc. destruct Hc as (d & <- & _). cbn [outputs]. split.
  - intros [->|[]]. reflexivity.
  - intros N v [<-|[]] [X|[]]. apply N. left. auto.
Qed.

Lemma sheet_cuts : forall m o, wf m -> sheet m -> In o (columns_of m) -> cuts o [o] m.
Proof.
  intros m o W Sh V. destruct Sh as [s bs cs r2i r2c NE Hb Hc]. inversion W as [| | |div0 b0 cs0 r1 r2 Dd HS Wb NI NDk Wc OO]; subst.
  cbn [columns_of outputs] in V. assert (N : o <> crp_o s) by (intros ->; apply NI; exact V).
  cbn [cuts dist_o]. split; [split; [exact N|intros [X|[]]; congruence]|]. split; [apply prims_cuts|].
  apply each_In. intros [k c] Hk. destruct (Hc k c Hk) as (ds & -> & _). apply prims_cuts.
Qed.

Lemma sheet_open : forall m, sheet m -> open m.
Proof.
  intros m Sh. destruct Sh as [s bs cs r2i r2c NE Hb Hc]. cbn [open]. split; [exact Logic.I|].
  apply each_In. intros [k c] Hk. destruct (Hc k c Hk) as (ds & -> & _). exact Logic.I.
Qed.

Lemma NoDup_snoc : forall (l : list Z) x, NoDup l -> ~ In x l -> NoDup (l ++ [x]).
Proof. intros. apply NoDup_app_one; assumption. Qed.

Lemma find_snoc : forall ds d v, v <> dist_o d -> find (fun d => dist_o d =? v) (ds ++ [d]) = find (fun d => dist_o d =? v) ds.
Proof.
  induction ds as [|x ds IH]; intros d v N; cbn [app find].
  - rewrite (proj2 (Z.eqb_neq (dist_o d) v)) by congruence. reflexivity.
  - destruct (dist_o x =? v); [reflexivity|]. apply IH. exact N.
Qed.

Lemma find_new : forall ds d, ~ In (dist_o d) (map dist_o ds) -> find (fun x => dist_o x =? dist_o d) (ds ++ [d]) = Some d.
Proof.
  induction ds as [|x ds IH]; intros d N; cbn [app find].
  - rewrite Z.eqb_refl. reflexivity.
  - rewrite (proj2 (Z.eqb_neq (dist_o x) (dist_o d))) by (intros E; apply N; left; exact E). apply IH. intros Y. apply N. now right.
Qed.

Lemma in_column_snoc : forall ds d r v, v <> dist_o d -> in_column (ds ++ [d]) r v = in_column ds r v.
Proof. intros. unfold in_column. rewrite find_snoc by assumption. reflexivity. Qed.

Lemma steady_grow : forall new c, steady c -> steady (grow new c).
Proof.
  intros new. induction c as [d|cs IH|ix cs r2i IH|ix b cs r2i IHb IH|flex div arr r2c IH] using cgpm_ind_In; intros S.
  - exact Logic.I.
  - exact Logic.I.
  - cbn [grow steady] in *. rewrite each_In in *. intros c Hc. apply in_map_iff in Hc. destruct Hc as (x & <- & Hx). auto.
  - cbn [grow steady] in *. destruct S as [Sb S]. rewrite each_In in *. split; [auto|].
    intros p Hp. apply in_map_iff in Hp. destruct Hp as ([k x] & <- & Hx). apply (IH k x Hx). apply (S (k, x) Hx).
  - destruct S as [-> S]. cbn [grow steady]. auto.
Qed.

Lemma find_column : forall ds o, In o (map dist_o ds) -> exists d, find (fun d => dist_o d =? o) ds = Some d /\ dist_o d = o.
Proof.
  intros ds o H. destruct (find (fun d => dist_o d =? o) ds) as [d|] eqn:E.
  - exists d. split; [reflexivity|]. apply find_some in E. apply Z.eqb_eq, E.
  - apply in_map_iff in H. destruct H as (d & <- & Hd). apply (find_none _ _ E) in Hd. rewrite Z.eqb_refl in Hd. discriminate.
Qed.

Lemma modelling_prims : forall ds o, modelling (CProd (map CDist ds)) o = filter (fun d => dist_o d =? o) ds.
Proof.
  intros. unfold modelling. f_equal. cbn [prims]. induction ds as [|d ds IH]; [reflexivity|]. cbn. f_equal. exact IH.
Qed.

Lemma one_column : forall ds o d, NoDup (map dist_o ds) -> find (fun d => dist_o d =? o) ds = Some d -> filter (fun d => dist_o d =? o) ds = [d].
Proof.
  induction ds as [|x ds IH]; intros o d ND F; [discriminate|]. cbn [find filter map] in *. inversion ND as [|y l N ND']; subst.
  destruct (dist_o x =? o) eqn:E.
  - injection F as ->. f_equal. apply filter_none. intros y Hy. apply Z.eqb_eq in E. apply Z.eqb_neq. intros E2. apply N.
    rewrite E, <- E2. apply in_map. exact Hy.
  - apply IH; assumption.
Qed.
