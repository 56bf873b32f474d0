(** The law of a move of columns between views. *)
From Coq Require Import List ZArith QArith Qcanon Reals Bool String Permutation Lia Lra.
From Verif Require Import Base Xr Samp Lgamma Prims Cgpm Lib SpecPrims PrimsInv PrimsDens PrimsThm2
  SpecComp CompInv CompDens CompThm SpecBook Book SpecTable SpecSim SimShape SimTotal SimLaw Trans SpecHist Table Gibbs Hist Meta MetaThm
  Walks SpecWalks WalksThm PropPrims PropWalks Views SpecViews ViewsThm ViewsThm2 ViewsThm3 ViewsThm4 SpecMoves.
Import ListNotations.
Local Open Scope Z_scope.

(** ** Means *)

Lemma mean_bind : forall {A B} (m : samp A) (f : A -> samp B) g, mean (sbind m f) g = mean m (fun a => mean (f a) g).
Proof.
  induction m as [a|ws k IH|l k IH|n p k IH|lo hi k IH|n k IH]; intros f g; cbn [sbind mean]; auto.
  - apply rsum_ext. intros i _. rewrite IH. reflexivity.
  - f_equal. apply rsum_ext. intros i _. apply IH.
Qed.

Lemma mean_scale : forall {A} (m : samp A) (f : A -> R) c, mean m (fun a => c * f a)%R = (c * mean m f)%R.
Proof.
  induction m as [a|ws k IH|l k IH|n p k IH|lo hi k IH|n k IH]; intros f c; cbn [mean]; try lra.
  - rewrite <- rsum_scal. apply rsum_ext. intros i _. rewrite IH. lra.
  - unfold Rdiv. rewrite <- Rmult_assoc. f_equal. rewrite <- rsum_scal. apply rsum_ext. intros i _. apply IH.
Qed.

Lemma mean_ext : forall {A} (m : samp A) (P : A -> Prop) (f g : A -> R), choices m -> always m P ->
  (forall a, P a -> f a = g a) -> mean m f = mean m g.
Proof.
  induction m as [a|ws k IH|l k IH|n p k IH|lo hi k IH|n k IH]; intros P f g F H E; cbn [mean choices always] in *; try contradiction; auto.
  - destruct F as (F1 & F2 & F3). apply rsum_ext. intros i Hi. apply in_seq in Hi.
    assert (W : (0 <= nth i ws 0)%R) by (apply F1; apply nth_In; lia).
    destruct (Rle_lt_or_eq_dec _ _ W) as [P0|P0].
    + f_equal. apply (IH i P); auto; [apply F3; [lia|auto]|apply H; [lia|auto]].
    + rewrite <- P0. unfold Rdiv. rewrite !Rmult_0_l. reflexivity.
  - destruct F as (F1 & F2). f_equal. apply rsum_ext. intros i Hi. apply in_seq in Hi.
    assert (lo <= lo + Z.of_nat i < hi) by lia. apply (IH _ P); auto.
Qed.

Lemma mean_nonneg : forall {A} (m : samp A) (g : A -> R), choices m -> (forall a, 0 <= g a)%R -> (0 <= mean m g)%R.
Proof.
  induction m as [a|ws k IH|l k IH|n p k IH|lo hi k IH|n k IH]; intros g F H; cbn [mean choices] in *; try contradiction; auto.
  - destruct F as (F1 & F2 & F3). apply rsum_nonneg. intros x Hx. apply in_map_iff in Hx. destruct Hx as (i & <- & Hi). apply in_seq in Hi.
    assert (W : (0 <= nth i ws 0)%R) by (apply F1; apply nth_In; lia).
    destruct (Rle_lt_or_eq_dec _ _ W) as [P0|P0]; [|rewrite <- P0; unfold Rdiv; rewrite !Rmult_0_l; apply Rle_refl].
    apply Rmult_le_pos; [|apply IH; auto; apply F3; [lia|auto]]. apply Rmult_le_pos; [exact W|]. left. apply Rinv_0_lt_compat. exact F2.
  - destruct F as (F1 & F2). apply Rmult_le_pos; [|left; apply Rinv_0_lt_compat; apply IZR_lt; lia]. apply rsum_nonneg. intros x Hx.
    apply in_map_iff in Hx. destruct Hx as (i & <- & Hi). apply in_seq in Hi. apply IH; auto. apply F2. lia.
Qed.

Lemma mean_pos : forall {A} (m : samp A) (g : A -> R), choices m -> (forall a, 0 <= g a)%R -> possible m (fun a => (0 < g a)%R) -> (0 < mean m g)%R.
Proof.
  induction m as [a|ws k IH|l k IH|n p k IH|lo hi k IH|n k IH]; intros g F H P; cbn [mean choices possible] in *; try contradiction; auto.
  - destruct F as (F1 & F2 & F3). destruct P as (i & Hi & W & P).
    apply Rlt_le_trans with (nth i ws 0 / rsum ws * mean (k i) g)%R.
    + apply Rmult_lt_0_compat; [|apply IH; auto]. apply Rmult_lt_0_compat; [exact W|]. apply Rinv_0_lt_compat. exact F2.
    + apply rsum_ge; [|apply (in_map (fun j => (nth j ws 0 / rsum ws * mean (k j) g)%R)); apply in_seq; lia].
      intros y Hy. apply in_map_iff in Hy. destruct Hy as (j & <- & Hj). apply in_seq in Hj.
      assert (W' : (0 <= nth j ws 0)%R) by (apply F1; apply nth_In; lia).
      destruct (Rle_lt_or_eq_dec _ _ W') as [P0|P0]; [|rewrite <- P0; unfold Rdiv; rewrite !Rmult_0_l; apply Rle_refl].
      apply Rmult_le_pos; [|apply mean_nonneg; auto; apply F3; [lia|auto]]. apply Rmult_le_pos; [exact W'|]. left. apply Rinv_0_lt_compat. exact F2.
  - destruct F as (F1 & F2). destruct P as (z & Hz & P). apply Rmult_lt_0_compat; [|apply Rinv_0_lt_compat; apply IZR_lt; lia].
    apply Rlt_le_trans with (mean (k z) g); [apply IH; auto|].
    apply rsum_ge.
    + intros y Hy. apply in_map_iff in Hy. destruct Hy as (j & <- & Hj). apply in_seq in Hj. apply mean_nonneg; auto. apply F2. lia.
    + apply in_map_iff. exists (Z.to_nat (z - lo)). split; [f_equal; f_equal; lia|]. apply in_seq. lia.
Qed.

Lemma choices_finite : forall {A} (m : samp A), finite_choices m -> choices m.
Proof.
  induction m as [a|ws k IH|l k IH|n p k IH|lo hi k IH|n k IH]; intros F; cbn [choices finite_choices] in *; try contradiction; auto.
  destruct F as (F1 & F2 & F3). auto.
Qed.

Lemma mean_expect : forall {A} (m : samp A) f, finite_choices m -> mean m f = expect m f.
Proof.
  induction m as [a|ws k IH|l k IH|n p k IH|lo hi k IH|n k IH]; intros f F; cbn [mean expect finite_choices] in *; try contradiction; auto.
  destruct F as (F1 & F2 & F3). apply rsum_ext. intros i Hi. apply in_seq in Hi. rewrite IH; [reflexivity|apply F3; lia].
Qed.

Lemma choices_then : forall {A B} (m : samp A) (f : A -> samp B) (P : A -> Prop), choices m -> always m P -> (forall a, P a -> choices (f a)) -> choices (sbind m f).
Proof.
  induction m as [a|ws k IH|l k IH|n p k IH|lo hi k IH|n k IH]; intros f P F AL H; cbn [choices always sbind] in *; try contradiction; auto.
  - destruct F as (F1 & F2 & F3). split; [exact F1|]. split; [exact F2|]. intros i Hi W. eapply IH; eauto.
  - destruct F as (F1 & F2). split; [exact F1|]. intros z Hz. eapply IH; eauto.
Qed.

(** The probability of an index is its weight times this. *)
Definition coef (lps : list xr) : R :=
  if existsb is_bad lps then 0%R else if existsb is_fin lps then (/ rsum (map xexp lps))%R else 0%R.

Lemma coef_nonneg : forall lps, (0 <= coef lps)%R.
Proof.
  intros lps. assert (FC := choices_log_pflip lps). unfold coef, log_pflip in *. destruct (existsb is_bad lps); [lra|]. destruct (existsb is_fin lps); [|lra].
  left. apply Rinv_0_lt_compat. apply FC.
Qed.

Lemma fin_not_bad : forall rs, existsb is_bad (map Fin rs) = false.
Proof. induction rs as [|r rs IH]; [reflexivity|exact IH]. Qed.

Lemma coef_pos : forall rs, rs <> [] -> (0 < coef (map Fin rs) /\ coef (map Fin rs) * rsum (map exp rs) = 1)%R.
Proof.
  intros rs NE. assert (FC := choices_log_pflip (map Fin rs)). unfold coef, log_pflip in *. rewrite fin_not_bad in *.
  destruct rs as [|r rs]; [congruence|]. change (existsb is_fin (map Fin (r :: rs))) with true in *. cbv iota in *.
  assert (E : rsum (map xexp (map Fin (r :: rs))) = rsum (map exp (r :: rs))) by (rewrite map_map; reflexivity). 
  destruct FC as (_ & P & _). rewrite E in *. split; [apply Rinv_0_lt_compat; exact P|]. apply Rinv_l. lra.
Qed.

Lemma flip_prefix : forall rs lps h, (forall a, (forall i, a = Ok i -> (List.length rs <= i)%nat) -> h a = 0%R) ->
    mean (log_pflip (map Fin rs ++ lps)) h = (coef (map Fin rs ++ lps) * rsum (map (fun i => exp (nth i rs 0) * h (Ok i)) (seq 0 (List.length rs))))%R.
Proof.
  intros rs lps h H. assert (FC := choices_log_pflip (map Fin rs ++ lps)). unfold log_pflip, coef in *.
  destruct (existsb is_bad (map Fin rs ++ lps)) eqn:B; [cbn [mean]; rewrite H by discriminate; lra|].
  destruct (existsb is_fin (map Fin rs ++ lps)) eqn:Fn; [|cbn [mean]; rewrite H by discriminate; lra].
  set (T := rsum (map xexp (map Fin rs ++ lps))) in *. cbn [mean]. rewrite map_length, app_length, map_length, seq_app, map_app, rsum_app. cbn [Nat.add].
  rewrite (rsum_zero (map _ (seq (List.length rs) (List.length lps)))).
  - rewrite Rplus_0_r, <- rsum_scal. apply rsum_ext. intros i Hi. apply in_seq in Hi.
    replace (nth i (map xexp (map Fin rs ++ lps)) 0%R) with (exp (nth i rs 0%R)); [fold T; unfold Rdiv; ring|].
    rewrite map_app, map_map, app_nth1 by (rewrite map_length; lia).
    transitivity (nth i (map exp rs) (exp 0)); [symmetry; apply (map_nth exp)|].
    change (fun x => xexp (Fin x)) with exp. apply nth_indep. rewrite map_length. lia.
  - intros x Hx. apply in_map_iff in Hx. destruct Hx as (i & <- & Hi). apply in_seq in Hi. rewrite H; [lra|]. intros j E. injection E as <-. lia.
Qed.

(** ** The score of some columns *)

Definition part (P : Z -> bool) (v : cgpm) : R := rsum (map prim_score (filter (fun d => P (dist_o d)) (prims v))).

Lemma rsum_filter : forall {A} (f : A -> R) (P : A -> bool) l,
  (rsum (map f l) = rsum (map f (filter P l)) + rsum (map f (filter (fun a => negb (P a)) l)))%R.
Proof.
  intros A f P l. induction l as [|a l IH]; [cbn; lra|]. cbn [map filter]. change (rsum (f a :: map f l)) with (f a + rsum (map f l))%R. rewrite IH.
  destruct (P a); cbn [negb map]; change (rsum (?x :: ?y)) with (x + rsum y)%R; lra.
Qed.

Lemma part_split : forall P v, (rsum (map prim_score (prims v)) = part P v + part (fun o => negb (P o)) v)%R.
Proof. intros P v. unfold part. apply rsum_filter. Qed.

Lemma prims_columns : forall ds, prims (CProd (map CDist ds)) = ds.
Proof. induction ds as [|d ds IH]; [reflexivity|]. cbn [prims map flat_map app] in *. f_equal. exact IH. Qed.

Lemma prims_view : forall s bs cs r2i r2c, prims (mkview s bs cs r2i r2c) = DCrp s :: flat_map (fun p => let '(_, c') := p in prims c') cs ++ bs.
Proof.
  intros. unfold mkview. cbn [prims]. change (flat_map prims (map CDist bs)) with (prims (CProd (map CDist bs))). rewrite prims_columns. reflexivity.
Qed.

Lemma total_columns : forall ds, total_score (CProd (map CDist ds)) = rsum (map prim_score ds).
Proof. intros. cbn [total_score]. rewrite map_map. reflexivity. Qed.

Lemma total_prims : forall m, wf m -> plain m -> total_score m = rsum (map prim_score (prims m)).
Proof.
  intros m W (s & bs & cs & r2i & r2c & -> & B & C & _). rewrite prims_view. unfold mkview at 1. cbn [total_score map].
  change (rsum (?x :: ?y)) with (x + rsum y)%R. f_equal. rewrite map_app, rsum_app.
  rewrite (rsum_zero (map prim_score bs)).
  - rewrite Rplus_0_r. clear W B. induction cs as [|[k c] cs IH]; [reflexivity|]. cbn [map flat_map]. rewrite map_app, rsum_app.
    change (rsum (?x :: ?y)) with (x + rsum y)%R. rewrite IH by (intros k' c' Hc; apply (C k' c'); now right). f_equal.
    destruct (C k c (or_introl eq_refl)) as (ds & -> & _). rewrite total_columns, prims_columns. reflexivity.
  - intros x Hx. apply in_map_iff in Hx. destruct Hx as (d & <- & Hd). apply prim_score_vacant; [|apply B; exact Hd].
    destruct (view_parts _ _ _ _ _ W) as (_ & D & _). apply D. exact Hd.
Qed.

(** *** Removing columns *)

Lemma filter_filter : forall {A} (P Q : A -> bool) l, filter P (filter Q l) = filter (fun a => Q a && P a) l.
Proof. intros A P Q l. induction l as [|a l IH]; [reflexivity|]. cbn [filter]. destruct (Q a); cbn [filter andb]; rewrite IH; reflexivity. Qed.

Lemma remove_prims : forall m o m', grown m -> plain m -> o <> label_of m -> remove_cgpm m o = Ok m' ->
  prims m' = filter (fun d => negb (dist_o d =? o)) (prims m).
Proof.
  intros m o m' G (s & bs & cs & r2i & r2c & -> & B & C & K) N E. destruct (grown_sound _ G) as [W M].
  cbn [label_of mkview dist_o] in N.
  assert (Cu : cuts o [o] (mkview s bs cs r2i r2c)).
  { unfold mkview. cbn [cuts dist_o]. split; [split; [exact N|intros [X|[]]; congruence]|]. split; [apply prims_cuts|].
    apply each_In. intros [k c] Hk. destruct (C k c Hk) as (ds & -> & _). apply prims_cuts. }
  rewrite (remove_ok o [o] _ W M Cu) in E. injection E as <-. unfold mkview at 1. cbn [trim].
  change (CProd (filter (fun c' => negb (memb o (outputs c'))) (map CDist bs))) with (trim o (CProd (map CDist bs))).
  rewrite trim_prims. cbn [prims]. change (flat_map prims (map CDist ?l)) with (prims (CProd (map CDist l))).
  rewrite !prims_columns. cbn [filter dist_o]. rewrite (proj2 (Z.eqb_neq (crp_o s) o)) by congruence. cbn [negb]. f_equal.
  rewrite filter_app. f_equal. clear - C. induction cs as [|[k c] cs IH]; [reflexivity|]. cbn [map flat_map].
  rewrite filter_app, IH by (intros k' c' Hc; apply (C k' c'); now right). f_equal.
  destruct (C k c (or_introl eq_refl)) as (ds & -> & _). rewrite trim_prims, !prims_columns. reflexivity.
Qed.

Lemma remove_all_prims : forall outs m m', grown m -> plain m -> ~ In (label_of m) outs -> remove_all outs m = Ok m' ->
  prims m' = filter (fun d => negb (memb (dist_o d) outs)) (prims m).
Proof.
  unfold remove_all. induction outs as [|o outs IH]; intros m m' G P N E.
  - cbn [fold_left] in E. injection E as <-. symmetry. apply filter_all. intros; reflexivity.
  - destruct (remove_one m o G P) as (m1 & E1 & N1); [intros ->; apply N; now left|].
    destruct N1 as (G1 & P1 & L1 & _). cbn [fold_left obind] in E. rewrite E1 in E.
    rewrite (IH m1 m' G1 P1); [|rewrite L1; intros Y; apply N; now right|exact E].
    rewrite (remove_prims m o m1 G P); [|intros ->; apply N; now left|exact E1]. rewrite filter_filter. apply filter_ext. intros d.
    cbn [memb]. destruct (eq_dec (dist_o d) o) as [->|NE].
    + rewrite Z.eqb_refl. reflexivity.
    + rewrite (proj2 (Z.eqb_neq _ _) NE). reflexivity.
Qed.

(** *** Adding columns *)

Lemma add_prims : forall v d p, good v -> reachable d -> kind_of d <> KTable -> ~ In (dist_o d) (outputs v) -> add_cgpm v (CDist d) = Ok p ->
  forall P, P (dist_o d) = false -> filter (fun x => P (dist_o x)) (prims p) = filter (fun x => P (dist_o x)) (prims v).
Proof.
  intros v d p G Rd K N E P HP. assert (W := good_wf v G). assert (M := good_maps v G). destruct G as (Gr & Sh & Co).
  assert (EE : p = grow (CDist d) v).
  { assert (Op := sheet_open _ Sh). assert (Wd : wf (CDist d)) by (constructor; apply reachable_dinv; exact Rd).
    assert (ND : NoDup (outputs v ++ outputs (CDist d))).
    { apply WalksThm.NoDup_snoc; [apply wf_outputs_NoDup; exact W|exact N]. }
    rewrite (add_ok (CDist d) _ W M Wd Logic.I Op ND) in E. injection E as <-. reflexivity. }
  destruct (sheet_inv v Sh) as (s & bs & cs & r2i & r2c & -> & NB & B & C).
  assert (EP : forall ds, grow (CDist d) (CProd (map CDist ds)) = CProd (map CDist (ds ++ [d]))).
  { intros ds. cbn [grow parts]. rewrite map_app. reflexivity. }
  assert (E2 : p = mkview s (bs ++ [d]) (map (fun p => let '(k, c') := p in (k, grow (CDist d) c')) cs) r2i r2c).
  { rewrite EE. unfold mkview. rewrite <- EP. reflexivity. }
  rewrite E2, !prims_view. cbn [filter]. 
  assert (X : forall l, filter (fun x => P (dist_o x)) (l ++ [d]) = filter (fun x => P (dist_o x)) l).
  { intros l. rewrite filter_app. cbn [filter]. rewrite HP. apply app_nil_r. }
  assert (Y : filter (fun x => P (dist_o x)) (flat_map (fun p => let '(_, c') := p in prims c') (map (fun p => let '(k, c') := p in (k, grow (CDist d) c')) cs)) =
              filter (fun x => P (dist_o x)) (flat_map (fun p => let '(_, c') := p in prims c') cs)).
  { clear - C EP X. induction cs as [|[k c] cs IH]; [reflexivity|]. cbn [map flat_map].
    rewrite !filter_app, IH by (intros k' c' Hc; apply (C k' c'); now right). f_equal.
    destruct (C k c (or_introl eq_refl)) as (ds & -> & _). rewrite EP, !prims_columns. apply X. }
  rewrite !filter_app, Y. cbn [filter]. rewrite HP, app_nil_r. reflexivity.
Qed.

Lemma add_all_part : forall D v p, good v -> new_columns D v -> add_all D v = Ok p ->
  forall P, (forall d, In d D -> P (dist_o d) = false) -> part P p = part P v.
Proof.
  unfold add_all. induction D as [|d D IH]; intros v p G [F ND] E P HP.
  - cbn [fold_left] in E. injection E as <-. reflexivity.
  - destruct (F d (or_introl eq_refl)) as (Rd & E0 & K & N). destruct (add_one v d G Rd E0 K N) as (q & Eq & Wq).
    destruct Wq as (Gq & Q1 & Q2 & Q3 & _). cbn [map] in ND. inversion ND as [|? ? NI ND']; subst.
    assert (Fq : new_columns D q).
    { split; [|exact ND']. intros x Hx. destruct (F x (or_intror Hx)) as (X1 & X2 & X3 & X4). repeat split; auto.
      rewrite sheet_outputs by apply Gq. intros Y. apply X4. rewrite sheet_outputs by apply G. rewrite Q1, Q3 in Y.
      destruct Y as [Y|Y]; [now left|]. apply in_app_or in Y. destruct Y as [Y|[Y|[]]]; [now right|]. exfalso. apply NI. rewrite Y. now apply in_map. }
    cbn [fold_left obind] in E. rewrite Eq in E. rewrite (IH q p Gq Fq E P) by (intros; apply HP; now right).
    unfold part. rewrite (add_prims v d q G Rd K N Eq P); [reflexivity|apply HP; now left].
Qed.

(** *** Filling columns *)

Lemma replaced : forall (P : Z -> bool) o ds ds', P o = false -> Forall2 (fun d d' => dist_o d <> o -> d' = d) ds ds' -> map dist_o ds' = map dist_o ds ->
  filter (fun d => P (dist_o d)) ds' = filter (fun d => P (dist_o d)) ds.
Proof.
  intros P o ds ds' HP F. induction F as [|d d' ds ds' H F IH]; intros E; [reflexivity|]. cbn [map] in E. injection E as E1 E2. cbn [filter]. rewrite (IH E2), E1.
  destruct (Z.eq_dec (dist_o d) o) as [->|N]; [rewrite HP; reflexivity|]. rewrite (H N). reflexivity.
Qed.

Lemma dset_flat : forall (P : dist -> bool) (cs : dict val cgpm) k c, NoDup (keys cs) ->
  rsum (map prim_score (filter P (flat_map (fun p => let '(_, c') := p in prims c') (dset k c cs)))) =
  (rsum (map prim_score (filter P (flat_map (fun p => let '(_, c') := p in prims c') cs))) +
   rsum (map prim_score (filter P (prims c))) - match lookup k cs with Some c0 => rsum (map prim_score (filter P (prims c0))) | None => 0 end)%R.
Proof.
  intros P cs k c. induction cs as [|[k' c'] cs IH]; intros ND; cbn [dset lookup].
  - cbn [flat_map]. rewrite app_nil_r. cbn [filter map]. change (rsum []) with 0%R. lra.
  - cbn [keys map fst] in ND. inversion ND; subst. destruct (eq_dec k k') as [->|NE]; cbn [flat_map]; rewrite !filter_app, !map_app, !rsum_app; [lra|].
    rewrite IH by assumption. lra.
Qed.

Lemma seated_part : forall v r o x q res, good v -> good q -> seat v r <> None -> In o (columns_of v) -> observe v r [(o, x)] [] = Ret (q, res) ->
  forall P, P o = false -> part P q = part P v.
Proof.
  intros v r o x q res G Gq SE Ho E P HP. assert (W := good_wf v G). destruct G as (_ & Sh & K).
  destruct (sheet_inv v Sh) as (s & bs & cs & r2i & r2c & -> & NB & B & C).
  assert (SH : shaped bs cs) by (split; [exact NB|split; assumption]). assert (KW := proj1 (consistent_parts _ _ _ _ _ SH) K).
  cbn [seat mkview] in SE. destruct (lookup r r2c) as [k|] eqn:L; [|congruence]. assert (KW0 := KW). destruct KW0 as (N1 & N2 & A3 & A4 & A5 & A6).
  destruct (A5 _ _ L) as [z ->].
  assert (Ho' : In o (map dist_o bs)) by (rewrite <- outputs_prod; exact Ho).
  destruct (view_observe_seated s bs cs r2i r2c r o x z W SH KW L Ho') as (ds' & res' & E' & F). rewrite E in E'. injection E' as -> ->.
  destruct (view_parts _ _ _ _ _ W) as (_ & DB & _ & _ & NDK & _).
  assert (AL : alike bs ds').
  { assert (SQ := proj1 (sheet_shaped _ _ _ _ _) (proj1 (proj2 Gq))). destruct SQ as (_ & _ & CQ).
    destruct (CQ (vz z) (CProd (map CDist ds'))) as (ds2 & E2 & A2); [apply lookup_In; rewrite lookup_dset; destruct (eq_dec (vz z) (vz z)); congruence|].
    assert (X : leaves (CProd (map CDist ds')) = leaves (CProd (map CDist ds2))) by (rewrite E2; reflexivity). rewrite !leaves_prod in X. subst. exact A2. }
  assert (AC : map dist_o ds' = map dist_o (cols bs cs (vz z))).
  { rewrite (alike_o _ _ AL). unfold cols. destruct (lookup (vz z) cs) as [c|] eqn:LC; [|reflexivity].
    destruct (C _ _ (lookup_In _ _ _ LC)) as (ds & -> & A2). rewrite leaves_prod. symmetry. apply alike_o. exact A2. }
  assert (FD := replaced P o _ _ HP F AC).
  unfold part. rewrite !prims_view. cbn [filter].
  assert (X : rsum (map prim_score (filter (fun d => P (dist_o d)) (flat_map (fun p => let '(_, c') := p in prims c') (dset (vz z) (CProd (map CDist ds')) cs)))) =
              rsum (map prim_score (filter (fun d => P (dist_o d)) (flat_map (fun p => let '(_, c') := p in prims c') cs)))).
  { rewrite dset_flat by exact NDK. rewrite prims_columns, FD. unfold cols. destruct (lookup (vz z) cs) as [c|] eqn:LC.
    - destruct (C _ _ (lookup_In _ _ _ LC)) as (ds & -> & A2). rewrite leaves_prod, prims_columns. lra.
    - rewrite (rsum_zero (map prim_score (filter (fun d => P (dist_o d)) bs))); [lra|]. intros y Hy. apply in_map_iff in Hy. destruct Hy as (d & <- & Hd).
      apply filter_In in Hd. apply prim_score_vacant; [apply DB|apply B]; apply Hd. }
  destruct (P (dist_o (DCrp s))); cbn [map]; try (change (rsum (?x :: ?y)) with (x + rsum y)%R); rewrite !filter_app, !map_app, !rsum_app, X; reflexivity.
Qed.

Lemma rows_part : forall T p, good p -> (forall t, In t T -> fits p t) -> NoDup (map fst T) -> (forall r o x, In (r, o, x) T -> seat p r <> None) ->
  forall q, observe_rows p (entries T) = Ret (q, Ok tt) -> forall P, (forall r o x, In (r, o, x) T -> P o = false) -> part P q = part P p.
Proof.
  induction T as [|[[r o] x] T IH]; intros p G F ND SE q E P HP.
  - cbn in E. injection E as <-. reflexivity.
  - assert (S1 := SE r o x (or_introl eq_refl)). destruct (F _ (or_introl eq_refl)) as (Ho & _).
    change (entries ((r, o, x) :: T)) with ((r, [(o, x)]) :: entries T) in E. cbn [observe_rows] in E.
    assert (EX : exists q1 res, observe p r [(o, x)] [] = Ret (q1, res)).
    { assert (W := good_wf p G). destruct G as (_ & Sh & K). destruct (sheet_inv p Sh) as (s & bs & cs & r2i & r2c & -> & NB & B & C).
      assert (SH : shaped bs cs) by (split; [exact NB|split; assumption]). assert (KW := proj1 (consistent_parts _ _ _ _ _ SH) K).
      cbn [seat mkview] in S1. destruct (lookup r r2c) as [k|] eqn:L; [|congruence]. assert (KW0 := KW). destruct KW0 as (_ & _ & _ & _ & A5 & _).
      destruct (A5 _ _ L) as [z ->].
      destruct (view_observe_seated s bs cs r2i r2c r o x z W SH KW L) as (ds' & res' & E' & _); [rewrite <- outputs_prod; exact Ho|]. eauto. }
    destruct EX as (q1 & res & E1). assert (A := one_step p r o x T G F ND). rewrite E1 in A. cbn [always fst snd] in A. destruct A as (-> & Gq & Fq & U & R).
    rewrite E1 in E. cbn [sbind fst snd] in E. rewrite (IH q1 Gq Fq) with (q := q); [|inversion ND; assumption| |exact E|intros; eapply HP; right; eauto].
    + apply (seated_part p r o x q1 (Ok tt) G Gq S1 Ho E1). eapply HP. now left.
    + intros r' o' x' Ht. assert (S2 := SE r' o' x' (or_intror Ht)).
      destruct R as (_ & _ & _ & _ & OS & (z & SZ & _) & _). destruct (Z.eq_dec r' r) as [->|NR]; [congruence|]. rewrite (proj1 (OS r' NR)). exact S2.
Qed.

(** The proposal made from a view: the scores of the other columns stay. *)
Lemma existing_part : forall D T v datasets q, good v -> new_columns D v -> suits D T -> List.concat datasets = entries T ->
  (forall r o x, In (r, o, x) T -> seat v r <> None) -> proposal_existing_one v D datasets = Ret (v, Ok q) ->
  forall P, (forall d, In d D -> P (dist_o d) = false) -> part P q = part P v.
Proof.
  intros D T v datasets q G ND S E SE EQ P HP. destruct (add_all_ok D v G ND) as (p & Ep & Wp). assert (F := suits_fit D T v p Wp S).
  assert (PP := add_all_part D v p G ND Ep P HP).
  assert (Wp0 := Wp). destruct Wp0 as (Gp & P1 & P2 & P3 & P4 & P5 & P6 & P7 & P8 & P9).
  destruct (rows_seated T v p G Gp (P9 v (extends_refl v G)) F (proj2 S)) as (q' & Eq & Fq & Xq).
  { intros r o x Ht. split; [rewrite P4; eapply SE; eauto|]. destruct (proj1 S _ _ _ Ht) as (d & Hd & <- & _).
    destruct (proj1 ND d Hd) as (_ & _ & _ & N). intros Y. apply N. rewrite sheet_outputs by apply G. now right. }
  unfold proposal_existing_one in EQ. rewrite Ep, E, Eq in EQ. cbn [sbind fst snd obind] in EQ. injection EQ as _ ->.
  rewrite <- PP. apply (rows_part T p Gp F (proj2 S)); [|exact Eq|].
  - intros r o x Ht. rewrite P4. eapply SE; eauto.
  - intros r o x Ht. destruct (proj1 S _ _ _ Ht) as (d & Hd & <- & _). apply HP. exact Hd.
Qed.

(** *** The weight of a proposal *)

Lemma part_cons : forall o outs v, ~ In o outs -> (part (fun x => memb x (o :: outs)) v = rsum (map prim_score (modelling v o)) + part (fun x => memb x outs) v)%R.
Proof.
  intros o outs v N. unfold part, modelling. generalize (prims v) as l. induction l as [|d l IH]; [cbn; lra|]. cbn [filter memb].
  destruct (eq_dec (dist_o d) o) as [E|NE].
  - rewrite E, Z.eqb_refl. replace (memb o outs) with false by (symmetry; apply memb_false; exact N). cbn [map].
    change (rsum (?x :: ?y)) with (x + rsum y)%R. cbn [memb] in IH. rewrite IH. lra.
  - rewrite (proj2 (Z.eqb_neq _ _) NE). destruct (memb (dist_o d) outs); cbn [map]; try (change (rsum (?x :: ?y)) with (x + rsum y)%R);
      cbn [memb] in IH; rewrite IH; lra.
Qed.

Lemma weight_part : forall v outs, wf v -> NoDup outs -> (forall o, In o outs -> In o (outputs v)) ->
  omap xsum (oseq (map (get_cgpm_data_logp v) outs)) = Ok (Fin (part (fun x => memb x outs) v)).
Proof.
  intros v outs W ND H. 
  assert (X : oseq (map (get_cgpm_data_logp v) outs) = Ok (map (fun o => Fin (rsum (map prim_score (modelling v o)))) outs)).
  { apply oseq_map_ok. intros o Ho. unfold get_cgpm_data_logp. rewrite (find_ok v W o (H o Ho)). cbn [obind].
    rewrite (oseq_map_ok dist_score (fun d => Fin (prim_score d))); [cbn [omap]; rewrite xsum_fin; reflexivity|].
    intros d Hd. apply prim_score_ok. unfold modelling in Hd. apply filter_In in Hd. apply (wf_prims v W). apply Hd. }
  rewrite X. cbn [omap]. rewrite xsum_fin. do 2 f_equal. clear X H. induction outs as [|o outs IH].
  - unfold part. cbn [memb map]. rewrite filter_none; [reflexivity|]. reflexivity.
  - inversion ND; subst. rewrite part_cons by assumption. cbn [map]. change (rsum (?x :: ?y)) with (x + rsum y)%R. rewrite IH by assumption. reflexivity.
Qed.
