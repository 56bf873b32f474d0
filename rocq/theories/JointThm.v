(** Proof of C80_joint: the row dividers of several views are drawn independently. *)
From Coq Require Import List ZArith QArith Qcanon Reals Bool String Permutation Lia Lra.
From Verif Require Import Base Xr Samp Lgamma Prims Cgpm Lib SpecPrims PrimsInv SpecComp CompInv CompDens CompThm SimShape SimLaw
  SpecTable SpecHist Table Gibbs Hist Walks SpecWalks WalksThm Trans Views ViewsThm ViewsThm2 ViewsThm3 ViewsThm4 ViewsThm5
  Hypers SpecHypers HypersThm Progress SpecProgress Crosscat HypersThm2 PropHypers CrosscatThm CrosscatThm2.
From Verif Require Import SpecViews SpecCrosscat ConvThm PropConv SpecHypers SpecConv SpecPasses PassThm.
From Verif Require ChainLaw PrimsThm2.
Import ListNotations.
Local Open Scope Z_scope.

Lemma all_ext : forall a b l, (forall x, In x l -> a x = b x) -> all_of a l = all_of b l.
Proof. intros a b l E. induction l as [|x l IH]; [reflexivity|]. cbn [all_of fold_right]. rewrite E by now left. f_equal. apply IH. intros y Hy. apply E. now right. Qed.

Lemma all_pick : forall a o l, NoDup l -> In o l -> all_of a l = (a o * all_of (fun x => if Z.eq_dec x o then 1 else a x)%R l)%R.
Proof.
  intros a o l ND. induction ND as [|x l NI ND IH]; intros I; [destruct I|]. cbn [all_of fold_right]. fold (all_of a l). fold (all_of (fun x => if Z.eq_dec x o then 1 else a x)%R l).
  destruct (Z.eq_dec x o) as [->|N].
  - rewrite (all_ext (fun x => if Z.eq_dec x o then 1 else a x)%R a l); [ring|]. intros y Hy. destruct (Z.eq_dec y o); [subst; contradiction|reflexivity].
  - destruct I as [->|I]; [congruence|]. rewrite (IH I). ring.
Qed.

(** The product of limits is the limit of the products. *)
Lemma all_limit : forall (P : nat -> (Z -> R) -> Prop) (a0 : Z -> R) l,
  (forall x, In x l -> forall eps, (0 < eps)%R -> exists M, forall n a, (M < n)%nat -> P n a -> (Rabs (a x - a0 x) < eps)%R) ->
  forall eps, (0 < eps)%R -> exists M, forall n a, (M < n)%nat -> P n a -> (Rabs (all_of a l - all_of a0 l) < eps)%R.
Proof.
  intros P a0 l. induction l as [|x l IH]; intros H eps EP; cbn [all_of fold_right].
  - exists 0%nat. intros n a _ _. rewrite Rminus_diag_eq, Rabs_R0 by reflexivity. exact EP.
  - fold (all_of a0 l). set (p0 := all_of a0 l) in *.
    assert (A0 := Rabs_pos (a0 x)). assert (B0 := Rabs_pos p0).
    destruct (H x (or_introl eq_refl) (Rmin 1 (eps / 2 / (Rabs p0 + 1)))) as (M1 & H1).
    { apply Rmin_glb_lt; [lra|]. apply Rdiv_lt_0_compat; lra. }
    destruct (IH (fun y Hy => H y (or_intror Hy)) (eps / 2 / (Rabs (a0 x) + 1))%R) as (M2 & H2).
    { apply Rdiv_lt_0_compat; lra. }
    exists (M1 + M2)%nat. intros n a Hn Pa. fold (all_of a l). specialize (H1 n a ltac:(lia) Pa). specialize (H2 n a ltac:(lia) Pa). set (p := all_of a l) in *.
    assert (L1 : (Rabs (a x - a0 x) < 1)%R) by (eapply Rlt_le_trans; [exact H1|apply Rmin_l]).
    assert (L2 : (Rabs (a x - a0 x) < eps / 2 / (Rabs p0 + 1))%R) by (eapply Rlt_le_trans; [exact H1|apply Rmin_r]).
    assert (AB : (Rabs (a x) <= Rabs (a0 x) + 1)%R).
    { replace (a x) with (a0 x + (a x - a0 x))%R at 1 by ring. eapply Rle_trans; [apply Rabs_triang|]. lra. }
    replace (a x * p - a0 x * p0)%R with (a x * (p - p0) + (a x - a0 x) * p0)%R by ring.
    apply Rle_lt_trans with (1 := Rabs_triang _ _). rewrite !Rabs_mult.
    assert (Q1 : (Rabs (a x) * Rabs (p - p0) < eps / 2)%R).
    { apply Rle_lt_trans with ((Rabs (a0 x) + 1) * Rabs (p - p0))%R; [apply Rmult_le_compat_r; [apply Rabs_pos|exact AB]|].
      apply (Rmult_lt_compat_l (Rabs (a0 x) + 1)) in H2; [|lra]. replace ((Rabs (a0 x) + 1) * (eps / 2 / (Rabs (a0 x) + 1)))%R with (eps / 2)%R in H2 by (field; lra). exact H2. }
    assert (Q2 : (Rabs (a x - a0 x) * Rabs p0 <= eps / 2)%R).
    { apply Rle_trans with (Rabs (a x - a0 x) * (Rabs p0 + 1))%R; [apply Rmult_le_compat_l; [apply Rabs_pos|lra]|].
      apply (Rmult_lt_compat_r (Rabs p0 + 1)) in L2; [|lra]. replace (eps / 2 / (Rabs p0 + 1) * (Rabs p0 + 1))%R with (eps / 2)%R in L2 by (field; lra). lra. }
    lra.
Qed.

Section Joint.
Variables (X : list cgpm) (Os : list Z) (gr : Z -> out grids) (T : list Z) (DS : Z -> list dist) (D0 : Z -> dist) (GS : Z -> grids) (f : Z -> hypers -> R).
Hypotheses (C : crosscat X)
  (TUN : forall x, In x Os -> exists ds1 d1 gs1, get_cgpms_by_output_index (CProd X) x = Ok ds1 /\ tunable ds1 d1 /\ gr x = Ok gs1 /\ good_grids d1 gs1)
  (NDT : NoDup T) (TO : forall x, In x T -> In x Os)
  (TF : forall x, In x T -> get_cgpms_by_output_index (CProd X) x = Ok (DS x) /\ tunable (DS x) (D0 x) /\ gr x = Ok (GS x) /\ good_grids (D0 x) (GS x)).

Definition places (Y : list cgpm) (h : Z -> hypers) : Prop := forall x, In x T -> col x (DS x) Y (h x).
Definition joint (ords : Z -> list (list string)) (h : Z -> hypers) : R := all_of (fun x => laws (weight (DS x)) (GS x) (ords x) (f x) (h x)) T.
Definition rest_joint (n : Z -> nat) (F : cgpm * out unit -> R) (K : cgpm * out unit -> samp (cgpm * out unit)) : Prop :=
  forall ls Y, inv X Os Y -> agreed ls (K (CProd Y, Ok tt)) -> exists ords, (forall x, In x T -> perms (D0 x) (ords x) /\ List.length (ords x) = n x) /\
    forall Y' h', inv X Os Y' -> places Y' h' -> expect (settle ls (K (CProd Y', Ok tt))) F = joint ords h'.

Lemma comp_dinv : forall x ds, get_cgpms_by_output_index (CProd X) x = Ok ds -> forall d, In d ds -> dinv d.
Proof. intros x ds E d Hd. exact (proj1 (column_dinv (CProd X) (crosscat_wf X C) x ds E d Hd)). Qed.

Lemma visits_joint : forall F K n, rest_joint n F K -> forall os ls Y, (forall x, In x os -> In x Os) -> inv X Os Y ->
  agreed ls (sbind (hypers_each (CProd Y) (visited gr os)) K) ->
  exists ords, (forall x, In x T -> perms (D0 x) (ords x) /\ List.length (ords x) = (count_occ Z.eq_dec os x + n x)%nat) /\
    forall Y' h', inv X Os Y' -> places Y' h' -> expect (settle ls (sbind (hypers_each (CProd Y') (visited gr os)) K)) F = joint ords h'.
Proof.
  intros F K n RK. induction os as [|o os IH]; intros ls Y HI IY AG.
  - cbn [visited map hypers_each sbind] in *. exact (RK ls Y IY AG).
  - assert (Ho := HI o (or_introl eq_refl)). destruct (TUN o Ho) as (ds1 & d1 & gs' & E1 & TU1 & _). assert (TU1' := TU1). destruct TU1' as ((rest1 & ED1) & CL1 & NU1).
    assert (DI1 := comp_dinv o ds1 E1).
    destruct (visit_facts X Os gr o ds1 rest1 d1 TUN E1 ED1 CL1 DI1 o Ho) as (gs1 & nh & Eg & VF).
    cbn [visited map hypers_each] in AG |- *. rewrite Eg in AG |- *. cbn [obind] in AG |- *. fold (visited gr os) in AG |- *.
    destruct (VF Y IY) as (ds2 & d2 & E2 & FO & LN & TH & V2). rewrite E2 in AG. cbn [obind] in AG. rewrite TH in AG. cbn [sbind agreed] in AG.
    destruct ls as [|l ls]; [contradiction|]. destruct AG as [HP AG]. destruct (V2 l HP) as [FC AL].
    apply (agreed_free _ _ _ _ FC) in AG. destruct (some_outcome _ _ FC (always_and _ _ _ AL AG)) as (r & (h & ->) & AG'). cbn [fst snd] in AG'.
    destruct (after X Os Y o ds2 h IY Ho E2) as (Y2 & P2 & I2 & _). rewrite P2 in AG'.
    destruct (IH ls Y2 (fun x Hx => HI x (or_intror Hx)) I2 AG') as (ords & PO & LAW). clear Y ds2 d2 E2 FO LN TH V2 FC AL AG AG' IY P2 I2 Y2 h.
    cbn [count_occ]. destruct (in_dec Z.eq_dec o T) as [HT|HT].
    + destruct (TF o HT) as (EO & TU & EGo & GG). rewrite E1 in EO. injection EO as ->. rewrite Eg in EGo. injection EGo as ->.
      destruct TU as ((rest & ED) & CL & NU). clear d1 rest1 ED1 CL1 NU1 TU1.
      exists (fun x => if Z.eq_dec x o then renamed (D0 o) l :: ords x else ords x).
      assert (HL : Permutation (seq 0 (List.length (hyper_names (D0 o)))) l).
      { destruct (VF X (conj C (hypers_moved_refl _ X))) as (ds2 & d2 & E2 & FO & LN & _). rewrite E1 in E2. injection E2 as <-.
        rewrite (first_tunable (DS o) (D0 o) rest ED CL) in FO. injection FO as <-. rewrite <- LN in HP.
        destruct (own_hypers_good (D0 o) (DI1 (D0 o) ltac:(rewrite ED; now left)) NU) as [_ KH]. rewrite <- KH. unfold keys. rewrite map_length. exact HP. }
      split.
      { intros x Hx. destruct (PO x Hx) as [P1 P2]. destruct (Z.eq_dec x o) as [->|N].
        - split; [intros y [<-|Hy]; [apply renamed_perm; exact HL|apply P1; exact Hy]|]. destruct (Z.eq_dec o o); [|congruence]. cbn [List.length]. lia.
        - split; [exact P1|]. destruct (Z.eq_dec o x); [congruence|exact P2]. }
      intros Y' h' I' C'. destruct (VF Y' I') as (ds2 & d2 & E2 & FO & LN & TH & V2). rewrite E2. cbn [obind]. rewrite TH. cbn [sbind settle].
      destruct (V2 l HP) as [FC AL]. rewrite (settle_free _ _ _ _ _ FC).
      destruct (col_facts X Os o (DS o) rest (D0 o) (GS o) ED CL NU GG Y' (h' o) I' (C' o HT)) as (ds' & d1 & E3 & AD & FO' & EH & KH & GH). rewrite E2 in E3. injection E3 as <-.
      destruct (one_call (DS o) (D0 o) (GS o) CL DI1 GG ds2 d1 (h' o) l AD FO' EH KH GH HL) as [_ LW]. rewrite LW.
      set (S := all_of (fun x => if Z.eq_dec x o then 1 else laws (weight (DS x)) (GS x) (ords x) (f x) (h' x))%R T).
      assert (IN : incl (renamed (D0 o) l) (hyper_names (D0 o))) by (intros k Hk; apply (Permutation_in k (Permutation_sym (renamed_perm (D0 o) l HL)) Hk)).
      transitivity (gibbs_law (weight (DS o)) (GS o) (renamed (D0 o) l) (fun h2 => 0 + S * laws (weight (DS o)) (GS o) (ords o) (f o) h2)%R (h' o)).
      * apply (law_ext (weight (DS o)) (GS o) (hyper_names (D0 o))); [exact IN|exact KH| |].
        { intros k Hk Nk. exfalso. apply Nk. apply (Permutation_in k (renamed_perm (D0 o) l HL) Hk). }
        intros h2 Ph. cbn [fst snd]. assert (G2 := on_grids_good (D0 o) (GS o) h2 GG Ph). assert (RS := restart (D0 o) h2 NU G2 (proj1 Ph)).
        assert (RT : map (retune h2) (DS o) = map (retune h2) ds2).
        { clear - AD G2 CL. revert CL. induction AD as [|a b la lb A AD IH]; intros CL; [reflexivity|]. cbn [map]. f_equal.
          - destruct (dist_set_hypers a h2) as [a' res] eqn:E. destruct (PrimsThm2.set_hypers_spec _ _ _ _ E) as (S1 & _).
            assert (res = Ok tt) by (apply S1; eapply good_class; [apply CL; now left|exact G2]). subst res.
            unfold retune. rewrite E, (adjusted_ok' _ _ _ _ _ A E). reflexivity.
          - apply IH. intros d Hd. apply CL. now right. }
        rewrite RT. destruct (after X Os Y' o ds2 h2 I' Ho E2) as (Y2 & P2 & I2 & Q2 & R2). rewrite P2.
        rewrite (LAW Y2 (fun x => if Z.eq_dec x o then h2 else h' x) I2).
        { unfold joint. rewrite (all_pick _ o T NDT HT). destruct (Z.eq_dec o o); [|congruence]. rewrite Rplus_0_l, Rmult_comm. f_equal. unfold S.
          apply all_ext. intros x Hx. destruct (Z.eq_dec x o); reflexivity. }
        intros x Hx. destruct (Z.eq_dec x o) as [->|N].
        { exists (map (retune h2) ds2). split; [exact Q2|]. rewrite <- RT. split; [apply retuned_all|]. rewrite ED. exact RS. }
        { destruct (C' x Hx) as (dx & Ex & Rx). exists dx. split; [rewrite R2 by exact N; exact Ex|exact Rx]. }
      * rewrite (law_affine (weight (DS o)) (GS o) (hyper_names (D0 o))); [|intros h; apply weight_pos; exact DI1|apply (proj1 GG)|exact IN].
        unfold joint. rewrite (all_pick _ o T NDT HT). destruct (Z.eq_dec o o); [|congruence]. cbn [laws]. rewrite Rplus_0_l, Rmult_comm. f_equal. unfold S.
        apply all_ext. intros x Hx. destruct (Z.eq_dec x o); reflexivity.
    + exists ords. split.
      { intros x Hx. destruct (PO x Hx) as [P1 P2]. split; [exact P1|]. destruct (Z.eq_dec o x) as [->|_]; [contradiction|exact P2]. }
      intros Y' h' I' C'. destruct (VF Y' I') as (ds2 & d2 & E2 & FO & LN & TH & V2).
      rewrite E2. cbn [obind]. rewrite TH. cbn [sbind settle]. destruct (V2 l HP) as [FC AL]. rewrite (settle_free _ _ _ _ _ FC).
      rewrite (expect_always _ _ _ (fun _ => joint ords h') FC AL); [apply ChainLaw.expect_const; exact FC|].
      intros r (h2 & ->). cbn [fst snd]. destruct (after X Os Y' o ds2 h2 I' Ho E2) as (Y2 & P2 & I2 & _ & G2). rewrite P2. apply LAW; [exact I2|].
      intros x Hx. destruct (C' x Hx) as (ds' & E' & R'). exists ds'. split; [rewrite G2 by (intros ->; contradiction); exact E'|exact R'].
Qed.

Lemma passes_joint : forall ps, (forall p, In p ps -> visiting X Os gr p) ->
  rest_joint (fun x => times x ps) (fun r => all_of (fun x => f x (hypers_of (fst r) x)) T) (following ps).
Proof.
  induction ps as [|[k cols] ps IH]; intros VP ls Y IY AG.
  - unfold following in *. cbn [snd fst map run_all agreed] in *. subst ls. exists (fun _ => []). split; [intros x Hx; split; [intros ? []|reflexivity]|].
    intros Y' h' I' C'. cbn [settle expect fst]. unfold joint. apply all_ext. intros x Hx. destruct (C' x Hx) as (ds' & E' & _ & CO). cbn [laws]. unfold hypers_of. rewrite E', CO. reflexivity.
  - specialize (IH (fun p Hp => VP p (or_intror Hp))). destruct (VP (k, cols) (or_introl eq_refl)) as [IO KI]. cbn [fst snd] in IO, KI.
    change (agreed ls (sbind (k (CProd Y)) (following ps))) in AG.
    assert (TM : forall x, times x ((k, cols) :: ps) = (count_occ Z.eq_dec cols x + times x ps)%nat) by reflexivity.
    destruct KI as [[-> KI]|KI].
    { rewrite KI in AG. cbn [sbind] in AG. destruct (IH ls Y IY AG) as (ords & PO & LAW). exists ords. split; [exact PO|].
      intros Y' h' I' C'. change (following ((k, []) :: ps) (CProd Y', Ok tt)) with (sbind (k (CProd Y')) (following ps)).
      rewrite KI. cbn [sbind]. apply LAW; assumption. }
    rewrite (KI Y IY) in AG. unfold any_order in AG. cbn [sbind agreed] in AG.
    destruct ls as [|p ls]; [contradiction|]. destruct AG as [HP AG]. assert (SH := shuffled _ p HP).
    set (os := flat_map (fun i => match nth_error cols i with Some a => [a] | None => [] end) p) in *.
    assert (HI : forall x, In x os -> In x Os).
    { intros x Hx. apply (Permutation_in x (Permutation_sym SH)) in Hx. exact (IO x Hx). }
    destruct (visits_joint _ (following ps) _ IH os ls Y HI IY AG) as (ords & PO & LAW). exists ords. split.
    + intros x Hx. destruct (PO x Hx) as [P1 P2]. split; [exact P1|]. rewrite P2, TM, (proj1 (Permutation_count_occ Z.eq_dec cols os) SH x). reflexivity.
    + intros Y' h' I' C'. change (following ((k, cols) :: ps) (CProd Y', Ok tt)) with (sbind (k (CProd Y')) (following ps)).
      rewrite (KI Y' I'). unfold any_order. cbn [sbind settle]. fold os. apply LAW; assumption.
Qed.
End Joint.
