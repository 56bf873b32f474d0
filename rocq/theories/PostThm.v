(** Row transitions leave the posterior over partitions invariant. *)
From Coq Require Import List ZArith QArith Qcanon Reals Bool String Permutation Lia Lra Sorted.
From Verif Require Import Base Xr Samp Lgamma Prims Cgpm Lib SpecPrims PrimsInv PrimsDens PrimsThm PrimsThm2
  SpecComp CompInv CompDens CompThm SpecBook Book SpecTable Trans SpecHist Table Gibbs Hist SimLaw ChainLaw SpecWalks WalksThm SpecSame SameThm SameHist SameRel SpecPost.
Import ListNotations.
Local Open Scope Z_scope.

(** ** Views with the same blocks *)

Definition seat_dec (a b : option val) : {a = b} + {a <> b}.
Proof. destruct a as [a|], b as [b|]; try (left; congruence); try (right; congruence). destruct (eq_dec a b); [left|right]; congruence. Defined.

Lemma arranged_wf : forall m0 m, arranged m0 m -> wf m.
Proof. intros m0 m (G & _). apply grown_wf. exact G. Qed.

Definition rows_of (m : cgpm) : list Z := match m with CMix _ _ _ r2c => keys r2c | _ => [] end.

Lemma rows_seat : forall m r, sheet m -> (In r (rows_of m) <-> seat m r <> None).
Proof.
  intros m r S. destruct (sheet_inv m S) as (s & bs & cs & r2i & r2c & -> & _). cbn [rows_of mkview seat].
  split; [intros J E; apply lookup_None in E; auto|]. intros N. destruct (lookup r r2c) as [v|] eqn:E; [|congruence]. eapply lookup_Some_keys; eauto.
Qed.

Lemma seat_label : forall m r k, consistent m -> seat m r = Some k -> exists z, k = vz z.
Proof. intros m r k K E. destruct m as [| | | |flex div arr r2c]; try discriminate E. destruct K as (_ & _ & _ & _ & A5 & _). exact (A5 r k E). Qed.

(** The renaming: the label in [m'] of the first row with label [z] in [m]. *)
Definition naming (m m' : cgpm) (z : Z) : Z :=
  match find (fun r => if seat_dec (seat m r) (Some (vz z)) then true else false) (rows_of m) with
  | Some r => match seat m' r with Some (VQ q) => trunc q | _ => 0 end
  | None => 0
  end.

Lemma naming_spec : forall m m' r z, sheet m -> consistent m' -> (forall r, seat m' r = None <-> seat m r = None) -> same_blocks m m' ->
  seat m r = Some (vz z) -> seat m' r = Some (vz (naming m m' z)).
Proof.
  intros m m' r z S K' N SB E. unfold naming.
  destruct (find (fun r0 => if seat_dec (seat m r0) (Some (vz z)) then true else false) (rows_of m)) as [r0|] eqn:F.
  - apply find_some in F. destruct F as [J F]. destruct (seat_dec (seat m r0) (Some (vz z))) as [E0|]; [|discriminate].
    assert (X : seat m' r = seat m' r0) by (apply SB; congruence). rewrite X.
    destruct (seat m' r0) as [k|] eqn:E1; [|apply N in E1; congruence]. destruct (seat_label m' r0 k K' E1) as (z' & ->). apply f_equal, f_equal. symmetry. exact (trunc_qz z').
  - exfalso. assert (J : In r (rows_of m)) by (apply rows_seat; [exact S|congruence]).
    apply (find_none _ _ F) in J. destruct (seat_dec (seat m r) (Some (vz z))); congruence.
Qed.

Lemma blocks_renamed : forall m0 m m', arranged m0 m -> arranged m0 m' -> same_blocks m m' -> columns_of m = columns_of m0 -> renamed_rows (naming m m') m m'.
Proof.
  intros m0 m m' (G & S & K & U & N & C) (G' & S' & K' & U' & N' & C') SB EC.
  assert (NN : forall r, seat m' r = None <-> seat m r = None) by (intros r; rewrite N, N'; reflexivity).
  split; [|split].
  - intros r. destruct (seat m r) as [k|] eqn:E; [|apply NN; exact E]. destruct (seat_label m r k K E) as (z & ->). cbn [vz]. change (seat m' r = Some (vz (naming m m' (trunc (qz z))))). rewrite trunc_qz.
    apply naming_spec; assumption.
  - intros r r' z z' E E' EQ. assert (X := naming_spec m m' r z S K' NN SB E). assert (X' := naming_spec m m' r' z' S K' NN SB E').
    apply vz_inj. assert (Y : seat m r = seat m r') by (apply SB; congruence). congruence.
  - intros r o Ho. rewrite EC in Ho. rewrite C, C' by exact Ho. reflexivity.
Qed.

(** ** Settings *)

Definition top (m0 : cgpm) : dist := match m0 with CMix _ d _ _ => settings d | _ => DCrp (crp_new 0 0) end.
Definition columns0 (m0 : cgpm) : list dist := match m0 with CMix _ _ (CFlexArr _ b _ _) _ => map settings (leaves b) | _ => [] end.

Fixpoint above (l : list Z) : Z := match l with [] => 0 | z :: r => Z.max (z + 1) (above r) end.
Lemma above_ok : forall l z, In z l -> z < above l.
Proof. induction l as [|a l IH]; intros z []; cbn [above]; [subst; lia|]. specialize (IH z H). lia. Qed.

Lemma fresh_key : forall (cs : dict val cgpm), exists k, lookup k cs = None.
Proof.
  intros cs. exists (vz (above (map (fun p => match fst p with VQ q => trunc q | VNan => 0 end) cs))). apply lookup_None. intros J. unfold keys in J.
  apply in_map_iff in J. destruct J as ([k c] & E & J). cbn [fst] in E. subst k.
  assert (X := above_ok (map (fun p => match fst p with VQ q => trunc q | VNan => 0 end) cs) _ (in_map _ _ _ J)). cbn [fst] in X. change (match vz ?z with VQ q => trunc q | VNan => 0 end) with (trunc (qz z)) in X. rewrite trunc_qz in X. lia.
Qed.

Lemma uniform_fixed : forall m0 m, wf m -> sheet m -> uniform m0 m -> fixed (top m0) (columns0 m0) m.
Proof.
  intros m0 m W S U. destruct (sheet_inv m S) as (s & bs & cs & r2i & r2c & -> & NB & B & C). destruct (view_parts _ _ _ _ _ W) as (_ & _ & _ & _ & NDk & _).
  destruct m0 as [| | | |f0 d0 a0 r0]; try contradiction. destruct a0 as [| | |ix0 b0 cs0 ri0|]; try contradiction. destruct U as [U1 U2].
  exists s, (crp_o s), bs, cs, r2i, r2c. split; [reflexivity|]. split; [exact U1|]. cbn [columns0].
  split.
  - destruct (fresh_key cs) as [k E]. rewrite <- (U2 k). cbn [component_at]. rewrite E, leaves_prod. reflexivity.
  - intros k c Hc. destruct (C k c Hc) as (ds & -> & A). exists ds. split; [reflexivity|].
    rewrite <- (U2 k). cbn [component_at]. rewrite (In_lookup cs k _ NDk Hc), leaves_prod. reflexivity.
Qed.

Lemma fixed_uniform : forall m0 m m', uniform m0 m -> fixed (top m0) (columns0 m0) m' -> uniform m0 m'.
Proof.
  intros m0 m m' U F. destruct m0 as [| | | |f0 d0 a0 r0]; try contradiction. destruct a0 as [| | |ix0 b0 cs0 ri0|]; try contradiction.
  assert (F' := F). destruct F' as (s & ix & bs & cs & r2i & r2c & -> & _). destruct (fixed_component _ _ _ _ _ _ F) as [A B]. split; [exact A|exact B].
Qed.

Lemma settings_kind : forall d d', settings d' = settings d -> kind_of d' = kind_of d.
Proof. intros d d' E. destruct d, d'; cbn [settings kind_of] in *; try discriminate; try reflexivity; injection E; intros; congruence. Qed.

Lemma settings_outputs : forall bs bs', map settings bs' = map settings bs -> map dist_o bs' = map dist_o bs.
Proof.
  intros bs bs' E. apply map_F2 in E. induction E as [|d d' l l' E F IH]; [reflexivity|]. cbn [map]. rewrite (settings_o _ _ E), IH. reflexivity.
Qed.

Lemma settings_find : forall bs bs' o, map settings bs' = map settings bs ->
  match find (fun d => dist_o d =? o) bs' with Some d => Some (kind_of d) | None => None end = match find (fun d => dist_o d =? o) bs with Some d => Some (kind_of d) | None => None end.
Proof.
  intros bs bs' o E. apply map_F2 in E. induction E as [|d d' l l' E F IH]; [reflexivity|]. cbn [find]. rewrite (settings_o _ _ E).
  destruct (dist_o d =? o); [rewrite (settings_kind _ _ E); reflexivity|exact IH].
Qed.

Lemma leaves_columns : forall bs, flat_map outputs (map CDist bs) = map dist_o bs.
Proof. intros bs. apply (outputs_prod bs). Qed.

Lemma arranged_columns : forall m0 m, sheet m0 -> arranged m0 m -> label_of m = label_of m0 /\ columns_of m = columns_of m0 /\ forall o, kind_at m o = kind_at m0 o.
Proof.
  intros m0 m S0 A. assert (F := uniform_fixed m0 m (arranged_wf m0 m A) (proj1 (proj2 A)) (proj1 (proj2 (proj2 (proj2 A))))).
  destruct (sheet_inv m0 S0) as (s0 & bs0 & cs0 & r2i0 & r2c0 & -> & _). destruct (sheet_inv m (proj1 (proj2 A))) as (s & bs & cs & r2i & r2c & -> & _).
  destruct F as (s1 & ix & bs1 & cs1 & r2i1 & r2c1 & E & E1 & E2 & _). unfold mkview in E.
  assert (EB : bs = bs1) by (rewrite <- (leaves_prod bs), <- (leaves_prod bs1); congruence). assert (ES : s = s1) by congruence. subst bs1 s1.
  cbn [top mkview columns0] in E1, E2. rewrite leaves_prod in E2.
  unfold mkview. cbn [label_of columns_of kind_at]. change (outputs (CFlexArr ?a ?b ?c ?d)) with (outputs b). rewrite !outputs_prod, !leaves_prod.
  split; [exact (settings_o (DCrp s0) (DCrp s) E1)|]. split; [apply settings_outputs; exact E2|]. intros o. apply settings_find. exact E2.
Qed.

(** ** One step *)

Definition elsewhere (m : cgpm) (r z : Z) : Prop := exists r', r' <> r /\ seat m r' = Some (vz z).

Lemma exp_score_pos : forall m x, score m = Ok (Fin x) -> exp_score m = exp x.
Proof. intros m x E. unfold exp_score. rewrite E. reflexivity. Qed.

Lemma sheet_divider : forall m, sheet m -> consistent m -> exists s, divider m = Some (DCrp s) /\ forall r, lookup r (dist_data (DCrp s)) = seat m r.
Proof.
  intros m S K. destruct (sheet_inv m S) as (s & bs & cs & r2i & r2c & -> & _). exists s. split; [reflexivity|]. destruct K as (_ & _ & A3 & _). exact A3.
Qed.

Lemma step_law : forall m0 m r, sheet m0 -> arranged m0 m -> seat m0 r <> None -> observable m0 r ->
  exists K (mz : Z -> cgpm), NoDup K /\ K <> [] /\
    (forall z, In z K -> arranged m0 (mz z) /\ seat (mz z) r = Some (vz z) /\ (forall r', r' <> r -> seat (mz z) r' = seat m r') /\ (0 < exp_score (mz z))%R) /\
    (forall z, elsewhere m r z -> In z K) /\
    (exists z, In z K /\ ~ elsewhere m r z) /\ (forall z z', In z K -> In z' K -> ~ elsewhere m r z -> ~ elsewhere m r z' -> z = z') /\
    finite_choices (transition_rows m r) /\
    forall f, expect (transition_rows m r) f = (rsum (map (fun z => exp_score (mz z) * f (mz z, Ok tt)) K) / rsum (map (fun z => exp_score (mz z)) K))%R.
Proof.
  intros m0 m r S0 A SE OB. assert (EC := arranged_columns m0 m S0 A). destruct EC as (EL & EC & EK).
  assert (W := arranged_wf _ _ A). assert (A' := A). destruct A' as (G & S & K & U & N & C).
  assert (SE' : seat m r <> None) by (rewrite N; exact SE). destruct (seat m r) as [k0|] eqn:E0; [|congruence]. clear SE'.
  destruct (seat_label m r k0 K E0) as (z0 & ->).
  assert (CO : forall o, ~ In o (columns_of m) -> cell m r o = None).
  { intros o No. destruct (sheet_inv m S) as (s & bs & cs & r2i & r2c & -> & _). assert (SH := S). apply sheet_shaped in SH.
    rewrite (cell_parts s bs cs r2i r2c r o SH). destruct (lookup r r2c) as [k|]; [|reflexivity]. apply in_column_None.
    destruct (cols_good s bs cs r2i r2c W (proj1 (proj2 SH)) (proj2 (proj2 SH)) k) as (_ & _ & GO). rewrite GO.
    unfold mkview in No. cbn [columns_of] in No. change (outputs (CFlexArr ?a ?b ?c ?d)) with (outputs b) in No. rewrite outputs_prod in No. exact No. }
  assert (OB' : observable m r).
  { intros o E. rewrite EK. apply OB. destruct (in_dec Z.eq_dec o (columns_of m)) as [J|J]; [|rewrite (CO o J) in E; discriminate].
    rewrite <- C by (rewrite <- EC; exact J). exact E. }
  destruct (gibbs_balance m r z0 W S K E0 OB') as (L & mz & sz & sc & ND & DV & MZ & _ & _ & FC & EX & _).
  destruct (sheet_divider m S K) as (s & ED & LD). destruct (DV s ED) as (s1 & EU & ES).
  assert (D : dinv (DCrp s)) by (destruct (sheet_inv m S) as (s' & bs & cs & r2i & r2c & -> & _); injection ED as <-; exact (proj1 (view_parts _ _ _ _ _ W))).
  assert (D1 : dinv (DCrp s1)) by (assert (X := unobserve_dinv (DCrp s) r D); rewrite EU in X; exact X).
  assert (LD1 : forall r', r' <> r -> lookup r' (dist_data (DCrp s1)) = seat m r').
  { intros r' NE. rewrite <- LD. assert (X := rm_lookup r (DCrp s) r' D). unfold rm in X. rewrite EU in X. cbn [fst] in X. rewrite X. destruct (eq_dec r' r); congruence. }
  assert (LDr : lookup r (dist_data (DCrp s1)) = None).
  { assert (X := rm_lookup r (DCrp s) r D). unfold rm in X. rewrite EU in X. cbn [fst] in X. rewrite X. destruct (eq_dec r r); congruence. }
  assert (OC : forall z, occupied (dist_data (DCrp s1)) z <-> elsewhere m r z).
  { intros z. split.
    - intros [r' J]. apply In_lookup in J; [|apply D1]. assert (NE : r' <> r) by (intros ->; congruence). exists r'. split; [exact NE|]. rewrite <- (LD1 r' NE). exact J.
    - intros (r' & NE & E). exists r'. apply lookup_In. rewrite (LD1 r' NE). exact E. }
  assert (ML : forall z, In z L -> arranged m0 (mz z)).
  { intros z Hz. destruct (MZ z Hz) as ((M1 & M2 & M3 & M4 & M5 & M6 & M7) & _ & SCZ & m1 & row & EU1 & EO1).
    assert (G1 : grown m1) by exact (gr_unobserve m r m1 _ G EU1).
    assert (G2 : grown (mz z)) by (apply (gr_observe m1 r (dset (label_of m) (vz z) row) [] (mz z) (Ok tt) G1); rewrite EO1; reflexivity).
    split; [exact G2|]. split; [exact M2|]. split; [exact M3|]. split; [|split].
    - apply (fixed_uniform m0 m); [exact U|]. assert (F := uniform_fixed m0 m W S U). assert (F1 := fixed_unobserve _ _ m r F). rewrite EU1 in F1. cbn [fst] in F1.
      assert (F2 := fixed_observe _ _ m1 r (dset (label_of m) (vz z) row) [] F1). rewrite EO1 in F2. exact F2.
    - intros r'. rewrite <- N. destruct (Z.eq_dec r' r) as [->|NE]; [rewrite M6, E0; split; discriminate|]. destruct (M5 r' NE) as [-> _]. reflexivity.
    - intros r' o Ho. rewrite <- C by exact Ho. destruct (Z.eq_dec r' r) as [->|NE]; [apply M7; rewrite EC; exact Ho|]. apply (M5 r' NE). }
  exists L, mz. split; [exact ND|]. split; [rewrite <- ES; apply support_nonempty|]. split; [|split; [|split; [|split; [|split; [exact FC|]]]]].
  - intros z Hz. destruct (MZ z Hz) as ((M1 & M2 & M3 & M4 & M5 & M6 & M7) & _ & SCZ & _). split; [apply ML; exact Hz|]. split; [exact M6|].
    split; [intros r' NE; apply (M5 r' NE)|]. rewrite (exp_score_pos _ _ SCZ). apply exp_pos.
  - intros z EZ. rewrite <- ES. apply crp_support_In; [exact D1|]. left. apply OC. exact EZ.
  - exists (first_free (dist_data (DCrp s1))). split; [rewrite <- ES; apply crp_support_In; [exact D1|]; now right|]. rewrite <- OC. apply first_free_unoccupied. apply D1.
  - intros z z' Hz Hz' Ez Ez'. rewrite <- OC in Ez, Ez'. rewrite <- ES in Hz, Hz'. apply crp_support_In in Hz, Hz'; try exact D1.
    destruct Hz as [Hz|Hz]; [contradiction|]. destruct Hz' as [Hz'|Hz']; [contradiction|]. congruence.
  - intros f. rewrite EX. assert (XS : forall z, In z L -> exp (sz z) = exp_score (mz z)).
    { intros z Hz. destruct (MZ z Hz) as (_ & _ & SCZ & _). symmetry. apply exp_score_pos. exact SCZ. }
    rewrite (map_ext_in _ (fun z => exp_score (mz z)) L XS). set (T := rsum (map (fun z => exp_score (mz z)) L)).
    unfold Rdiv. rewrite Rmult_comm, <- rsum_scale, map_map. f_equal. apply map_ext_in. intros z Hz. rewrite (XS z Hz). ring.
Qed.
