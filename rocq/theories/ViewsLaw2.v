(** The law of a move of columns between views: the proposals and the choice among them. *)
From Coq Require Import List ZArith QArith Qcanon Reals Bool String Permutation Lia Lra.
From Verif Require Import Base Xr Samp Lgamma Prims Cgpm Lib SpecPrims PrimsInv PrimsDens PrimsThm2
  SpecComp CompInv CompDens CompThm SpecBook Book SpecTable SpecSim SimShape SimTotal SimLaw Trans SpecHist Table Gibbs Hist Meta MetaThm
  Walks SpecWalks WalksThm PropPrims PropWalks Views SpecViews ViewsThm ViewsThm2 ViewsThm3 ViewsThm4 SpecMoves ViewsLaw.
Import ListNotations.
Local Open Scope Z_scope.

(** ** New views are drawn by choices *)

(** Only flips of weighted dice. *)
Fixpoint flips {A} (m : samp A) : Prop :=
  match m with
  | Ret _ => True
  | Flip ws k => (forall w, In w ws -> (0 <= w)%R) /\ (0 < rsum ws)%R /\
      forall i, (i < List.length ws)%nat -> (0 < nth i ws 0)%R -> flips (k i)
  | _ => False
  end.

Lemma flips_choices : forall {A} (m : samp A), flips m -> choices m.
Proof.
  induction m as [a|ws k IH|l k IH|n p k IH|lo hi k IH|n k IH]; intros F; cbn [choices flips] in *; try contradiction; auto.
  destruct F as (F1 & F2 & F3). auto.
Qed.

Lemma flips_finite : forall {A} (m : samp A), finite_choices m -> flips m.
Proof.
  induction m as [a|ws k IH|l k IH|n p k IH|lo hi k IH|n k IH]; intros F; cbn [flips finite_choices] in *; try contradiction; auto.
  destruct F as (F1 & F2 & F3). auto.
Qed.

Lemma flips_then : forall {A B} (m : samp A) (f : A -> samp B) (P : A -> Prop), flips m -> always m P -> (forall a, P a -> flips (f a)) -> flips (sbind m f).
Proof.
  induction m as [a|ws k IH|l k IH|n p k IH|lo hi k IH|n k IH]; intros f P F AL H; cbn [flips always sbind] in *; try contradiction; auto.
  destruct F as (F1 & F2 & F3). split; [exact F1|]. split; [exact F2|]. intros i Hi W. eapply IH; eauto.
Qed.

Lemma some_weight : forall ws, (forall w, In w ws -> (0 <= w)%R) -> (0 < rsum ws)%R -> exists i, (i < List.length ws)%nat /\ (0 < nth i ws 0)%R.
Proof.
  induction ws as [|w ws IH]; intros H P; [unfold rsum in P; cbn in P; lra|]. change (rsum (w :: ws)) with (w + rsum ws)%R in P.
  destruct (Rlt_dec 0 w) as [W|W]; [exists O; cbn; split; [lia|exact W]|].
  destruct IH as (i & Hi & Wi); [intros; apply H; now right| |exists (Datatypes.S i); cbn; split; [lia|exact Wi]].
  assert (0 <= w)%R by (apply H; now left). lra.
Qed.

Lemma flips_possible : forall {A} F (m : samp A) P, flips m -> given F m P -> possible m P.
Proof.
  intros A F. induction m as [a|ws k IH|l k IH|n p k IH|lo hi k IH|n k IH]; intros P FL G; cbn [flips given possible] in *; try contradiction; auto.
  destruct FL as (F1 & F2 & F3). destruct (some_weight ws F1 F2) as (i & Hi & W). exists i. auto.
Qed.

Definition lined (c : cgpm) : Prop :=
  exists s ix bs cs r2i r2c, c = CMix true (DCrp s) (CFlexArr ix (CProd (map CDist bs)) cs r2i) r2c /\
    forall k c, In (k, c) cs -> exists ds, c = CProd (map CDist ds).

Lemma dists_observe : forall ds rid obs ins, exists ds' res, observe (CProd (map CDist ds)) rid obs ins = Ret (CProd (map CDist ds'), res).
Proof.
  intros ds rid obs ins. cbn [observe].
  enough (X : exists ds' res, prod_observe (map (fun c' => (c', observe c')) (map CDist ds)) rid obs ins = Ret (map CDist ds', res)).
  { destruct X as (ds' & res & ->). exists ds', res. reflexivity. }
  induction ds as [|d ds IH]; [exists [], (Ok tt); reflexivity|]. destruct IH as (ds' & res & E). cbn [map prod_observe].
  destruct (interd (outputs (CDist d)) obs) as [|e l].
  - rewrite E. exists (d :: ds'), res. reflexivity.
  - cbn [observe sbind]. destruct (dist_observe d rid (e :: l) _) as [d' r]. cbn [sbind fst snd]. destruct r as [u|er].
    + rewrite E. exists (d' :: ds'), res. reflexivity.
    + exists (d' :: ds), (Err er). cbn [map]. rewrite !map_map. reflexivity.
Qed.

Lemma lined_observe : forall c rid obs ins, lined c -> flips (observe c rid obs ins) /\ always (observe c rid obs ins) (fun r => lined (fst r)).
Proof.
  intros c rid obs ins (s & ix & bs & cs & r2i & r2c & -> & C). cbn [observe].
  change (flexarr_observe ix (CProd (map CDist bs)) _ cs _ r2i) with (observe (CFlexArr ix (CProd (map CDist bs)) cs r2i)).
  assert (X : forall s' r2c' z, exists q res, mix_observe_x true (DCrp s') (CFlexArr ix (CProd (map CDist bs)) cs r2i)
     (observe (CFlexArr ix (CProd (map CDist bs)) cs r2i)) r2c' rid obs ins z = Ret (q, res) /\ lined q).
  { intros s' r2c' z. unfold mix_observe_x.
    change (observe (CFlexArr ix (CProd (map CDist bs)) cs r2i)) with (flexarr_observe ix (CProd (map CDist bs)) (observe (CProd (map CDist bs))) cs
       (map (fun p => let '(k, c') := p in (k, observe c')) cs) r2i).
    unfold flexarr_observe.
    destruct (lookup _ (merged _ _)) as [i|]; [|cbn [sbind fst snd]; do 2 eexists; split; [reflexivity|]; exists s', ix, bs, cs, r2i, r2c'; auto].
    assert (M : exists ds, (match lookup i (map (fun p => let '(k, c') := p in (k, observe c')) cs) with Some f => f | None => observe (CProd (map CDist bs)) end) =
                 observe (CProd (map CDist ds))).
    { assert (LM : lookup i (map (fun p => let '(k, c') := p in (k, observe c')) cs) = option_map observe (lookup i cs)).
      { clear. induction cs as [|[k c] cs IH]; [reflexivity|]. cbn [map lookup]. destruct (eq_dec i k); [reflexivity|exact IH]. }
      rewrite LM. destruct (lookup i cs) as [c|] eqn:L; cbn [option_map]; [|eauto]. destruct (C _ _ (lookup_In _ _ _ L)) as (ds & ->). eauto. }
    destruct M as (ds & ->). destruct (dists_observe ds rid (interd (outputs (CFlexArr ix (CProd (map CDist bs)) cs r2i)) obs)
      (ddel ix (merged (interd (tl (inputs (CFlexArr ix (CProd (map CDist bs)) cs r2i))) ins) [(dist_o (DCrp s'), z)]))) as (ds' & res & E).
    rewrite E. cbn [sbind fst snd].
    assert (CD : forall k c, In (k, c) (dset i (CProd (map CDist ds')) cs) -> exists l, c = CProd (map CDist l)).
    { intros k c Hc. clear - C Hc. induction cs as [|[k0 c0] cs IH]; cbn [dset] in Hc.
      - destruct Hc as [Hc|[]]. injection Hc as _ <-. eauto.
      - destruct (eq_dec i k0); destruct Hc as [Hc|Hc]; try (injection Hc as _ <-).
        + eauto.
        + apply (C k). now right.
        + apply (C k0). now left.
        + apply IH; [intros k' c' H'; apply (C k'); now right|exact Hc]. }
    destruct res as [u|e]; cbn [sbind fst snd]; do 2 eexists; (split; [reflexivity|]).
    - exists s', ix, bs, (dset i (CProd (map CDist ds')) cs), (dset rid i r2i), r2c'. auto.
    - exists s', ix, bs, (dset i (CProd (map CDist ds')) cs), r2i, r2c'. auto. }
  assert (X' : forall s' r2c' z, flips (mix_observe_x true (DCrp s') (CFlexArr ix (CProd (map CDist bs)) cs r2i)
     (observe (CFlexArr ix (CProd (map CDist bs)) cs r2i)) r2c' rid obs ins z) /\ always (mix_observe_x true (DCrp s') (CFlexArr ix (CProd (map CDist bs)) cs r2i)
     (observe (CFlexArr ix (CProd (map CDist bs)) cs r2i)) r2c' rid obs ins z) (fun r => lined (fst r))).
  { intros s' r2c' z. destruct (X s' r2c' z) as (q & res & E & L). rewrite E. split; [exact Logic.I|exact L]. }
  unfold mix_observe. cbv zeta. destruct (lookup rid r2c) as [z|]; [apply X'|].
  assert (K : forall oz, flips (match oz with
      | Err e => Ret (CMix true (DCrp s) (CFlexArr ix (CProd (map CDist bs)) cs r2i) r2c, Err e)
      | Ok z => match dist_observe (DCrp s) rid [(dist_o (DCrp s), z)] [] with
        | (div', Err e) => Ret (CMix true div' (CFlexArr ix (CProd (map CDist bs)) cs r2i) r2c, Err e)
        | (div', Ok _) => mix_observe_x true div' (CFlexArr ix (CProd (map CDist bs)) cs r2i) (observe (CFlexArr ix (CProd (map CDist bs)) cs r2i)) (dset rid z r2c) rid obs ins z
        end end) /\ always (match oz with
      | Err e => Ret (CMix true (DCrp s) (CFlexArr ix (CProd (map CDist bs)) cs r2i) r2c, Err e)
      | Ok z => match dist_observe (DCrp s) rid [(dist_o (DCrp s), z)] [] with
        | (div', Err e) => Ret (CMix true div' (CFlexArr ix (CProd (map CDist bs)) cs r2i) r2c, Err e)
        | (div', Ok _) => mix_observe_x true div' (CFlexArr ix (CProd (map CDist bs)) cs r2i) (observe (CFlexArr ix (CProd (map CDist bs)) cs r2i)) (dset rid z r2c) rid obs ins z
        end end) (fun r => lined (fst r))).
  { intros [z|e]; [|split; [exact Logic.I|]; exists s, ix, bs, cs, r2i, r2c; auto].
    destruct (dist_observe (DCrp s) rid [(dist_o (DCrp s), z)] []) as [div' res] eqn:E.
    assert (FR := observe_frame (DCrp s) rid [(dist_o (DCrp s), z)] []). rewrite E in FR. cbn [fst] in FR. destruct FR as (FK & FO & _).
    destruct div' as [s2| | | | |]; try discriminate FK. destruct res as [u|e]; [apply X'|].
    split; [exact Logic.I|]. exists s2, ix, bs, cs, r2i, r2c. auto. }
  split; [|apply always_bind; apply always_True; intros oz; apply K].
  eapply flips_then; [| |intros oz _; apply K].
  - destruct (lookup (dist_o (DCrp s)) obs) as [z|]; [exact Logic.I|]. apply flips_finite. apply choices_bind; [|intros; exact Logic.I].
    cbn [dist_simulate simulate_many]. apply choices_sobind; [|intros; exact Logic.I]. unfold crp_simulate1. destruct (base_simulate _ _ _ _); [|exact Logic.I].
    destruct (lookup rid (crp_data s)); [exact Logic.I|]. destruct (oseq _); [|exact Logic.I]. apply choices_sobind; [apply choices_log_pflip|intros; exact Logic.I].
  - apply always_True. intros; exact Logic.I.
Qed.

Lemma lined_rows : forall l c, lined c -> flips (observe_rows c l).
Proof.
  induction l as [|[r obs] l IH]; intros c H; cbn [observe_rows]; [exact Logic.I|]. destruct (lined_observe c r obs [] H) as [CH AL].
  eapply flips_then; [exact CH|exact AL|]. intros [q res] Hq. cbn [fst snd] in *. destruct res; [apply IH; exact Hq|exact Logic.I].
Qed.

Lemma singleton_flips : forall D L z, flips (match new_product (map CDist D) with
    | Err e => Ret (Err e)
    | Ok base => let! r := observe_rows (new_flexmix (DCrp (crp_new z 1%Qc)) base) (List.concat L) in Ret (do _ <- snd r; Ok (fst r))
    end).
Proof.
  intros D L z. destruct (new_product (map CDist D)) as [base|e] eqn:E; [|exact Logic.I].
  eapply flips_then; [|apply always_True with (P := fun _ => True); auto|intros; exact Logic.I]. apply lined_rows.
  apply new_product_inv in E. destruct E as (-> & _). unfold new_flexmix, new_flexarr. cbn [dist_o].
  assert (F : flatten_products (map CDist D) = map CDist D) by (clear; unfold flatten_products; induction D as [|d D IH]; [reflexivity|]; cbn [map flat_map app]; rewrite IH; reflexivity).
  rewrite F. exists (crp_new z 1%Qc), z, D, [], [], []. split; [reflexivity|]. intros ? ? [].
Qed.

Lemma singleton_choices : forall D L, choices (proposal_singleton_one D L).
Proof. intros D L. unfold proposal_singleton_one. cbn [choices]. split; [lia|]. intros z _. apply flips_choices. apply singleton_flips. Qed.

Lemma singleton_possible : forall D L (F : Z -> Prop) P z, 0 <= z < 2 ^ 32 - 1 -> F z -> given F (proposal_singleton_one D L) P -> possible (proposal_singleton_one D L) P.
Proof.
  intros D L F P z Hz Fz G. unfold proposal_singleton_one in *. cbn [given possible] in *. exists z. split; [exact Hz|].
  apply (flips_possible F); [apply singleton_flips|apply G; assumption].
Qed.

Lemma repeat_possible : forall {A} (m : samp (out A)) (P : A -> Prop) n, possible m (fun r => exists a, r = Ok a /\ P a) ->
  possible (srepeat n m) (fun r => exists l, r = Ok l /\ List.length l = n /\ forall a, In a l -> P a).
Proof.
  intros A m P n H. induction n as [|n IH]; cbn [srepeat].
  - exists []. split; [reflexivity|]. split; [reflexivity|]. intros a [].
  - unfold sobind. apply possible_bind. revert H. apply possible_imp. intros r (a & -> & Pa). apply possible_bind. revert IH. apply possible_imp.
    intros r (l & -> & LL & Pl). cbn [possible]. exists (a :: l). split; [reflexivity|]. split; [cbn; lia|]. intros b [<-|Hb]; auto.
Qed.

(** A label that no column has. *)
Lemma free_label : forall (outs : list Z) N, Z.of_nat (List.length outs) < N -> exists z, 0 <= z < N /\ ~ In z outs.
Proof.
  intros outs N H. destruct (in_dec Z.eq_dec 0 outs) as [_|]; [|exists 0; split; [lia|assumption]].
  destruct (List.Exists_dec (fun z => ~ In z outs) (map Z.of_nat (seq 0 (Datatypes.S (List.length outs))))) as [E|E].
  - intros z. destruct (in_dec Z.eq_dec z outs); [right|left]; auto.
  - apply Exists_exists in E. destruct E as (z & Hz & N0). apply in_map_iff in Hz. destruct Hz as (n & <- & Hn). apply in_seq in Hn.
    exists (Z.of_nat n). split; [lia|exact N0].
  - exfalso. assert (I : incl (map Z.of_nat (seq 0 (Datatypes.S (List.length outs)))) outs).
    { intros z Hz. destruct (in_dec Z.eq_dec z outs) as [Y|Y]; [exact Y|]. exfalso. apply E. apply Exists_exists. exists z. auto. }
    apply NoDup_incl_length in I; [rewrite map_length, seq_length in I; lia|].
    apply FinFun.Injective_map_NoDup; [intros a b; apply Nat2Z.inj|apply seq_NoDup].
Qed.

Lemma choices_repeat : forall {A} (m : samp (out A)) n, choices m -> choices (srepeat n m).
Proof.
  intros A m n H. induction n as [|n IH]; cbn [srepeat]; [exact Logic.I|]. unfold sobind.
  eapply choices_then with (P := fun _ => True); [exact H|apply always_True; auto|]. intros [a|e] _; [|exact Logic.I].
  eapply choices_then with (P := fun _ => True); [exact IH|apply always_True; auto|]. intros [l|e] _; exact Logic.I.
Qed.
