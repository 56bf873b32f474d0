(** Properties C27-C29: rejected observations, removal of unknown rows, and the score of
    composite models. Statements use the model of the API (Prims.v, Cgpm.v) and the
    specification (SpecPrims.v, SpecComp.v, SpecBook.v). *)
From Coq Require Import List ZArith QArith Qcanon Reals Bool String Permutation Lia Lra.
From Verif Require Import Base Xr Samp Lgamma Prims Cgpm Lib SpecPrims PrimsInv PrimsDens PrimsThm2
  SpecComp CompInv CompDens CompThm PropPrims DemoComp PropComp SpecBook Book
  SpecWalks WalksThm.
Import ListNotations.
Local Open Scope Z_scope.

(** ** C27 *)

(** A row mixture that is given the cluster of a new row, and whose row divider does not
    accept it, raises and is unchanged. *)
Theorem C27_divider_rejects : forall flex div arr r2c rid obs z,
  grown (CMix flex div arr r2c) -> ~ In rid (keys r2c) -> lookup (dist_o div) obs = Some z ->
  In rid (keys (dist_data div)) \/ ~ in_domain (kind_of div) (dist_data div) z ->
  exists e, observe (CMix flex div arr r2c) rid obs [] = Ret (CMix flex div arr r2c, Err e).
Proof.
  intros flex div arr r2c rid obs z RE. apply divider_rejects.
  destruct (wf_mix _ _ _ _ (grown_wf _ RE)) as (D & _). exact D.
Qed.
Print Assumptions C27_divider_rejects.

(** A Product whose first child concerned raises and is unchanged, raises and is unchanged. *)
Theorem C27_first_child_rejects : forall cs1 c cs2 rid obs e, grown c ->
  (forall c', In c' cs1 -> cells_of (outputs c') obs = []) -> cells_of (outputs c) obs <> [] ->
  observe c rid (cells_of (outputs c) obs) [] = Ret (c, Err e) ->
  observe (CProd (cs1 ++ c :: cs2)) rid obs [] = Ret (CProd (cs1 ++ c :: cs2), Err e).
Proof.
  intros cs1 c cs2 rid obs e RE N1 NE. rewrite cells_of_interd in *. apply product_first_rejects; auto.
  - apply grown_wf. exact RE.
  - intros c' H. rewrite <- cells_of_interd. auto.
Qed.
Print Assumptions C27_first_child_rejects.

(** What a Product of primitives does in general: it succeeds if every column accepts its
    cell, else the columns before the first refusal keep their cells and the rest is as
    before. *)
Theorem C27_columns : forall ds rid obs, (forall d, In d ds -> reachable d) -> NoDup (keys obs) ->
  exists ds' res, observe (CProd (map CDist ds)) rid obs [] = Ret (CProd (map CDist ds'), res) /\
    (res = Ok tt /\ Forall2 (takes rid obs) ds ds' \/
     exists e ds1 ds1' d ds2, res = Err e /\ ds = ds1 ++ d :: ds2 /\ ds' = ds1' ++ d :: ds2 /\
       Forall2 (takes rid obs) ds1 ds1' /\ refuses rid obs d e).
Proof. intros ds rid obs RE. apply columns_observe. intros d H. apply reachable_dinv. auto. Qed.
Print Assumptions C27_columns.

(** The claim "if observe raises the model is unchanged" fails for a Product. *)
Theorem C27_product_refuted : exists c rid obs c' e, creachable c /\
  observe c rid obs [] = Ret (c', Err e) /\ c' <> c /\
  exists r, unobserve c' rid = r /\ snd r = Ok ([(1, vz 2)], []).
Proof.
  exists demo_base, 7, [(1, vz 2); (2, vz 5)]. eexists. eexists.
  split; [exact base_reachable|]. split; [vm_compute; reflexivity|]. split; [discriminate|].
  eexists. split; [reflexivity|]. vm_compute. reflexivity.
Qed.
Print Assumptions C27_product_refuted.

(** It fails for a row mixture: after the rejected observation the row is seated in the row
    divider and in the mixture's row map but not in the component array; removing it then
    raises KeyError and leaves it in the row map only. *)
Theorem C27_mixture_refuted : exists m rid obs div arr r2c e div2,
  creachable m /\ observe m rid obs [] = Ret (CMix true div arr r2c, Err e) /\
  lookup rid (dist_data div) = Some (vz 1) /\ lookup rid r2c = Some (vz 1) /\ row_index arr = [(0, vz 0); (1, vz 0); (2, vz 1)] /\
  unobserve (CMix true div arr r2c) rid = (CMix true div2 arr r2c, Err KeyError) /\
  lookup rid (dist_data div2) = None.
Proof.
  exists demo_view, 7, [(9, vz 1); (1, vz 9)]. do 5 eexists.
  split; [exact (proj1 demo_view_reachable)|]. split; [vm_compute; reflexivity|].
  split; [vm_compute; reflexivity|]. split; [vm_compute; reflexivity|]. split; [vm_compute; reflexivity|].
  split; [vm_compute; reflexivity|]. vm_compute. reflexivity.
Qed.
Print Assumptions C27_mixture_refuted.

Example C27_case :
  (exists e, observe demo_view 7 [(9, vz 5); (1, vz 2)] [] = Ret (demo_view, Err e)) /\
  (exists e, observe demo_base 7 [(1, vz 9); (2, vz 1)] [] = Ret (demo_base, Err e)).
Proof. split; eexists; vm_compute; reflexivity. Qed.

(** ** C28 *)

(** Removing a row that is recorded nowhere changes nothing; it raises ValueError, except
    that a nonempty Product answers ({}, {}). *)
Theorem C28_unknown_row : forall c rid, grown c -> unknown c (Some rid) ->
  unobserve c rid = (c, match c with CProd (_ :: _) => Ok ([], []) | _ => Err ValueError end).
Proof. intros c rid RE. apply unobserve_unknown. apply grown_wf. exact RE. Qed.
Print Assumptions C28_unknown_row.

(** For a row mixture it is enough that the row divider does not know the row, whatever
    the rest of the state is. *)
Theorem C28_mixture : forall flex div arr r2c rid, ~ In rid (keys (dist_data div)) ->
  unobserve (CMix flex div arr r2c) rid = (CMix flex div arr r2c, Err ValueError).
Proof. intros. cbn [unobserve]. unfold mix_unobserve. rewrite leaf_unobserve_unknown by assumption. reflexivity. Qed.
Print Assumptions C28_mixture.

(** An array used directly raises KeyError. *)
Theorem C28_arrays : forall ix base cs cs' r2i rid, ~ In rid (keys r2i) ->
  unobserve (CFinArr ix cs r2i) rid = (CFinArr ix cs r2i, Err KeyError) /\
  unobserve (CFlexArr ix base cs' r2i) rid = (CFlexArr ix base cs' r2i, Err KeyError).
Proof.
  intros ix base cs cs' r2i rid NI. apply lookup_None in NI. cbn [unobserve].
  unfold finarr_unobserve, flexarr_unobserve. rewrite NI. auto.
Qed.
Print Assumptions C28_arrays.

Example C28_case : unknown demo_view (Some 7) /\ unobserve demo_view 7 = (demo_view, Err ValueError) /\
  unobserve demo_state 7 = (demo_state, Ok ([], [])) /\ unobserve (CProd []) 7 = (CProd [], Err ValueError).
Proof. split; [vm_compute; intuition congruence|]. repeat split; vm_compute; reflexivity. Qed.

(** ** C29 *)

(** The score of a Product is the sum of the scores of its children, the score of a view is
    the score of its row divider plus the scores of its components. *)
Theorem C29_product_score : forall cs, grown (CProd cs) -> flexible (CProd cs) ->
  exists s, Forall2 (fun c r => score c = Ok (Fin r)) cs s /\ score (CProd cs) = Ok (Fin (rsum s)).
Proof.
  intros cs RE F. assert (W := grown_wf _ RE). exists (map total_score cs).
  split; [|rewrite (score_total _ W F); reflexivity]. inversion W as [|? Wc ND| |]; subst. cbn [flexible] in F. rewrite each_In in F.
  clear W RE ND. induction cs as [|c cs IH]; cbn [map]; constructor.
  - apply score_total; [apply Wc|apply F]; now left.
  - apply IH; intros; [apply F|apply Wc]; now right.
Qed.
Print Assumptions C29_product_score.

Theorem C29_view_score : forall div base cs r2i r2c, let m := CMix true div (CFlexArr (dist_o div) base cs r2i) r2c in
  grown m -> flexible m ->
  exists sz sx, dist_score div = Ok (Fin sz) /\ Forall2 (fun p r => score (snd p) = Ok (Fin r)) cs sx /\
    score m = Ok (Fin (sz + rsum sx)) /\
    (forall k c r, In ((k, c), r) (combine cs sx) -> vacant c -> r = 0%R).
Proof.
  intros div base cs r2i r2c m RE F. assert (W := grown_wf _ RE). exists (prim_score div), (map (fun p => total_score (snd p)) cs).
  assert (Wc : forall k c, In (k, c) cs -> wf c) by (inversion W; subst; assumption).
  assert (D : dinv div) by (inversion W; subst; assumption).
  assert (FC : forall k c, In (k, c) cs -> flexible c).
  { destruct F as [_ F]. cbn in F. intros k c H. rewrite each_In in F. apply (F (k, c) H). }
  split; [apply prim_score_ok; exact D|]. split; [|split].
  - clear - Wc FC. induction cs as [|[k c] cs IH]; cbn [map snd]; constructor.
    + apply score_total; [apply (Wc k)|apply (FC k)]; now left.
    + apply IH; intros k' c' H; [apply (Wc k')|apply (FC k')]; now right.
  - rewrite (score_total _ W F). unfold m. cbn [total_score]. do 2 f_equal. f_equal.
    f_equal. apply map_ext. intros [k c]. reflexivity.
  - intros k c r H V. assert (X : r = total_score c /\ In (k, c) cs).
    { clear - H. induction cs as [|[k' c'] cs IH]; cbn [map combine snd] in H; [destruct H|].
      destruct H as [H|H]; [injection H as -> -> ->; split; [reflexivity|now left]|].
      destruct (IH H) as [A B]. split; [exact A|now right]. }
    destruct X as [-> Hi]. apply total_vacant; auto. apply (Wc k c Hi).
Qed.
Print Assumptions C29_view_score.

(** Observing a new row adds its log density to the score: for every composite model made of
    Products and flexible row mixtures whose bases are empty. *)
Theorem C29_observe_adds_logpdf : forall c rid obs l c', grown c -> flexible c -> clean c ->
  unknown c (Some rid) -> named c obs -> labelled c obs -> NoDup (keys obs) -> obs <> [] ->
  (forall k, In k (keys obs) -> In k (outputs c)) -> logpdf c (Some rid) obs [] [] = Ok (Fin l) ->
  possible (observe c rid obs []) (fun r => r = (c', Ok tt)) ->
  exists s, score c = Ok (Fin s) /\ score c' = Ok (Fin (s + l)).
Proof.
  intros c rid obs l c' RE F C U NM LB ND NE K L P. assert (T : tidy c) by (split; assumption).
  assert (RE' := gr_observe c rid obs [] c' _ RE P).
  destruct (always_possible _ _ _ (observe_tidy c T rid obs []) P) as (r & T' & ->). cbn [fst] in T'.
  exists (total_score c). split; [apply score_total; auto using grown_wf|].
  rewrite (score_total c') by (auto using grown_wf; apply T'). do 2 f_equal.
  eapply observe_score; eauto using grown_wf.
Qed.
Print Assumptions C29_observe_adds_logpdf.

(** The chain rule through any history of new rows; an empty model scores 0. *)
Theorem C29_chain_rule : forall c t c', grown c -> flexible c -> clean c -> filled c t c' ->
  exists s, score c = Ok (Fin s) /\ score c' = Ok (Fin (s + t)) /\ (vacant c -> s = 0%R).
Proof.
  intros c t c' RE F C H.
  assert (X : grown c' /\ tidy c' /\ total_score c' = (total_score c + t)%R).
  { induction H as [c|c t c1 rid obs l c2 H IH U NM LB ND NE K L P].
    - split; [exact RE|split; [split; assumption|lra]].
    - destruct (IH RE F C) as (RE1 & T1 & E1). split; [exact (gr_observe c1 rid obs [] c2 _ RE1 P)|].
      split.
      + destruct (always_possible _ _ _ (observe_tidy c1 T1 rid obs []) P) as (r & T' & ->). exact T'.
      + rewrite (observe_score c1 rid obs l c2); auto using grown_wf. lra. }
  destruct X as (RE' & T' & E). exists (total_score c).
  split; [apply score_total; auto using grown_wf|].
  rewrite (score_total c') by (auto using grown_wf; apply T'). rewrite E. split; [reflexivity|].
  intros V. apply total_vacant; auto using grown_wf.
Qed.
Print Assumptions C29_chain_rule.

(** A FiniteRowMixture cannot be scored. *)
Theorem C29_finite_refuted : forall div cs r2i r2c, creachable (CMix false div (CFinArr (dist_o div) cs r2i) r2c) ->
  score (CMix false div (CFinArr (dist_o div) cs r2i) r2c) = Err TypeError.
Proof.
  intros div cs r2i r2c RE. assert (W := creachable_wf _ RE). inversion W; subst.
  cbn [score]. rewrite prim_score_ok by assumption. cbn. destruct cs; [contradiction|reflexivity].
Qed.
Print Assumptions C29_finite_refuted.

Definition row7 : row := [(9, vz 1); (1, vz 2); (2, vz 1)].

Example C29_case : exists l c' s,
  logpdf demo_view (Some 7) row7 [] [] = Ok (Fin l) /\
  possible (observe demo_view 7 row7 []) (fun r => r = (c', Ok tt)) /\
  score demo_view = Ok (Fin s) /\ score c' = Ok (Fin (s + l)) /\
  filled demo_view (0 + l) c' /\ score demo_finite = Err TypeError.
Proof.
  destruct demo_view_reachable as [RC V]. assert (RE := creachable_grown _ RC). assert (W := grown_wf _ RE).
  assert (PL : plausible demo_view row7) by (apply plausibleb_ok; vm_compute; reflexivity).
  destruct (plausible_good _ W _ PL) as (P & _ & LB).
  assert (U : unknown demo_view (Some 7)) by (vm_compute; intuition congruence).
  assert (FL : flexible demo_view) by (vm_compute; tauto).
  assert (CL : clean demo_view) by (vm_compute; tauto).
  assert (ND : NoDup (keys row7)) by (repeat constructor; cbn; intuition lia).
  assert (K : forall k, In k (keys row7) -> In k (outputs demo_view)) by (intros k H; vm_compute in H |- *; tauto).
  assert (NM : named demo_view row7).
  { assert (X : exists z, lookup 9 row7 = Some (vz z)) by (exists 1; reflexivity).
    vm_compute. vm_compute in X. split; [exact X|]. tauto. }
  assert (L : logpdf demo_view (Some 7) row7 [] [] = Ok (xlog (dens demo_view row7))).
  { assert (M := C16_model_density demo_view (Some 7) row7 [] RE U). rewrite app_nil_r in M.
    assert (D1 : dens demo_view [] = 1%R) by (apply (dens_none _ W); intros k _; reflexivity).
    assert (DJ : disjoint_rows row7 []) by (unfold disjoint_rows; rewrite app_nil_r; exact ND).
    assert (P1 : (0 < dens demo_view [])%R) by (rewrite D1; lra).
    assert (NE : row7 <> []) by discriminate.
    rewrite (M LB DJ NE K (solid_nil _ W) P1). rewrite D1. do 2 f_equal. lra. }
  unfold xlog in L. destruct (Rlt_dec 0 (dens demo_view row7)) as [P'|]; [|contradiction].
  assert (O : exists c', observe demo_view 7 row7 [] = Ret (c', Ok tt)) by (eexists; vm_compute; reflexivity).
  destruct O as [c' O]. assert (PO : possible (observe demo_view 7 row7 []) (fun r => r = (c', Ok tt))).
  { rewrite O. reflexivity. }
  assert (NE : row7 <> []) by discriminate.
  destruct (C29_observe_adds_logpdf demo_view 7 row7 _ c' RE FL CL U NM LB ND NE K L PO) as (s & S1 & S2).
  exists (ln (dens demo_view row7)), c', s. split; [exact L|]. split; [exact PO|]. split; [exact S1|]. split; [exact S2|].
  split; [|vm_compute; reflexivity].
  exact (filled_row demo_view 0 demo_view 7 row7 _ c' (filled_none _) U NM LB ND NE K L PO).
Qed.
