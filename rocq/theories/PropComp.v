(** Properties C15-C20: what composite models (Products, arrays, row mixtures) answer.
    Statements use only the model of the API (Prims.v, Cgpm.v) and the specification
    (SpecPrims.v, SpecComp.v); the worked models of the examples are in DemoComp.v. *)
From Coq Require Import List ZArith QArith Qcanon Reals Bool String Permutation Lia Lra.
From Verif Require Import Base Xr Samp Lgamma Prims Cgpm Lib SpecPrims PrimsInv PrimsDens PrimsThm2
  SpecComp CompInv CompDens CompThm PropPrims DemoComp
  SpecWalks WalksThm.
Import ListNotations.
Local Open Scope Z_scope.

(** ** C15 *)

(** If every child with a target answers [r] on the cells that fall to it, and [r = 0] for
    the children without targets, the Product answers the sum. *)
Theorem C15_product_sum : forall cs rid T C I rs,
  Forall2 (fun c r => match cells_of (outputs c) T with
                      | [] => r = Fin 0
                      | Tc => logpdf c rid Tc (cells_of (outputs c) C) (cells_of (inputs c) I) = Ok r
                      end) cs rs ->
  logpdf (CProd cs) rid T C I = Ok (fold_right xadd (Fin 0) rs).
Proof. exact product_sum. Qed.
Print Assumptions C15_product_sum.

(** If it raises, one of the children with a target raises the same. *)
Theorem C15_product_error : forall cs rid T C I e, logpdf (CProd cs) rid T C I = Err e ->
  exists c, In c cs /\ cells_of (outputs c) T <> [] /\
    logpdf c rid (cells_of (outputs c) T) (cells_of (outputs c) C) (cells_of (inputs c) I) = Err e.
Proof. exact product_err. Qed.
Print Assumptions C15_product_error.

(** Children with distinct outputs are independent, also under conditioning: the answer on
    two groups of children is the sum of the answers, each given its own constraints. *)
Theorem C15_product_independence : forall cs1 cs2 rid T1 T2 C1 C2 I, NoDup (flat_map outputs (cs1 ++ cs2)) ->
  (forall k, In k (keys (T1 ++ C1)) -> In k (flat_map outputs cs1)) ->
  (forall k, In k (keys (T2 ++ C2)) -> In k (flat_map outputs cs2)) ->
  logpdf (CProd (cs1 ++ cs2)) rid (T1 ++ T2) (C1 ++ C2) I =
  (do a <- logpdf (CProd cs1) rid T1 C1 I; do b <- logpdf (CProd cs2) rid T2 C2 I; Ok (xadd a b)).
Proof. exact product_split. Qed.
Print Assumptions C15_product_independence.

(** In particular constraints on other children change nothing. *)
Theorem C15_other_constraints_irrelevant : forall cs1 cs2 rid T1 C1 C2 I, NoDup (flat_map outputs (cs1 ++ cs2)) ->
  (forall k, In k (keys (T1 ++ C1)) -> In k (flat_map outputs cs1)) ->
  (forall k, In k (keys C2) -> In k (flat_map outputs cs2)) ->
  logpdf (CProd (cs1 ++ cs2)) rid T1 (C1 ++ C2) I = logpdf (CProd cs1) rid T1 C1 I.
Proof. exact product_independent. Qed.
Print Assumptions C15_other_constraints_irrelevant.

(** Product accepts exactly the lists of children with pairwise distinct outputs none of
    which is an input. *)
Theorem C15_product_accepts : forall cs,
  (exists c, new_product cs = Ok c) <->
  NoDup (flat_map outputs cs) /\ forall i, In i (flat_map inputs cs) -> ~ In i (flat_map outputs cs).
Proof. exact product_accepts. Qed.
Print Assumptions C15_product_accepts.

(** Flattening nested Products changes neither the outputs nor any answer. *)
Theorem C15_product_flattens : forall cs c, new_product cs = Ok c ->
  outputs c = flat_map outputs cs /\
  forall rid T C I, logpdf c rid T C I = logpdf (CProd cs) rid T C I.
Proof. exact product_flattens. Qed.
Print Assumptions C15_product_flattens.

Example C15_case :
  new_product [CProd [CDist cat1; CDist ber2]; CDist ber8] = Ok (CProd [CDist cat1; CDist ber2; CDist ber8]) /\
  new_product [CDist cat1; CDist cat1'] = Err AssertionError /\
  logpdf (CProd ([CDist cat1] ++ [CDist ber2; CDist ber8])) None ([(1, vz 2)] ++ [(2, vz 1)]) ([] ++ [(8, vz 0)]) [] =
  (do a <- logpdf (CProd [CDist cat1]) None [(1, vz 2)] [] [];
   do b <- logpdf (CProd [CDist ber2; CDist ber8]) None [(2, vz 1)] [(8, vz 0)] []; Ok (xadd a b)).
Proof.
  split; [reflexivity|split; [vm_compute; reflexivity|]]. apply C15_product_independence.
  - cbn. repeat constructor; cbn; intuition lia.
  - cbn. intuition lia.
  - cbn. intuition lia.
Qed.

(** ** C16 *)

(** A row mixture over (Products of) primitives answers the conditional density of the
    mixture, for a row not on record: whichever of targets and constraints name the cluster. *)
Theorem C16_mixture_density : forall m rid T C, grown m -> view m -> unknown m rid ->
  labelled m (T ++ C) -> disjoint_rows T C -> T <> [] ->
  (forall k, In k (keys (T ++ C)) -> In k (outputs m)) -> (0 < dens m C)%R ->
  logpdf m rid T C [] = Ok (xlog (dens m (T ++ C) / dens m C)).
Proof. intros. apply model_density; auto using grown_wf. apply solid_view; auto using grown_wf. Qed.
Print Assumptions C16_mixture_density.

(** The same for every composite model, nested in any way, as long as components that
    contain mixtures give the constraints positive density. *)
Theorem C16_model_density : forall m rid T C, grown m -> unknown m rid ->
  labelled m (T ++ C) -> disjoint_rows T C -> T <> [] ->
  (forall k, In k (keys (T ++ C)) -> In k (outputs m)) -> solid m C -> (0 < dens m C)%R ->
  logpdf m rid T C [] = Ok (xlog (dens m (T ++ C) / dens m C)).
Proof. intros. apply model_density; auto using grown_wf. Qed.
Print Assumptions C16_model_density.

(** Constraints made of possible values have positive density. *)
Theorem C16_possible_values : forall m C, grown m -> plausible m C ->
  (0 < dens m C)%R /\ solid m C /\ labelled m C.
Proof. intros m C RE. apply plausible_good. apply grown_wf. exact RE. Qed.
Print Assumptions C16_possible_values.

Definition nan_T : row := [(2, vz 1)].
Definition nan_C : row := [(1, vz 2)].

(** The condition [solid] is needed: a mixture of mixtures answers NaN although the
    constraints have positive density, when they are impossible in one component. *)
Theorem C16_nested_mixture_refuted : exists m T C, creachable m /\ unknown m None /\
  labelled m (T ++ C) /\ disjoint_rows T C /\ T <> [] /\
  (forall k, In k (keys (T ++ C)) -> In k (outputs m)) /\
  (0 < dens m C)%R /\ logpdf m None T C [] = Ok XNan.
Proof.
  exists demo_nested, nan_T, nan_C.
  assert (RE := demo_nested_reachable). assert (W := creachable_wf _ RE).
  assert (U : unknown demo_nested None) by (cbn; tauto).
  assert (W1 : wf (inner cat1)) by (eapply (wf_comp _ _ _ _ _ W); now left).
  assert (W2 : wf (inner cat1')) by (eapply (wf_comp _ _ _ _ _ W); right; now left).
  assert (LB : forall S : row, lookup 7 S = None -> lookup 8 S = None -> labelled demo_nested S).
  { intros S L7 L8. cbn. rewrite L7, L8. intuition discriminate. }
  assert (LI : forall k (S : row), kind_of k <> KTable -> lookup 8 S = None -> labelled (inner k) S).
  { intros k S K L8. cbn. rewrite L8. destruct k; cbn in *; try congruence; intuition discriminate. }
  assert (P1 : (0 < dens (inner cat1) nan_C)%R).
  { apply plausible_good; auto. apply plausibleb_ok. reflexivity. }
  assert (P2 : dens (inner cat1') nan_C = 0%R).
  { assert (CD : cell_density cat1' (vz 2) = 0%R).
    { unfold cell_density, prim_density, cat1', vz. 
      replace (is_int (qz 2) && (0 <=? trunc (qz 2)) && (trunc (qz 2) <? cat_k (cat_new 1 2 half))) with false
        by (vm_compute; reflexivity). reflexivity. }
    unfold inner in *. rewrite (dens_mix_none _ _ _ _ [0; 1]) by reflexivity. cbn [map].
    rewrite !(q_comp _ _ _ _ W2 0 (CProd [CDist cat1'; CDist ber2])),
            !(q_comp _ _ _ _ W2 1 (CProd [CDist cat1'; CDist ber2])) by reflexivity.
    replace (dens (CProd [CDist cat1'; CDist ber2]) nan_C) with (cell_density cat1' (vz 2) * (1 * 1))%R by reflexivity.
    rewrite CD. unfold rsum. cbn [fold_right]. ring. }
  split; [exact RE|]. split; [exact U|]. split; [apply LB; reflexivity|].
  split; [repeat constructor; cbn; intuition lia|]. split; [discriminate|].
  split; [cbn; intuition lia|]. split.
  - unfold demo_nested. rewrite (dens_mix_none _ _ _ _ [0; 1]) by reflexivity.
    cbn [map]. rewrite !(q_comp _ _ _ _ W 0 (inner cat1)), !(q_comp _ _ _ _ W 1 (inner cat1')) by reflexivity.
    rewrite P2. unfold rsum. cbn [fold_right].
    assert (0 < cell_density ber7 (vz 0))%R.
    { apply (support_pos ber7 [0; 1] 0); [|reflexivity|now left].
      apply (wf_mix _ _ _ _ W). }
    assert (0 < cell_density ber7 (vz 0) * dens (inner cat1) nan_C)%R by (apply Rmult_lt_0_compat; auto).
    lra.
  - apply (nested_nan false ber7 (CFinArr 7 [inner cat1; inner cat1'] []) [] None _ _ [0; 1] 1 (inner cat1')
      (fun z => if z =? 0 then xlog (dens (inner cat1) (nan_T ++ nan_C) / dens (inner cat1) nan_C)
                else XNan)); auto; try reflexivity.
    + now right; left.
    + intros c Hc. assert (Wc : wf c) by (destruct Hc as [<-|[<-|[]]]; auto).
      apply answers_of; auto using wf_answers, solid_nil.
      * destruct Hc as [<-|[<-|[]]]; cbn; tauto.
      * destruct Hc as [<-|[<-|[]]]; apply LI; try discriminate; reflexivity.
      * apply disjoint_nil. repeat constructor. cbn. tauto.
      * right. rewrite dens_none; [lra|auto|reflexivity].
    + assert (DJ : disjoint_rows nan_T nan_C) by (repeat constructor; cbn; intuition lia).
      intros z' c' [<-|[<-|[]]] E; injection E as <-; cbn [Z.eqb].
      * apply wf_answers; auto.
        -- cbn; tauto.
        -- apply LI; [discriminate|reflexivity].
        -- apply plausible_good; auto. apply plausibleb_ok. reflexivity.
      * unfold logpdf_one. cbn [interd filter inner outputs app memb].
        apply (zero_density false ber8 _ [] None nan_T nan_C); auto.
        -- cbn; tauto.
        -- apply (LI cat1'); [discriminate|reflexivity].
        -- cbn. intuition lia.
        -- apply (solid_view (inner cat1')); auto. apply viewb_ok. reflexivity.
Qed.
Print Assumptions C16_nested_mixture_refuted.

(** The four ways of naming the cluster, on the worked view. *)
Example C16_case :
  grown demo_view /\ view demo_view /\ unknown demo_view (Some 7) /\
  plausible demo_view [(1, vz 2); (9, vz 1)] /\ plausible demo_view [(2, vz 1)] /\
  logpdf demo_view (Some 7) [(1, vz 2); (9, vz 1)] [(2, vz 1)] [] =
    Ok (xlog (dens demo_view ([(1, vz 2); (9, vz 1)] ++ [(2, vz 1)]) / dens demo_view [(2, vz 1)])) /\
  logpdf demo_view (Some 7) [(1, vz 2)] [(2, vz 1); (9, vz 2)] [] =
    Ok (xlog (dens demo_view ([(1, vz 2)] ++ [(2, vz 1); (9, vz 2)]) / dens demo_view [(2, vz 1); (9, vz 2)])) /\
  logpdf demo_view (Some 7) [(1, vz 2)] [(2, vz 1)] [] =
    Ok (xlog (dens demo_view ([(1, vz 2)] ++ [(2, vz 1)]) / dens demo_view [(2, vz 1)])).
Proof.
  destruct demo_view_reachable as [RC V]. assert (RE := creachable_grown _ RC). assert (W := grown_wf _ RE).
  assert (U : unknown demo_view (Some 7)) by (vm_compute; intuition discriminate).
  assert (PL : forall S, plausibleb demo_view S = true -> plausible demo_view S) by (intros; apply plausibleb_ok; auto).
  assert (G : forall T C, plausibleb demo_view (T ++ C) = true -> plausibleb demo_view C = true ->
     disjoint_rows T C -> T <> [] -> (forall k, In k (keys (T ++ C)) -> In k [9; 1; 2]) ->
     logpdf demo_view (Some 7) T C [] = Ok (xlog (dens demo_view (T ++ C) / dens demo_view C))).
  { intros T C P1 P2 DJ NE K. apply C16_mixture_density; auto.
    - apply plausible_good; auto.
    - apply plausible_good; auto. }
  split; [exact RE|]. split; [exact V|]. split; [exact U|].
  split; [apply PL; vm_compute; reflexivity|]. split; [apply PL; vm_compute; reflexivity|].
  split; [|split]; apply G; try (vm_compute; reflexivity); try discriminate;
    try (repeat constructor; cbn; intuition lia); try (cbn; intuition lia).
Qed.

(** ** C17 *)

(** logpdf(T | C) + logpdf(C) = logpdf(T and C), for views and for states. *)
Theorem C17_coherent : forall m rid T C, grown m -> view m \/ state m -> unknown m rid ->
  labelled m (T ++ C) -> disjoint_rows T C -> T <> [] -> C <> [] ->
  (forall k, In k (keys (T ++ C)) -> In k (outputs m)) -> (0 < dens m C)%R ->
  exists t r, logpdf m rid T C [] = Ok t /\ logpdf m rid C [] [] = Ok (Fin r) /\
    logpdf m rid (T ++ C) [] [] = Ok (xadd t (Fin r)).
Proof.
  intros m rid T C RE VS U LB DJ NT NC K P. assert (W := grown_wf m RE).
  apply coherent; auto. destruct VS; auto using solid_view, solid_state.
Qed.
Print Assumptions C17_coherent.

(** The same for any nesting, under the condition of [C16_model_density]. *)
Theorem C17_coherent_any : forall m rid T C, grown m -> unknown m rid ->
  labelled m (T ++ C) -> disjoint_rows T C -> T <> [] -> C <> [] ->
  (forall k, In k (keys (T ++ C)) -> In k (outputs m)) -> solid m C -> (0 < dens m C)%R ->
  exists t r, logpdf m rid T C [] = Ok t /\ logpdf m rid C [] [] = Ok (Fin r) /\
    logpdf m rid (T ++ C) [] [] = Ok (xadd t (Fin r)).
Proof. intros. apply coherent; auto using grown_wf. Qed.
Print Assumptions C17_coherent_any.

Example C17_case : exists t r,
  logpdf demo_state None [(1, vz 2); (5, vz 4)] [(2, vz 1)] [] = Ok t /\
  logpdf demo_state None [(2, vz 1)] [] [] = Ok (Fin r) /\
  logpdf demo_state None [(1, vz 2); (5, vz 4); (2, vz 1)] [] [] = Ok (xadd t (Fin r)).
Proof.
  destruct demo_state_reachable as [RC V]. assert (RE := creachable_grown _ RC). assert (W := grown_wf _ RE).
  apply (C17_coherent demo_state None [(1, vz 2); (5, vz 4)] [(2, vz 1)]); auto; try discriminate.
  - vm_compute. tauto.
  - apply plausible_good; auto. apply plausibleb_ok. vm_compute. reflexivity.
  - repeat constructor; cbn; intuition lia.
  - replace (outputs demo_state) with [9; 1; 2; 5] by (vm_compute; reflexivity). cbn. intuition lia.
  - apply plausible_good; auto. apply plausibleb_ok. vm_compute. reflexivity.
Qed.

(** ** C18 *)

(** Summing over the clusters removes the cluster; the posterior of the cluster given the
    constraints alone (no other target) sums to 1. *)
Theorem C18_cluster_posterior : forall flex div arr r2c rid T C K,
  grown (CMix flex div arr r2c) -> unknown (CMix flex div arr r2c) rid -> dist_support div = Ok K ->
  labelled (CMix flex div arr r2c) (T ++ C) ->
  disjoint_rows T C -> ~ In (dist_o div) (keys (T ++ C)) ->
  solid (CMix flex div arr r2c) C -> (0 < dens (CMix flex div arr r2c) C)%R ->
  exists (l : Z -> xr) t,
    (forall z, In z K -> logpdf (CMix flex div arr r2c) rid ((dist_o div, vz z) :: T) C [] = Ok (l z)) /\
    logpdf (CMix flex div arr r2c) rid T C [] = Ok t /\ (T = [] -> t = Fin 0) /\
    rsum (map (fun z => xexp (l z)) K) = xexp t.
Proof. intros; apply cluster_normalised; auto using grown_wf. Qed.
Print Assumptions C18_cluster_posterior.

Example C18_case : exists (l : Z -> xr),
  (forall z, In z [0; 1; 2] -> logpdf demo_view None [(9, vz z)] [(1, vz 2); (2, vz 0)] [] = Ok (l z)) /\
  rsum (map (fun z => xexp (l z)) [0; 1; 2]) = 1%R.
Proof.
  destruct demo_view_reachable as [RC V]. assert (RE := creachable_grown _ RC). assert (W := grown_wf _ RE).
  destruct V as (flex & div & arr & r2c & E & F).
  assert (O : dist_o div = 9).
  { assert (X : hd 0 (outputs demo_view) = 9) by (vm_compute; reflexivity). rewrite E in X. exact X. }
  assert (SU : dist_support div = Ok [0; 1; 2]).
  { assert (X : match demo_view with CMix _ d _ _ => dist_support d | _ => Err KeyError end = Ok [0; 1; 2])
      by (vm_compute; reflexivity). rewrite E in X. exact X. }
  assert (PL : plausible demo_view [(1, vz 2); (2, vz 0)]) by (apply plausibleb_ok; vm_compute; reflexivity).
  destruct (plausible_good _ W _ PL) as (P & SD & LB).
  assert (U : unknown demo_view None) by (vm_compute; tauto).
  rewrite E in *. 
  destruct (C18_cluster_posterior flex div arr r2c None [] [(1, vz 2); (2, vz 0)] [0; 1; 2])
    as (l & t & H1 & H2 & H3 & H4); auto.
  - repeat constructor; cbn; intuition lia.
  - rewrite O. cbn. intuition lia.
  - exists l. split; [intros z Hz; rewrite <- O; auto|]. rewrite H4, H3 by reflexivity. cbn. apply exp_0.
Qed.

(** ** C19 *)

(** Conditioning on a cluster outside the support raises ValueError. *)
Theorem C19_unsupported_cluster : forall flex div arr r2c rid T C I K x,
  unknown (CMix flex div arr r2c) rid -> dist_support div = Ok K ->
  lookup (dist_o div) T = None -> lookup (dist_o div) C = Some x -> ~ In x (map vz K) ->
  logpdf (CMix flex div arr r2c) rid T C I = Err ValueError /\
  forall ts N, simulate (CMix flex div arr r2c) rid ts C I N = Ret (Err ValueError).
Proof. exact outside_support. Qed.
Print Assumptions C19_unsupported_cluster.

(** Conditioning on cells of density zero (the cluster not being named): logpdf returns
    NaN and simulate raises ValueError. *)
Theorem C19_impossible_constraints : forall flex div arr r2c rid T C,
  grown (CMix flex div arr r2c) -> view (CMix flex div arr r2c) -> unknown (CMix flex div arr r2c) rid ->
  labelled (CMix flex div arr r2c) (T ++ C) -> disjoint_rows T C -> ~ In (dist_o div) (keys C) ->
  dens (CMix flex div arr r2c) C = 0%R ->
  logpdf (CMix flex div arr r2c) rid T C [] = Ok XNan /\
  forall ts N, simulate (CMix flex div arr r2c) rid ts C [] N = Ret (Err ValueError).
Proof.
  intros flex div arr r2c rid T C RE V U LB DJ NI Z0. assert (W := grown_wf _ RE).
  assert (SD := solid_view _ C W V). destruct (disjoint_parts _ _ DJ) as (_ & NC & _). split.
  - apply zero_density; auto.
  - intros ts N. apply zero_simulate; auto. apply (labelled_split _ T C DJ LB).
Qed.
Print Assumptions C19_impossible_constraints.

(** A Categorical cell outside its categories has density zero in every cluster. *)
Example C19_case :
  logpdf demo_view None [(2, vz 1)] [(9, vz 5)] [] = Err ValueError /\
  logpdf demo_finite None [(2, vz 1)] [(1, vz 3)] [] = Ok XNan /\
  simulate demo_finite None [2] [(1, vz 3)] [] None = Ret (Err ValueError).
Proof.
  split.
  - destruct demo_view_reachable as [RC V]. assert (RE := creachable_grown _ RC). destruct V as (flex & div & arr & r2c & E & F).
    assert (O : dist_o div = 9).
    { assert (X : hd 0 (outputs demo_view) = 9) by (vm_compute; reflexivity). rewrite E in X. exact X. }
    assert (SU : dist_support div = Ok [0; 1; 2]).
    { assert (X : match demo_view with CMix _ d _ _ => dist_support d | _ => Err KeyError end = Ok [0; 1; 2])
        by (vm_compute; reflexivity). rewrite E in X. exact X. }
    assert (U : unknown demo_view None) by (vm_compute; tauto).
    rewrite E in *.
    apply (C19_unsupported_cluster flex div arr r2c None [(2, vz 1)] [(9, vz 5)] [] [0; 1; 2] (vz 5)); auto;
      try (rewrite O; reflexivity).
    cbn [map In]. intros [H|[H|[H|[]]]]; apply vz_inj in H; lia.
  - destruct demo_finite_reachable as [RC V]. assert (RE := creachable_grown _ RC).
    assert (D0 : forall d, In d [cat1; cat1'] -> cell_density d (vz 3) = 0%R).
    { intros d [<-|[<-|[]]]; unfold cell_density, prim_density, cat1, cat1', vz.
      - replace (is_int (qz 3) && (0 <=? trunc (qz 3)) && (trunc (qz 3) <? cat_k (cat_new 1 3 half))) with false
          by (vm_compute; reflexivity). reflexivity.
      - replace (is_int (qz 3) && (0 <=? trunc (qz 3)) && (trunc (qz 3) <? cat_k (cat_new 1 2 half))) with false
          by (vm_compute; reflexivity). reflexivity. }
    destruct (C19_impossible_constraints false ber8 _ [] None [(2, vz 1)] [(1, vz 3)] RE V) as [H1 H2].
    + cbn. tauto.
    + cbn. intuition discriminate.
    + repeat constructor; cbn; intuition lia.
    + cbn. intuition lia.
    + assert (W := grown_wf _ RE). unfold demo_finite in W.
      rewrite (dens_mix_none _ _ _ _ [0; 1]) by reflexivity. cbn [map].
      rewrite !(q_comp _ _ _ _ W 0 (CProd [CDist cat1; CDist ber2])),
              !(q_comp _ _ _ _ W 1 (CProd [CDist cat1'; CDist ber2])) by reflexivity.
      replace (dens (CProd [CDist cat1'; CDist ber2]) [(1%Z, vz 3)]) with (cell_density cat1' (vz 3) * (1 * 1))%R
        by reflexivity.
      replace (dens (CProd [CDist cat1; CDist ber2]) [(1%Z, vz 3)]) with (cell_density cat1 (vz 3) * (1 * 1))%R
        by reflexivity.
      rewrite (D0 cat1), (D0 cat1') by (cbn; tauto). unfold rsum. cbn [fold_right]. ring.
    + auto.
Qed.

(** ** C20 *)

(** logpdf of unrecorded columns of a recorded row is the density in the component of the
    row's own cluster. *)
Theorem C20_recorded_row_logpdf : forall flex div arr r2c r z c T C,
  grown (CMix flex div arr r2c) -> lookup r r2c = Some (vz z) -> component arr z = Some c -> flat c ->
  labelled c T -> disjoint_rows T C -> ~ In (dist_o div) (keys C) ->
  (forall d, In d (leaves c) -> In (dist_o d) (keys T) -> ~ In r (keys (dist_data d))) ->
  logpdf (CMix flex div arr r2c) (Some r) T C [] = Ok (xlog (dens c T)).
Proof. intros. eapply recorded_density; eauto using grown_wf. Qed.
Print Assumptions C20_recorded_row_logpdf.

(** simulate of a recorded row is simulate of that component. *)
Theorem C20_recorded_row_simulate : forall flex div arr r2c r z c ts C N,
  grown (CMix flex div arr r2c) -> lookup r r2c = Some (vz z) -> component arr z = Some c ->
  ~ In (dist_o div) (keys C) -> ts <> [] -> ~ In (dist_o div) ts ->
  (forall k, In k ts -> In k (outputs c)) ->
  simulate (CMix flex div arr r2c) (Some r) ts C [] N =
  simulate c (Some r) ts (cells_of (outputs c) C) [] N.
Proof. intros. eapply recorded_simulate; eauto using grown_wf. Qed.
Print Assumptions C20_recorded_row_simulate.

(** The primitives themselves: for a recorded row a CRP answers log 1 for the table of the
    row and -inf for every other; the other primitives refuse. *)
Theorem C20_primitive_recorded_row : forall d r v x, reachable d -> lookup r (dist_data d) = Some v ->
  dist_logpdf d (Some r) [(dist_o d, VQ x)] [] [] =
  match kind_of d with
  | KTable => if eq_dec (vz (trunc x)) v then Ok (Fin 0) else Ok NInf
  | _ => Err AssertionError
  end.
Proof. intros d r v x RE L. apply primitive_recorded_row; auto using reachable_dinv. Qed.
Print Assumptions C20_primitive_recorded_row.

(** For a target naming the cluster of a recorded row the mixture answers log 1 whatever
    the value, while its row divider answers -inf for every other cluster. *)
Theorem C20_cluster_target_refuted : exists flex div arr r2c r z,
  creachable (CMix flex div arr r2c) /\ lookup r r2c = Some (vz z) /\
  (forall x, logpdf (CMix flex div arr r2c) (Some r) [(dist_o div, x)] [] [] = Ok (Fin 0)) /\
  (forall z', z' <> z -> dist_logpdf div (Some r) [(dist_o div, vz z')] [] [] = Ok NInf).
Proof.
  destruct demo_view_reachable as [RE V]. destruct V as (flex & div & arr & r2c & E & F).
  assert (L : lookup 1 r2c = Some (vz 0)).
  { assert (X : match demo_view with CMix _ _ _ m => lookup 1 m | _ => None end = Some (vz 0))
      by (vm_compute; reflexivity). rewrite E in X. exact X. }
  assert (LD : lookup 1 (dist_data div) = Some (vz 0)).
  { assert (X : match demo_view with CMix _ d _ _ => lookup 1 (dist_data d) | _ => None end = Some (vz 0))
      by (vm_compute; reflexivity). rewrite E in X. exact X. }
  assert (KD : kind_of div = KTable).
  { assert (X : match demo_view with CMix _ d _ _ => kind_of d | _ => KBit end = KTable)
      by (vm_compute; reflexivity). rewrite E in X. exact X. }
  rewrite E in RE. assert (W := creachable_wf _ RE). destruct (wf_mix _ _ _ _ W) as (D & _ & A & NIx & _).
  exists flex, div, arr, r2c, 1, 0. split; [exact RE|]. split; [exact L|]. split.
  - intros x. eapply recorded_cluster_target; eauto.
  - intros z' NZ. destruct div as [s| | | | |]; try discriminate.
    assert (Ly : lookup 1 (crp_data s) = Some 0).
    { unfold dist_data in LD. rewrite lookup_map in LD.
      destruct (lookup 1 (crp_data s)) as [y|]; [|discriminate]. f_equal. apply vz_inj. cbn [option_map] in LD. congruence. }
    unfold dist_logpdf, crp_logpdf. cbn [oassert obind keys map fst dist_o].
    rewrite (eqb_refl [crp_o s]). cbn [obind]. rewrite lookup_cons_eq. unfold vz at 1. rewrite trunc_qz, Ly.
    destruct (memb z' (crp_support s)); cbn [negb]; [|reflexivity].
    destruct (Z.eqb_spec 0 z'); [lia|reflexivity].
Qed.
Print Assumptions C20_cluster_target_refuted.

(** Row 1 of the worked view is in cluster 0; its column 2 is not recorded. *)
Example C20_case : exists c, match demo_view with CMix _ _ arr _ => component arr 0 | _ => None end = Some c /\
  logpdf demo_view (Some 1) [(2, vz 1)] [] [] = Ok (xlog (dens c [(2, vz 1)])) /\
  simulate demo_view (Some 1) [2] [] [] (Some 4%nat) = simulate c (Some 1) [2] [] [] (Some 4%nat).
Proof.
  destruct demo_view_reachable as [RC V]. assert (RE := creachable_grown _ RC). destruct V as (flex & div & arr & r2c & E & F).
  assert (L : lookup 1 r2c = Some (vz 0)).
  { assert (X : match demo_view with CMix _ _ _ m => lookup 1 m | _ => None end = Some (vz 0))
      by (vm_compute; reflexivity). rewrite E in X. exact X. }
  assert (O : dist_o div = 9).
  { assert (X : hd 0 (outputs demo_view) = 9) by (vm_compute; reflexivity). rewrite E in X. exact X. }
  assert (OC : match component arr 0 with Some c => outputs c | None => [] end = [1; 2]).
  { assert (X : match demo_view with CMix _ _ a _ => match component a 0 with Some c => outputs c | None => [] end
                | _ => [] end = [1; 2]) by (vm_compute; reflexivity). rewrite E in X. exact X. }
  assert (OK : match component arr 0 with
     | Some c => flatb c && plausibleb c [(2, vz 1)] &&
                 forallb (fun d => negb (dist_o d =? 2) || negb (memb 1 (keys (dist_data d)))) (leaves c)
     | None => false end = true).
  { assert (X : match demo_view with CMix _ _ a _ => match component a 0 with
     | Some c => flatb c && plausibleb c [(2, vz 1)] &&
                 forallb (fun d => negb (dist_o d =? 2) || negb (memb 1 (keys (dist_data d)))) (leaves c)
     | None => false end | _ => false end = true) by (vm_compute; reflexivity). rewrite E in X. exact X. }
  rewrite E in *. assert (W := grown_wf _ RE). destruct (component arr 0) as [c|] eqn:CC; [|discriminate].
  apply andb_true_iff in OK. destruct OK as [OK LV]. apply andb_true_iff in OK. destruct OK as [FL PL].
  exists c. split; [reflexivity|]. split.
  - apply (C20_recorded_row_logpdf flex div arr r2c 1 0 c); auto.
    + apply flatb_ok; auto.
    + apply plausible_good; [eapply wf_comp; eauto using comp_In|]. apply plausibleb_ok; auto.
    + repeat constructor; cbn; intuition lia.
    + intros d I K N. rewrite forallb_forall in LV. specialize (LV d I). cbn in K. destruct K as [K|[]].
      rewrite <- K, Z.eqb_refl in LV. cbn [negb orb] in LV. apply negb_true_iff in LV.
      apply memb_In in N. congruence.
  - apply (C20_recorded_row_simulate flex div arr r2c 1 0 c [2] []); auto; try discriminate.
    + rewrite O. cbn. intuition lia.
    + rewrite OC. cbn. intuition lia.
Qed.
