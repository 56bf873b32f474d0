(** Proofs of the query properties of composite models (C15-C20). *)
From Coq Require Import List ZArith QArith Qcanon Reals Bool String Lia Lra Permutation.
From Verif Require Import Base Xr Samp Lgamma Prims Cgpm Lib SpecPrims PrimsInv PrimsDens PrimsThm2
  SpecComp CompInv CompDens.
Import ListNotations.
Local Open Scope Z_scope.

Lemma cells_of_interd : forall l (S : row), cells_of l S = interd l S.
Proof.
  intros l S. unfold cells_of, interd. apply filter_ext. intros [k x]. cbn [fst].
  destruct (memb k l) eqn:M.
  - apply memb_In in M. apply existsb_exists. exists k. split; [exact M|]. apply Z.eqb_refl.
  - destruct (existsb (Z.eqb k) l) eqn:E; [|reflexivity]. apply existsb_exists in E.
    destruct E as (y & Hy & Eq). apply Z.eqb_eq in Eq. subst. apply memb_In in Hy. congruence.
Qed.

(** ** Extended-real sums *)

Lemma xadd_assoc : forall a b c, xadd (xadd a b) c = xadd a (xadd b c).
Proof. intros [] [] []; cbn; try reflexivity. f_equal. ring. Qed.

Lemma xadd_0_l : forall a, xadd (Fin 0) a = a.
Proof. intros []; cbn; auto. f_equal. ring. Qed.

Lemma xadd_0_r : forall a, xadd a (Fin 0) = a.
Proof. intros []; cbn; auto. f_equal. ring. Qed.

Lemma xsum_cons : forall a l, xsum (a :: l) = xadd a (xsum l).
Proof. reflexivity. Qed.

Lemma xsum_app : forall l l', xsum (l ++ l') = xadd (xsum l) (xsum l').
Proof.
  induction l as [|a l IH]; intros l'; [symmetry; apply xadd_0_l|].
  cbn [app]. rewrite !xsum_cons, IH, xadd_assoc. reflexivity.
Qed.

Lemma xsum_fold : forall l, xsum l = fold_right xadd (Fin 0) l.
Proof. induction l; cbn; f_equal; auto. Qed.

Lemma oseq_app : forall {A} (l l' : list (out A)),
  oseq (l ++ l') = (do a <- oseq l; do b <- oseq l'; Ok (a ++ b)).
Proof.
  induction l as [|[x|e] l IH]; intros l'; cbn.
  - destruct (oseq l'); reflexivity.
  - rewrite IH. destruct (oseq l); cbn; [|reflexivity]. destruct (oseq l'); reflexivity.
  - reflexivity.
Qed.

(** ** C15 *)

Definition child_answer (c : cgpm) (rid : option Z) (T C I : row) : out xr :=
  logpdf_one (outputs c) (inputs c) (logpdf c) rid T C I.

Lemma prod_logpdf_eq : forall cs rid T C I,
  logpdf (CProd cs) rid T C I = omap xsum (oseq (map (fun c => child_answer c rid T C I) cs)).
Proof. intros. cbn [logpdf]. unfold prod_logpdf. rewrite map_map. reflexivity. Qed.

Lemma product_sum : forall cs rid T C I rs,
  Forall2 (fun c r => match cells_of (outputs c) T with
                      | [] => r = Fin 0
                      | Tc => logpdf c rid Tc (cells_of (outputs c) C) (cells_of (inputs c) I) = Ok r
                      end) cs rs ->
  logpdf (CProd cs) rid T C I = Ok (fold_right xadd (Fin 0) rs).
Proof.
  intros cs rid T C I rs H. rewrite prod_logpdf_eq.
  assert (E : oseq (map (fun c => child_answer c rid T C I) cs) = Ok rs).
  { induction H as [|c r cs rs Hc H IH]; [reflexivity|]. cbn [map oseq].
    replace (child_answer c rid T C I) with (Ok r); [rewrite IH; reflexivity|].
    unfold child_answer, logpdf_one. rewrite !cells_of_interd in Hc.
    destruct (interd (outputs c) T); [subst; reflexivity|]. rewrite Hc. reflexivity. }
  rewrite E. cbn [omap]. rewrite xsum_fold. reflexivity.
Qed.

Lemma oseq_err : forall {A B} (f : A -> out B) l e, oseq (map f l) = Err e -> exists a, In a l /\ f a = Err e.
Proof.
  induction l as [|a l IH]; cbn; intros e H; [discriminate|].
  destruct (f a) eqn:E.
  - cbn in H. destruct (oseq (map f l)) eqn:E'; [discriminate|]. cbn in H. injection H as ->.
    destruct (IH e eq_refl) as (a' & Ha & Hf). eauto.
  - cbn in H. injection H as ->. eauto.
Qed.

Lemma product_err : forall cs rid T C I e, logpdf (CProd cs) rid T C I = Err e ->
  exists c, In c cs /\ cells_of (outputs c) T <> [] /\
    logpdf c rid (cells_of (outputs c) T) (cells_of (outputs c) C) (cells_of (inputs c) I) = Err e.
Proof.
  intros cs rid T C I e H. rewrite prod_logpdf_eq in H.
  destruct (oseq (map (fun c => child_answer c rid T C I) cs)) eqn:E; [discriminate|].
  injection H as ->. apply oseq_err in E. destruct E as (c & Hc & E). exists c. split; [exact Hc|].
  rewrite !cells_of_interd. unfold child_answer, logpdf_one in E.
  destruct (interd (outputs c) T); [discriminate|]. split; [discriminate|exact E].
Qed.

Lemma interd_out : forall l (S : row), (forall k, In k (keys S) -> ~ In k l) -> interd l S = [].
Proof.
  intros l S H. apply interd_nil_lookup. intros k Hk. apply lookup_None. intros Hs. exact (H k Hs Hk).
Qed.

Lemma NoDup_app_disj : forall {A} (l l' : list A), NoDup (l ++ l') -> forall x, In x l -> ~ In x l'.
Proof.
  induction l as [|y l IH]; cbn; intros l' H x Hx; [destruct Hx|]. inversion H; subst.
  destruct Hx as [<-|Hx]; [|auto]. intros Hl. apply H2. apply in_or_app. now right.
Qed.

Lemma product_split : forall cs1 cs2 rid T1 T2 C1 C2 I, NoDup (flat_map outputs (cs1 ++ cs2)) ->
  (forall k, In k (keys (T1 ++ C1)) -> In k (flat_map outputs cs1)) ->
  (forall k, In k (keys (T2 ++ C2)) -> In k (flat_map outputs cs2)) ->
  logpdf (CProd (cs1 ++ cs2)) rid (T1 ++ T2) (C1 ++ C2) I =
  (do a <- logpdf (CProd cs1) rid T1 C1 I; do b <- logpdf (CProd cs2) rid T2 C2 I; Ok (xadd a b)).
Proof.
  intros cs1 cs2 rid T1 T2 C1 C2 I ND H1 H2. rewrite flat_map_app in ND.
  assert (X := NoDup_app_disj _ _ ND). clear ND.
  unfold keys in H1, H2. rewrite map_app in H1, H2.
  rewrite !prod_logpdf_eq. rewrite map_app, oseq_app.
  rewrite (map_ext_in _ (fun c => child_answer c rid T1 C1 I) cs1).
  2:{ intros c Hc. unfold child_answer, logpdf_one. rewrite !interd_app.
      rewrite (interd_out (outputs c) T2), (interd_out (outputs c) C2).
      - rewrite !app_nil_r. reflexivity.
      - intros k Hk Ho. apply (X k); [apply in_flat_map; eauto|]. apply H2. apply in_or_app. right. exact Hk.
      - intros k Hk Ho. apply (X k); [apply in_flat_map; eauto|]. apply H2. apply in_or_app. left. exact Hk. }
  rewrite (map_ext_in _ (fun c => child_answer c rid T2 C2 I) cs2).
  2:{ intros c Hc. unfold child_answer, logpdf_one. rewrite !interd_app.
      rewrite (interd_out (outputs c) T1), (interd_out (outputs c) C1).
      - reflexivity.
      - intros k Hk Ho. apply (X k); [|apply in_flat_map; eauto]. apply H1. apply in_or_app. right. exact Hk.
      - intros k Hk Ho. apply (X k); [|apply in_flat_map; eauto]. apply H1. apply in_or_app. left. exact Hk. }
  destruct (oseq (map (fun c => child_answer c rid T1 C1 I) cs1)); cbn; [|reflexivity].
  destruct (oseq (map (fun c => child_answer c rid T2 C2 I) cs2)); cbn; [|reflexivity].
  rewrite xsum_app. reflexivity.
Qed.

Lemma product_no_targets : forall cs rid C I, logpdf (CProd cs) rid [] C I = Ok (Fin 0).
Proof.
  intros. rewrite prod_logpdf_eq. rewrite (oseq_map_ok _ (fun _ => Fin 0)) by reflexivity.
  cbn [omap]. f_equal. induction cs as [|c cs IH]; [reflexivity|]. cbn [map]. rewrite xsum_cons, IH. apply xadd_0_l.
Qed.

Lemma product_independent : forall cs1 cs2 rid T1 C1 C2 I, NoDup (flat_map outputs (cs1 ++ cs2)) ->
  (forall k, In k (keys (T1 ++ C1)) -> In k (flat_map outputs cs1)) ->
  (forall k, In k (keys C2) -> In k (flat_map outputs cs2)) ->
  logpdf (CProd (cs1 ++ cs2)) rid T1 (C1 ++ C2) I = logpdf (CProd cs1) rid T1 C1 I.
Proof.
  intros cs1 cs2 rid T1 C1 C2 I ND H1 H2.
  rewrite <- (app_nil_r T1) at 1. rewrite product_split; auto.
  rewrite product_no_targets. destruct (logpdf (CProd cs1) rid T1 C1 I); cbn; [|reflexivity].
  rewrite xadd_0_r. reflexivity.
Qed.

Lemma child_nested : forall l rid T C I,
  child_answer (CProd l) rid T C I = omap xsum (oseq (map (fun c => child_answer c rid T C I) l)).
Proof.
  intros l rid T C I. unfold child_answer at 1, logpdf_one.
  destruct (interd (outputs (CProd l)) T) as [|p r] eqn:E.
  - assert (H := product_no_targets l rid C I). rewrite prod_logpdf_eq in H.
    rewrite <- H. f_equal. f_equal. apply map_ext_in. intros c Hc. unfold child_answer, logpdf_one.
    replace (interd (outputs c) T) with (@nil (Z * val)); [reflexivity|]. symmetry.
    apply interd_nil_lookup. intros k Hk. rewrite interd_nil_lookup in E. apply E. cbn. apply in_flat_map. eauto.
  - rewrite <- E. rewrite prod_logpdf_eq. f_equal. f_equal. apply map_ext_in. intros c Hc.
    unfold child_answer, logpdf_one. rewrite !(interd_sub (outputs c) (outputs (CProd l))).
    2, 3: intros k Hk; cbn; apply in_flat_map; eauto.
    destruct (interd (outputs c) T); [reflexivity|]. rewrite interd_sub; [reflexivity|].
    intros k Hk. cbn. apply in_flat_map. eauto.
Qed.

Lemma flatten_logpdf : forall cs rid T C I,
  logpdf (CProd (flatten_products cs)) rid T C I = logpdf (CProd cs) rid T C I.
Proof.
  intros cs rid T C I. rewrite !prod_logpdf_eq. unfold flatten_products.
  induction cs as [|c cs IH]; [reflexivity|]. cbn [flat_map]. rewrite map_app, oseq_app. cbn [map oseq].
  assert (E : child_answer c rid T C I = omap xsum (oseq (map (fun c => child_answer c rid T C I)
            (match c with CProd l => l | _ => [c] end)))).
  { destruct c; try apply child_nested; cbn [map oseq]; destruct (child_answer _ rid T C I); cbn;
      rewrite ?xadd_0_r; reflexivity. }
  rewrite E. destruct (oseq (map (fun c => child_answer c rid T C I) (match c with CProd l => l | _ => [c] end)));
    cbn; [|reflexivity].
  destruct (oseq (map _ (flat_map _ cs))); cbn in IH |- *;
    destruct (oseq (map _ cs)); cbn in IH |- *; try discriminate; [|congruence].
  injection IH as IH. rewrite xsum_app, IH. reflexivity.
Qed.

Lemma product_accepts : forall cs,
  (exists c, new_product cs = Ok c) <->
  NoDup (flat_map outputs cs) /\ forall i, In i (flat_map inputs cs) -> ~ In i (flat_map outputs cs).
Proof.
  intros cs. split.
  - intros [c H]. apply new_product_inv in H. tauto.
  - intros [H1 H2]. eexists. apply new_product_ok; auto.
Qed.

Lemma product_flattens : forall cs c, new_product cs = Ok c ->
  outputs c = flat_map outputs cs /\
  forall rid T C I, logpdf c rid T C I = logpdf (CProd cs) rid T C I.
Proof.
  intros cs c H. apply new_product_inv in H. destruct H as (-> & _). split.
  - apply flatten_outputs.
  - intros. apply flatten_logpdf.
Qed.

(** ** C16 *)

(** A question about a new row: some target, and only columns of the model. *)
Lemma all_in : forall l (S : row), (forall k, In k (keys S) -> In k l) -> interd l S = S.
Proof.
  intros l S H. unfold interd. apply filter_all. intros [k x] Hk. cbn. apply memb_In. apply H.
  apply (in_map fst) in Hk. exact Hk.
Qed.

Lemma model_density : forall c rid T C, wf c -> unknown c rid -> labelled c (T ++ C) ->
  disjoint_rows T C -> T <> [] -> (forall k, In k (keys (T ++ C)) -> In k (outputs c)) ->
  solid c C -> (0 < dens c C)%R ->
  logpdf c rid T C [] = Ok (xlog (dens c (T ++ C) / dens c C)).
Proof.
  intros c rid T C RE U LB DJ NE K SD P. assert (W := RE).
  assert (A := wf_answers c W rid T C U LB DJ SD P). unfold logpdf_one in A. cbn [interd filter] in A.
  unfold keys in K. rewrite map_app in K.
  rewrite (all_in (outputs c) T), (all_in (outputs c) C) in A.
  - destruct T; [congruence|exact A].
  - intros k Hk. apply K. apply in_or_app. now right.
  - intros k Hk. apply K. apply in_or_app. now left.
Qed.

Lemma solid_flat : forall c S, flat c -> solid c S.
Proof.
  intros c S [d|ds]; cbn [solid]; [exact I|]. rewrite each_map, each_In. cbn. auto.
Qed.

Lemma solid_view : forall c S, wf c -> view c -> solid c S.
Proof.
  intros c S W (flex & div & arr & r2c & -> & F). cbn [solid].
  destruct (wf_mix _ _ _ _ W) as (_ & _ & A & _).
  destruct arr as [| |i cs m|i b cs m|]; try contradiction; cbn [solid].
  - rewrite each_In. intros c Hc. specialize (F c Hc). auto using solid_flat.
  - rewrite each_In. split.
    + assert (Fb := F b (or_introl eq_refl)). auto using solid_flat.
    + intros [k c] Hk. assert (Fc := F c (or_intror (in_map snd _ _ Hk))). auto using solid_flat.
Qed.

Lemma solid_state : forall c S, wf c -> state c -> solid c S.
Proof.
  intros c S W (cs & -> & F). inversion W as [|? Wc ND| |]; subst. cbn [solid]. rewrite each_In.
  intros c Hc. destruct (F c Hc) as [V|[d ->]]; [apply solid_view; auto|exact I].
Qed.

(** ** C17 *)

Lemma coherent : forall c rid T C, wf c -> unknown c rid -> labelled c (T ++ C) ->
  disjoint_rows T C -> T <> [] -> C <> [] -> (forall k, In k (keys (T ++ C)) -> In k (outputs c)) ->
  solid c C -> (0 < dens c C)%R ->
  exists t r, logpdf c rid T C [] = Ok t /\ logpdf c rid C [] [] = Ok (Fin r) /\
    logpdf c rid (T ++ C) [] [] = Ok (xadd t (Fin r)).
Proof.
  intros c rid T C RE U LB DJ NT NC K SD P. assert (W := RE).
  destruct (disjoint_parts _ _ DJ) as (DT & DC & X).
  assert (N0 : dens c [] = 1%R) by (apply dens_none; auto).
  assert (KC : forall k, In k (keys (C ++ [])) -> In k (outputs c)).
  { intros k Hk. rewrite app_nil_r in Hk. apply K. unfold keys. rewrite map_app. apply in_or_app. now right. }
  exists (xlog (dens c (T ++ C) / dens c C)), (ln (dens c C)). split; [|split].
  - apply model_density; auto.
  - rewrite (model_density c rid C []); auto using disjoint_nil, solid_nil.
    + rewrite app_nil_r, N0. unfold Rdiv. rewrite Rinv_1, Rmult_1_r. rewrite xlog_pos by exact P. reflexivity.
    + rewrite app_nil_r. apply (labelled_split c T C DJ LB).
    + lra.
  - rewrite (model_density c rid (T ++ C) []); auto using solid_nil.
    + rewrite app_nil_r, N0. unfold Rdiv at 1. rewrite Rinv_1, Rmult_1_r. rewrite <- (xlog_pos (dens c C)) by exact P.
      rewrite xlog_mul.
      * f_equal. f_equal. field. lra.
      * apply Rmult_le_pos; [apply dens_nonneg; auto|]. apply Rlt_le, Rinv_0_lt_compat. exact P.
      * lra.
    + rewrite app_nil_r. exact LB.
    + apply disjoint_nil. exact DJ.
    + destruct T; [congruence|discriminate].
    + rewrite app_nil_r. exact K.
    + lra.
Qed.

(** ** C18 *)

Lemma cluster_marginal : forall flex div arr r2c K S, wf (CMix flex div arr r2c) ->
  dist_support div = Ok K -> ~ In (dist_o div) (keys S) ->
  rsum (map (fun z => dens (CMix flex div arr r2c) ((dist_o div, vz z) :: S)) K) =
  dens (CMix flex div arr r2c) S.
Proof.
  intros flex div arr r2c K S W SU NI.
  rewrite (dens_mix_none flex div arr r2c K S SU) by (apply lookup_None; exact NI).
  apply rsum_ext. intros z Hz.
  rewrite (dens_mix_some flex div arr r2c W z) by apply lookup_cons_eq. f_equal.
  destruct (wf_mix _ _ _ _ W) as (D & _ & A & NIx & CO & CE & _).
  destruct (CE z) as [c E]; [right; eauto|]. rewrite !(q_comp flex div arr r2c W z c) by auto.
  destruct (CO c (comp_In _ _ _ E)) as [Wc Oc]. apply dens_ext; auto.
  intros k Hk. apply lookup_cons_neq. intros ->. rewrite Oc in Hk. contradiction.
Qed.

Lemma wf_comps_answer : forall flex div arr r2c, wf (CMix flex div arr r2c) ->
  forall c, In c (components arr) -> answers_all c.
Proof. intros. apply wf_answers. eapply wf_comp; eauto. Qed.

Lemma mixture_density : forall flex div arr r2c rid T C, wf (CMix flex div arr r2c) ->
  unknown (CMix flex div arr r2c) rid -> labelled (CMix flex div arr r2c) (T ++ C) ->
  disjoint_rows T C -> solid (CMix flex div arr r2c) C -> (0 < dens (CMix flex div arr r2c) C)%R ->
  logpdf (CMix flex div arr r2c) rid T C [] =
  Ok (xlog (dens (CMix flex div arr r2c) (T ++ C) / dens (CMix flex div arr r2c) C)).
Proof. intros. apply mix_answers; auto. eapply wf_comps_answer; eauto. Qed.

Lemma labelled_arr : forall ix arr S, is_array ix arr -> (forall c, In c (components arr) -> labelled c S) ->
  labelled arr S.
Proof.
  intros ix arr S A H. destruct arr as [| |i cs m|i b cs m|]; try contradiction; cbn [labelled components] in *.
  - rewrite each_In. auto.
  - rewrite each_In. split; [apply H; now left|]. intros [k c] Hk. apply H. right. exact (in_map snd _ _ Hk).
Qed.

Lemma labelled_out : forall c, wf c -> forall S S', (forall k, In k (outputs c) -> lookup k S = lookup k S') ->
  labelled c S -> labelled c S'.
Proof.
  assert (MIX : forall flex div arr r2c, wf (CMix flex div arr r2c) ->
    (forall c, In c (components arr) -> forall S S', (forall k, In k (outputs c) -> lookup k S = lookup k S') ->
       labelled c S -> labelled c S') ->
    forall S S', (forall k, In k (outputs (CMix flex div arr r2c)) -> lookup k S = lookup k S') ->
    labelled (CMix flex div arr r2c) S -> labelled (CMix flex div arr r2c) S').
  { intros flex div arr r2c W IH S S' E [H1 H2]. destruct (wf_mix _ _ _ _ W) as (D & _ & A & NIx & CO & CE & _).
    split.
    - intros x Hx. apply H1. rewrite E by now left. exact Hx.
    - eapply labelled_arr; eauto. intros c Hc. apply (IH c Hc S S').
      + intros k Hk. apply E. right. destruct (CO c Hc) as [_ Oc]. rewrite <- Oc. exact Hk.
      + eapply labelled_comp; eauto. }
  induction 1 as [d D|cs Wc IH ND|div cs r2i r2c D F SU NE Wc IH O|div b cs r2i r2c D HS Wb IHb NI ND Wc IH O].
  - intros S S' E. cbn. destruct d; auto. rewrite <- E; [auto|now left].
  - intros S S' E. cbn [labelled]. rewrite !each_In. intros H c Hc. apply (IH c Hc S S'); auto.
    intros k Hk. apply E. cbn. apply in_flat_map. eauto.
  - apply MIX; auto. constructor; auto.
  - apply MIX; auto.
    + constructor; auto.
    + intros c [<-|Hc]; [exact IHb|]. unfold values in Hc. apply in_map_iff in Hc.
      destruct Hc as ([k c'] & <- & Hk). cbn. eauto.
Qed.

Lemma labelled_add : forall flex div arr r2c z S, wf (CMix flex div arr r2c) ->
  (flex = true \/ exists K, dist_support div = Ok K /\ In z K) ->
  labelled (CMix flex div arr r2c) S -> labelled (CMix flex div arr r2c) ((dist_o div, vz z) :: S).
Proof.
  intros flex div arr r2c z S W LZ [H1 H2]. destruct (wf_mix _ _ _ _ W) as (D & _ & A & NIx & CO & CE & _).
  split.
  - intros x Hx. rewrite lookup_cons_eq in Hx. injection Hx as <-. exists z. auto.
  - eapply labelled_arr; eauto. intros c Hc. destruct (CO c Hc) as [Wc Oc].
    apply (labelled_out c Wc S); [|eapply labelled_comp; eauto].
    intros k Hk. symmetry. apply lookup_cons_neq. intros ->. rewrite Oc in Hk. contradiction.
Qed.

Lemma ratio_nonneg : forall c S S', wf c -> (0 < dens c S')%R -> (0 <= dens c S / dens c S')%R.
Proof.
  intros c S S' W P. apply Rmult_le_pos; [apply dens_nonneg; auto|]. apply Rlt_le, Rinv_0_lt_compat. exact P.
Qed.

Lemma cluster_normalised : forall flex div arr r2c rid T C K,
  wf (CMix flex div arr r2c) -> unknown (CMix flex div arr r2c) rid -> dist_support div = Ok K ->
  labelled (CMix flex div arr r2c) (T ++ C) ->
  disjoint_rows T C -> ~ In (dist_o div) (keys (T ++ C)) ->
  solid (CMix flex div arr r2c) C -> (0 < dens (CMix flex div arr r2c) C)%R ->
  exists (l : Z -> xr) t,
    (forall z, In z K -> logpdf (CMix flex div arr r2c) rid ((dist_o div, vz z) :: T) C [] = Ok (l z)) /\
    logpdf (CMix flex div arr r2c) rid T C [] = Ok t /\ (T = [] -> t = Fin 0) /\
    rsum (map (fun z => xexp (l z)) K) = xexp t.
Proof.
  intros flex div arr r2c rid T C K RE U SU LB DJ NI SD P. assert (W := RE).
  exists (fun z => xlog (dens (CMix flex div arr r2c) ((dist_o div, vz z) :: T ++ C) / dens (CMix flex div arr r2c) C)),
    (xlog (dens (CMix flex div arr r2c) (T ++ C) / dens (CMix flex div arr r2c) C)).
  split; [|split; [|split]].
  - intros z Hz. apply (mixture_density flex div arr r2c rid ((dist_o div, vz z) :: T) C); auto.
    + cbn [app]. apply labelled_add; eauto.
    + unfold disjoint_rows in *. cbn. constructor; auto.
  - apply mixture_density; auto.
  - intros ->. cbn [app]. apply xlog_div_self. exact P.
  - rewrite xexp_xlog by auto using ratio_nonneg.
    rewrite <- (cluster_marginal flex div arr r2c K (T ++ C)) by auto.
    rewrite <- (rsum_div (fun z => dens (CMix flex div arr r2c) ((dist_o div, vz z) :: T ++ C))).
    apply rsum_ext. intros z Hz. apply xexp_xlog. auto using ratio_nonneg.
Qed.

(** ** C19 *)

Lemma outside_support : forall flex div arr r2c rid T C I K x,
  unknown (CMix flex div arr r2c) rid -> dist_support div = Ok K ->
  lookup (dist_o div) T = None -> lookup (dist_o div) C = Some x -> ~ In x (map vz K) ->
  logpdf (CMix flex div arr r2c) rid T C I = Err ValueError /\
  forall ts N, simulate (CMix flex div arr r2c) rid ts C I N = Ret (Err ValueError).
Proof.
  intros flex div arr r2c rid T C I K x U SU LT LC NI.
  assert (NR := not_recorded flex div arr r2c rid U).
  assert (IS : in_support x K = false).
  { unfold in_support. destruct (memb x (map vz K)) eqn:M; [|reflexivity]. apply memb_In in M. contradiction. }
  split.
  - cbn [logpdf]. unfold mix_logpdf. rewrite NR, LT, LC, SU. cbn [obind]. rewrite IS. reflexivity.
  - intros ts N. cbn [simulate]. unfold mix_simulate. rewrite NR, LC, SU, IS. reflexivity.
Qed.

Lemma zero_density : forall flex div arr r2c rid T C,
  wf (CMix flex div arr r2c) -> unknown (CMix flex div arr r2c) rid -> labelled (CMix flex div arr r2c) (T ++ C) ->
  disjoint_rows T C -> ~ In (dist_o div) (keys C) -> solid arr C ->
  dens (CMix flex div arr r2c) C = 0%R ->
  logpdf (CMix flex div arr r2c) rid T C [] = Ok XNan.
Proof.
  intros flex div arr r2c rid T C W U LB DJ NI SD Z0.
  destruct (disjoint_parts _ _ DJ) as (NT & NC & X).
  destruct (wf_mix _ _ _ _ W) as (D & (K & SU) & A & NIx & CO & CE & _).
  assert (NR := not_recorded flex div arr r2c rid U).
  assert (LC : lookup (dist_o div) C = None) by (apply lookup_None; exact NI).
  assert (AA := wf_comps_answer _ _ _ _ W).
  assert (LA : labelled arr (T ++ C)) by apply LB.
  assert (SN : solid arr []) by exact (solid_nil _ W).
  assert (LAC : labelled arr C) by apply (labelled_split arr T C DJ LA).
  assert (A1 : all_answer arr rid T C) by (eapply all_answer_of; eauto).
  assert (A2 : all_answer arr rid C []).
  { eapply all_answer_of; eauto using disjoint_nil. rewrite app_nil_r. exact LAC. }
  cbn [logpdf]. unfold mix_logpdf. rewrite NR. destruct (lookup (dist_o div) T) as [x|] eqn:LT.
  - assert (LTC : lookup (dist_o div) (T ++ C) = Some x) by (rewrite lookup_app, LT; reflexivity).
    destruct LB as [LB _]. destruct (LB x LTC) as (z & -> & LZ).
    rewrite (mix_prior flex div arr r2c rid W U z). cbn [obind].
    rewrite merged_disj by (auto; intros k Hk Hk'; exact (X k Hk' Hk)).
    rewrite (mix_one_nil flex div arr r2c rid W z (T ++ C)); auto.
    2:{ eapply all_answer_of; eauto using disjoint_nil. rewrite app_nil_r. exact LA. }
    cbn [obind]. destruct C as [|p0 C].
    { exfalso. rewrite (dens_none _ W) in Z0 by reflexivity. lra. }
    unfold mix_logpdf0. rewrite LC. 
    rewrite (mix_marg flex div arr r2c rid W U K (p0 :: C) []); auto.
    2:{ intros c Hc. destruct (CO c Hc) as [Wc _]. exists 1%R. cbn [app]. rewrite dens_none by auto.
        split; [lra|]. split; [lra|]. rewrite xlog_1. reflexivity. }
    rewrite app_nil_r, Z0. rewrite (dens_none _ W []) by reflexivity. destruct (Rlt_dec 0 1); [|lra].
    cbn [obind]. replace (0 / 1)%R with 0%R by field. rewrite xlog_0.
    rewrite xlog_mul; [|apply cell_nonneg; auto|eapply q_nonneg; eauto].
    replace (cell_density div (vz z) * q_of div arr z (T ++ p0 :: C))%R with 0%R; [rewrite xlog_0; reflexivity|].
    symmetry. rewrite (dens_mix_none flex div arr r2c K (p0 :: C) SU LC) in Z0.
    assert (P0 : forall z', In z' K -> (cell_density div (vz z') * q_of div arr z' (p0 :: C) = 0)%R).
    { intros z' Hz'. apply Rle_antisym.
      - rewrite <- Z0. apply rsum_ge; [|apply in_map_iff; eauto]. intros y Hr. apply in_map_iff in Hr.
        destruct Hr as (w & <- & _). eapply pq_nonneg; eauto.
      - eapply pq_nonneg; eauto. }
    destruct (Rle_lt_or_eq_dec 0 (cell_density div (vz z))) as [PP|PP]; [apply cell_nonneg; auto| |rewrite <- PP; ring].
    assert (Hz : In z K) by (apply (support_pos div K z D SU); exact PP).
    specialize (P0 z Hz). assert (Q0 : q_of div arr z (p0 :: C) = 0%R).
    { apply Rmult_integral in P0. destruct P0; [lra|auto]. }
    destruct (mix_one flex div arr r2c rid W T (p0 :: C) A1) as [t Ht].
    destruct (Ht z LZ) as (_ & E & _). unfold q_of in *. rewrite Q0 in E. rewrite <- E. ring.
  - rewrite LC. rewrite (mix_marg flex div arr r2c rid W U K T C); auto.
    rewrite Z0. destruct (Rlt_dec 0 0); [lra|reflexivity].
Qed.

Lemma zero_simulate : forall flex div arr r2c rid ts C N,
  wf (CMix flex div arr r2c) -> unknown (CMix flex div arr r2c) rid -> labelled (CMix flex div arr r2c) C ->
  NoDup (keys C) -> ~ In (dist_o div) (keys C) -> solid arr C ->
  dens (CMix flex div arr r2c) C = 0%R ->
  simulate (CMix flex div arr r2c) rid ts C [] N = Ret (Err ValueError).
Proof.
  intros flex div arr r2c rid ts C N W U LB NC NI SD Z0.
  destruct (wf_mix _ _ _ _ W) as (D & (K & SU) & A & NIx & CO & CE & _).
  assert (NR := not_recorded flex div arr r2c rid U).
  assert (LC : lookup (dist_o div) C = None) by (apply lookup_None; exact NI).
  cbn [simulate]. unfold mix_simulate. rewrite NR, LC, SU. cbn [obind].
  rewrite (oseq_map_ok _ (fun _ => XNan)).
  2:{ intros z Hz. apply (zero_density flex div arr r2c rid [(dist_o div, vz z)] C); auto.
      - cbn [app]. apply labelled_add; eauto.
      - unfold disjoint_rows. cbn. constructor; auto. }
  cbn [obind].
  assert (KN : K <> []).
  { intros ->. assert (E := support_sum div [] D SU). cbn in E. lra. }
  destruct K as [|z K]; [congruence|].
  assert (LP : log_pflip (map (fun _ : Z => XNan) (z :: K)) = Ret (Err ValueError)) by reflexivity.
  rewrite LP. destruct N as [[|n]|]; reflexivity.
Qed.

(** ** C20 *)

Lemma recorded_density : forall flex div arr r2c r z c T C,
  wf (CMix flex div arr r2c) -> lookup r r2c = Some (vz z) -> component arr z = Some c -> flat c ->
  labelled c T -> disjoint_rows T C -> ~ In (dist_o div) (keys C) ->
  (forall d, In d (leaves c) -> In (dist_o d) (keys T) -> ~ In r (keys (dist_data d))) ->
  logpdf (CMix flex div arr r2c) (Some r) T C [] = Ok (xlog (dens c T)).
Proof.
  intros flex div arr r2c r z c T C W L E F LB DJ NI FR.
  destruct (wf_mix _ _ _ _ W) as (D & _ & A & NIx & CO & CE & _).
  destruct (CO c (comp_In _ _ _ E)) as [Wc Oc].
  cbn [logpdf]. unfold mix_logpdf. rewrite L.
  assert (DM : dmem (dist_o div) C = false).
  { destruct (dmem (dist_o div) C) eqn:M; [|reflexivity]. apply dmem_true in M. contradiction. }
  rewrite DM. cbn [negb oassert obind]. rewrite (mix_one_eq _ _ _ _ _ _ _ c A E). rewrite <- Oc.
  apply flat_answers_free; auto.
Qed.

Lemma recorded_cluster_target : forall flex div arr r2c r z x,
  lookup r r2c = Some z -> ~ In (dist_o div) (outputs arr) ->
  logpdf (CMix flex div arr r2c) (Some r) [(dist_o div, x)] [] [] = Ok (Fin 0).
Proof.
  intros flex div arr r2c r z x L NI. cbn [logpdf]. unfold mix_logpdf. rewrite L. cbn [dmem].
  cbn. unfold mix_logpdf_one. cbn. destruct (memb (dist_o div) (outputs arr)) eqn:M; [|reflexivity].
  apply memb_In in M. contradiction.
Qed.

From Coq Require Import FunctionalExtensionality.

Lemma sbind_ret : forall {A} (m : samp A), sbind m (fun a => Ret a) = m.
Proof.
  induction m as [a|ws k IH|l k IH|n p k IH|lo hi k IH|n k IH]; cbn; auto; f_equal;
    apply functional_extensionality; auto.
Qed.

Lemma sobind_ok : forall {A} (m : samp (out A)), sobind m (fun a => Ret (Ok a)) = m.
Proof.
  intros A m. unfold sobind. rewrite <- (sbind_ret m) at 2. f_equal.
  apply functional_extensionality. intros [a|e]; reflexivity.
Qed.

Lemma arr_simulate : forall ix arr rid ts C z c N, is_array ix arr -> component arr z = Some c ->
  simulate arr rid ts C [(ix, vz z)] N = simulate c rid ts C [] N.
Proof.
  intros ix arr rid ts C z c N A E.
  destruct arr as [| |i cs m|i b cs m|]; try contradiction; cbn in A; subst i; cbn [simulate component] in *.
  - unfold finarr_simulate. cbn [lookup ddel]. destruct (eq_dec ix ix); [|congruence].
    destruct (0 <=? z) eqn:Z0; [|discriminate]. apply Z.leb_le in Z0.
    unfold py_index. cbn [vz]. rewrite is_int_qz, trunc_qz, map_length.
    assert (L : (Z.to_nat z < List.length cs)%nat) by (apply nth_error_Some; congruence).
    replace ((0 <=? z) && (z <? Z.of_nat (List.length cs))) with true by (symmetry; lia).
    rewrite nth_error_map, E. reflexivity.
  - unfold flexarr_simulate. cbn [lookup ddel]. destruct (eq_dec ix ix); [|congruence].
    rewrite lookup_dict_map. injection E as <-. destruct (lookup (vz z) cs); reflexivity.
Qed.

Lemma interl_all : forall l ts, (forall k, In k ts -> In k l) -> interl l ts = ts.
Proof. intros l ts H. apply filter_all. intros k Hk. apply memb_In. auto. Qed.

Lemma mix_simulate_one_eq : forall ix arr rid ts C N z c, is_array ix arr -> component arr z = Some c ->
  ts <> [] -> ~ In ix ts -> (forall k, In k ts -> In k (outputs arr)) ->
  mix_simulate_one ix (outputs arr) (simulate arr) rid ts C [] N (vz z) =
  simulate c rid ts (interd (outputs arr) C) [] N.
Proof.
  intros ix arr rid ts C N z c A E NE NI H. unfold mix_simulate_one. rewrite interl_all by auto.
  destruct ts as [|t ts]; [congruence|]. cbn [interd filter].
  replace (merged [] [(ix, vz z)]) with [(ix, vz z)] by reflexivity.
  rewrite (arr_simulate ix arr rid _ _ z c N A E).
  rewrite <- sobind_ok. f_equal. apply functional_extensionality. intros s. unfold add_cluster.
  replace (memb ix (t :: ts)) with false; [reflexivity|]. symmetry.
  destruct (memb ix (t :: ts)) eqn:M; [|reflexivity]. apply memb_In in M. contradiction.
Qed.

Lemma recorded_simulate : forall flex div arr r2c r z c ts C N,
  wf (CMix flex div arr r2c) -> lookup r r2c = Some (vz z) -> component arr z = Some c ->
  ~ In (dist_o div) (keys C) -> ts <> [] -> ~ In (dist_o div) ts ->
  (forall k, In k ts -> In k (outputs c)) ->
  simulate (CMix flex div arr r2c) (Some r) ts C [] N =
  simulate c (Some r) ts (cells_of (outputs c) C) [] N.
Proof.
  intros flex div arr r2c r z c ts C N W L E NC NE NI H.
  destruct (wf_mix _ _ _ _ W) as (D & _ & A & NIx & CO & CE & _).
  destruct (CO c (comp_In _ _ _ E)) as [Wc Oc].
  cbn [simulate]. unfold mix_simulate. rewrite L.
  assert (DM : dmem (dist_o div) C = false).
  { destruct (dmem (dist_o div) C) eqn:M; [|reflexivity]. apply dmem_true in M. contradiction. }
  rewrite DM. cbn [negb oassert]. rewrite (mix_simulate_one_eq _ _ _ _ _ _ _ c); auto.
  - rewrite cells_of_interd, Oc. reflexivity.
  - intros k Hk. rewrite <- Oc. auto.
Qed.

(** A nested mixture whose answer is NaN spoils the outer sum. *)
Lemma nested_nan : forall flex div arr r2c rid T C K z c (f : Z -> xr), wf (CMix flex div arr r2c) ->
  unknown (CMix flex div arr r2c) rid -> dist_support div = Ok K -> In z K -> component arr z = Some c ->
  all_answer arr rid C [] -> lookup (dist_o div) T = None -> lookup (dist_o div) C = None ->
  (forall z' c', In z' K -> component arr z' = Some c' ->
     logpdf_one (outputs c') [] (logpdf c') rid T C [] = Ok (f z')) -> f z = XNan ->
  logpdf (CMix flex div arr r2c) rid T C [] = Ok XNan.
Proof.
  intros flex div arr r2c rid T C K z c f W U SU Hz E AC LT LC H N.
  destruct (wf_mix _ _ _ _ W) as (D & _ & A & NIx & CO & CE & _).
  assert (NR := not_recorded flex div arr r2c rid U).
  cbn [logpdf]. unfold mix_logpdf. rewrite NR, LT, LC. unfold mix_logpdf_marg. rewrite SU. cbn [obind].
  rewrite (oseq_map_ok _ (fun z => xlog (cell_density div (vz z)))) by (intros; eapply mix_prior; eauto).
  cbn [obind]. rewrite (oseq_map_ok _ (fun z => xlog (q_of div arr z C))).
  2:{ intros z' Hz'. apply (mix_one_nil flex div arr r2c rid W z' C); auto. right. eauto. }
  cbn [obind]. rewrite (oseq_map_ok _ f).
  2:{ intros z' Hz'. destruct (CE z') as [c' E']; [right; eauto|].
      rewrite (mix_one_eq _ _ _ _ _ _ _ c' A E'). destruct (CO c' (comp_In _ _ _ E')) as [_ Oc].
      rewrite <- Oc. apply H; auto. }
  cbn [obind]. f_equal. rewrite xadds_map. unfold log_normalize. rewrite map_map, xadds_map.
  apply logsumexp_nan. apply in_map_iff. exists z. split; [|exact Hz]. rewrite N. reflexivity.
Qed.

(** ** Plausible cells *)

Lemma plausible_comp : forall arr S c, plausible arr S -> In c (components arr) -> plausible c S.
Proof.
  intros arr S c U Hc.
  destruct arr as [| |i cs m|i b cs m|]; try contradiction; cbn [plausible components] in U, Hc.
  - rewrite each_In in U. auto.
  - destruct U as [Ub U]. destruct Hc as [<-|Hc]; [auto|]. rewrite each_In in U. unfold values in Hc.
    apply in_map_iff in Hc. destruct Hc as ([k c'] & <- & Hk). apply (U (k, c')). exact Hk.
Qed.

Lemma rprod_pos_all : forall l, (forall p, In p l -> (0 < p)%R) -> (0 < rprod l)%R.
Proof.
  induction l as [|p l IH]; intros H; [cbn; lra|]. change (0 < p * rprod l)%R.
  apply Rmult_lt_0_compat; [apply H; now left|apply IH; intros; apply H; now right].
Qed.

Lemma plausible_good : forall c, wf c -> forall S, plausible c S -> (0 < dens c S)%R /\ solid c S /\ labelled c S.
Proof.
  assert (MIX : forall flex div arr r2c, wf (CMix flex div arr r2c) ->
    (forall c, In c (components arr) -> forall S, plausible c S -> (0 < dens c S)%R /\ solid c S /\ labelled c S) ->
    forall S, plausible (CMix flex div arr r2c) S ->
    (0 < dens (CMix flex div arr r2c) S)%R /\ solid (CMix flex div arr r2c) S /\ labelled (CMix flex div arr r2c) S).
  { intros flex div arr r2c W IH S [H1 H2].
    destruct (wf_mix _ _ _ _ W) as (D & (K & SU) & A & NIx & CO & CE & _).
    assert (IH' : forall c, In c (components arr) -> (0 < dens c S)%R /\ solid c S /\ labelled c S).
    { intros c Hc. apply IH; auto. eapply plausible_comp; eauto. }
    assert (PP : forall z, In z K -> (0 < cell_density div (vz z) * q_of div arr z S)%R).
    { intros z Hz. apply Rmult_lt_0_compat; [apply (support_pos div K z D SU); exact Hz|].
      destruct (CE z) as [c E]; [right; eauto|]. rewrite (q_comp flex div arr r2c W z c) by auto.
      apply IH'. eapply comp_In; eauto. }
    split; [|split].
    - destruct (lookup (dist_o div) S) as [x|] eqn:L.
      + destruct (H1 x eq_refl) as (z & K' & -> & SU' & Hz). rewrite SU in SU'. injection SU' as <-.
        rewrite (dens_mix_some flex div arr r2c W z S L). apply PP. exact Hz.
      + rewrite (dens_mix_none flex div arr r2c K S SU L).
        destruct K as [|z K]; [assert (E := support_sum div [] D SU); cbn in E; lra|].
        change (0 < cell_density div (vz z) * q_of div arr z S +
          rsum (map (fun z => cell_density div (vz z) * q_of div arr z S) K))%R.
        assert (H0 : (0 < cell_density div (vz z) * q_of div arr z S)%R) by (apply PP; now left).
        assert (H3 : (0 <= rsum (map (fun z => cell_density div (vz z) * q_of div arr z S) K))%R).
        { apply rsum_nonneg. intros y Hy. apply in_map_iff in Hy. destruct Hy as (w & <- & Hw).
          apply Rlt_le, PP. now right. }
        lra.
    - cbn [solid]. destruct arr as [| |i cs m|i b cs m|]; try contradiction; cbn [solid].
      + rewrite each_In. intros c Hc. destruct (IH' c Hc) as (P & SD & _). auto.
      + rewrite each_In. split.
        * destruct (IH' b (or_introl eq_refl)) as (P & SD & _). auto.
        * intros [k c] Hk. destruct (IH' c (or_intror (in_map snd _ _ Hk))) as (P & SD & _). auto.
    - split.
      + intros x Hx. destruct (H1 x Hx) as (z & K' & -> & SU' & Hz). exists z. eauto.
      + eapply labelled_arr; eauto. intros c Hc. apply IH'. exact Hc. }
  induction 1 as [d D|cs Wc IH ND|div cs r2i r2c D F SU NE Wc IH O|div b cs r2i r2c D HS Wb IHb NI ND Wc IH O].
  - intros S H. cbn [plausible] in H. split; [|split; [exact I|]].
    + cbn [dens]. destruct (lookup (dist_o d) S) as [[|q]|] eqn:L; [| |lra].
      * specialize (H VNan eq_refl). destruct d; cbn in *; try contradiction; lra.
      * apply density_pos; auto. apply (H (VQ q) eq_refl).
    + destruct d; cbn; auto. intros E. apply (H VNan E).
  - intros S H. cbn [plausible solid labelled] in *. rewrite !each_In in *. split; [|split].
    + cbn [dens]. apply rprod_pos_all. intros p Hp. apply in_map_iff in Hp. destruct Hp as (c & <- & Hc).
      apply IH; auto.
    + intros c Hc. apply IH; auto.
    + intros c Hc. apply IH; auto.
  - apply MIX; auto. constructor; auto.
  - apply MIX; auto.
    + constructor; auto.
    + intros c [<-|Hc]; [exact IHb|]. unfold values in Hc. apply in_map_iff in Hc.
      destruct Hc as ([k c'] & <- & Hk). cbn. eauto.
Qed.

Lemma primitive_recorded_row : forall d r v x, dinv d -> lookup r (dist_data d) = Some v ->
  dist_logpdf d (Some r) [(dist_o d, VQ x)] [] [] =
  match kind_of d with
  | KTable => if eq_dec (vz (trunc x)) v then Ok (Fin 0) else Ok NInf
  | _ => Err AssertionError
  end.
Proof.
  intros d r v x D L.
  assert (B : forall (data : dict Z val) o T, lookup r data = Some v -> base_logpdf data o (Some r) T [] [] = Err AssertionError).
  { intros data o T H. unfold base_logpdf, omem, dmem. rewrite H. reflexivity. }
  destruct d as [s|s|s|s|s|s]; cbn [dist_logpdf dist_o kind_of dist_data] in *;
    [|unfold cat_logpdf|unfold ber_logpdf|unfold poi_logpdf|unfold nrm_logpdf|unfold nuc_logpdf];
    try (rewrite B by exact L; reflexivity).
  assert (SI := crp_support_In s (trunc x) D).
  assert (LC := lookup_cdata s r). unfold dist_data in LC. rewrite L in LC.
  unfold crp_logpdf. cbn [keys map fst]. rewrite eqb_refl. cbn [oassert obind]. rewrite lookup_cons_eq.
  destruct (lookup r (crp_data s)) as [y|] eqn:Y; [|discriminate]. injection LC as ->.
  destruct (eq_dec (vz (trunc x)) (vz y)) as [E|E].
  - apply vz_inj in E. subst y. replace (memb (trunc x) (crp_support s)) with true.
    + cbn. rewrite Z.eqb_refl. reflexivity.
    + symmetry. apply memb_In. apply SI. left. exists r. apply lookup_In. exact L.
  - replace (y =? trunc x) with false; [destruct (negb _); reflexivity|]. symmetry. apply Z.eqb_neq. congruence.
Qed.
