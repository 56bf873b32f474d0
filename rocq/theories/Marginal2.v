(** Columns of real numbers, counts and categories summed out. *)
From Coq Require Import List ZArith QArith Qcanon Reals Bool Lia Lra.
From Coquelicot Require Import Coquelicot.
From Verif Require Import Base Xr Samp Lgamma Prims Cgpm Lib SpecPrims PrimsInv PrimsDens PrimsThm2 CompInv SpecComp CompDens CompThm SpecDensity Integral Integral2 Marginal.
Import ListNotations.
Local Open Scope R_scope.

(** ** Leaves *)

Lemma count_nonneg : forall data, 0 <= count_of data.
Proof. intros. apply pos_INR. Qed.

Lemma real_leaf : forall d, dinv d -> real_column d -> exists f, (forall x, 0 < f x /\ continuous f x) /\ integral f 1 /\ forall q, prim_density d q = f (qr q).
Proof.
  intros d D RC. destruct d; try contradiction.
  - destruct D as (_ & _ & _ & HR & HS & HU). cbn [prim_density].
    set (data := dist_data (DNrm s)). set (n := count_of data). assert (PN : 0 <= n) by apply count_nonneg.
    set (sc := post_scale (qr (nrm_m s)) (qr (nrm_r s)) (qr (nrm_s s)) (map qr (cells data))).
    assert (SC : 0 < sc) by (eapply Rlt_le_trans; [exact HS|apply post_scale_ge; exact HR]).
    assert (S2 : 0 < sc * (qr (nrm_r s) + n + 1) / ((qr (nrm_r s) + n) * (qr (nrm_nu s) + n))).
    { apply Rdiv_lt_0_compat; [apply Rmult_lt_0_compat; lra|]. apply Rmult_lt_0_compat; lra. }
    exists (student_t (qr (nrm_nu s) + n) (post_loc (qr (nrm_m s)) (qr (nrm_r s)) (map qr (cells data))) (sc * (qr (nrm_r s) + n + 1) / ((qr (nrm_r s) + n) * (qr (nrm_nu s) + n)))).
    split; [intros x; apply student_good; lra|]. split; [apply student_integral; lra|reflexivity].
  - destruct D as (_ & _ & _ & HV). cbn [prim_density]. exists (gaussian (qr (nuc_mu s)) (qr (nuc_var s))).
    split; [intros x; apply gaussian_good; exact HV|]. split; [apply gaussian_integral; exact HV|reflexivity].
Qed.

Lemma real_logpdf : forall d rid, dinv d -> real_column d -> unrecorded rid (dist_data d) -> log_density (fun q => dist_logpdf d rid [(dist_o d, VQ q)] [] []).
Proof.
  intros d rid D RC U. destruct (real_leaf d D RC) as (f & G & N & E). exists f. split; [exact G|]. split; [exact N|].
  intros q. rewrite (logpdf_density d rid q D U), E. rewrite xlog_pos by apply G. reflexivity.
Qed.

Lemma count_leaf : forall d, dinv d -> count_column d -> infinite_sum (fun n => prim_density d (qz (Z.of_nat n))) 1.
Proof.
  intros d D CC. destruct d; try contradiction. destruct (poisson_normalised s None D Logic.I) as (f & F & N).
  assert (E : forall n, prim_density (DPoi s) (qz (Z.of_nat n)) = exp (f n)).
  { intros n. assert (X := F n). assert (Y := logpdf_density (DPoi s) None (qz (Z.of_nat n)) D Logic.I). cbn [dist_o dist_logpdf] in X, Y. unfold vz in X. rewrite Y in X. unfold xlog in X. destruct (Rlt_dec 0 _) as [L|]; [|discriminate]. injection X as <-. rewrite exp_ln by exact L. reflexivity. }
  intros eps P. destruct (N eps P) as (K & X). exists K. intros n L. specialize (X n L). unfold R_dist in *.
  rewrite (sum_eq _ (fun n => exp (f n))); [exact X|]. intros i _. apply E.
Qed.


Lemma rsum_zero : forall {A} (f : A -> R) l, (forall x, In x l -> f x = 0) -> rsum (map f l) = 0.
Proof. induction l as [|x l IH]; intros X; [reflexivity|]. change (f x + rsum (map f l) = 0). rewrite X, IH; [lra|intros; apply X; now right|now left]. Qed.

Lemma zrange_more : forall n m, (n <= m)%nat -> zrange m = zrange n ++ map Z.of_nat (seq n (m - n)).
Proof. intros n m L. unfold zrange. replace m with (n + (m - n))%nat at 1 by lia. rewrite seq_app, map_app. reflexivity. Qed.

Lemma category_leaf : forall k d, dinv d -> category_column (Z.of_nat k) d -> rsum (map (fun z => prim_density d (qz z)) (zrange k)) = 1.
Proof.
  intros k d D CC.
  assert (X : exists K n, dist_support d = Ok K /\ K = zrange n /\ (n <= k)%nat).
  { destruct d; try contradiction; cbn [category_column] in CC; cbn [dist_support].
    - eexists. exists (Z.to_nat (cat_k s)). split; [reflexivity|]. split; [reflexivity|]. lia.
    - eexists. exists 2%nat. split; [reflexivity|]. split; [reflexivity|]. lia. }
  destruct X as (K & n & SU & -> & L). assert (S1 := support_sum d _ D SU). cbn [cell_density vz] in S1. rewrite (zrange_more n k L), map_app, rsum_app, S1.
  rewrite rsum_zero; [lra|]. intros z Hz. apply in_map_iff in Hz. destruct Hz as (i & <- & Hi). apply in_seq in Hi.
  assert (NI : ~ In (Z.of_nat i) (zrange n)) by (rewrite zrange_In; lia). rewrite (support_pos d _ (Z.of_nat i) D SU) in NI. cbn [cell_density vz] in NI.
  assert (P := density_nonneg d (qz (Z.of_nat i)) D). lra.
Qed.

(** ** Averages *)

Lemma integral_plus : forall f g v w, integral f v -> integral g w -> integral (fun x => f x + g x) (v + w).
Proof.
  intros f g v w F G eps P. destruct (F (eps / 2)) as (M & X); [lra|]. destruct (G (eps / 2)) as (N & Y); [lra|]. exists (Rmax M N). intros a b A B.
  assert (L1 := Rmax_l M N). assert (L2 := Rmax_r M N).
  destruct (X a b) as (i & I1 & I2); [lra|lra|]. destruct (Y a b) as (j & J1 & J2); [lra|lra|]. exists (i + j). split; [apply (is_RInt_plus f g); assumption|].
  apply Rabs_def2 in I2. apply Rabs_def2 in J2. apply Rabs_def1; lra.
Qed.

Lemma integral_scal : forall k f v, integral f v -> integral (fun x => k * f x) (k * v).
Proof.
  intros k f v F. assert (X := scaled_integral f v k 0 1 Rlt_0_1 F). rewrite Rmult_1_r in X. eapply integral_ext; [|exact X].
  intros x. cbn. f_equal. f_equal. field.
Qed.

Lemma integral_zero : integral (fun _ => 0) 0.
Proof. intros eps P. exists 0. intros u v _ _. exists 0. split; [|rewrite Rminus_0_r, Rabs_R0; exact P]. apply (is_RInt_ext (fun _ => zero)); [reflexivity|]. replace 0 with (scal (v - u) (zero : R)) by (unfold scal; cbn; unfold mult, zero; cbn; ring). apply (is_RInt_const u v (zero : R)). Qed.

Definition by_integral (F : Qc -> R) (v : R) : Prop := exists f, (forall x, 0 <= f x /\ continuous f x) /\ integral f v /\ forall q, F q = f (qr q).
Definition by_series (F : Qc -> R) (v : R) : Prop := infinite_sum (fun n => F (qz (Z.of_nat n))) v.
Definition by_sum (k : nat) (F : Qc -> R) (v : R) : Prop := rsum (map (fun z => F (qz z)) (zrange k)) = v.

Lemma real_marginal : forall c o S, wf c -> modelled o real_column c -> In o (outputs c) -> lookup o S = None ->
  by_integral (fun q => dens c ((o, VQ q) :: S)) (dens c S).
Proof.
  intros c o S W MO HO LO. apply (marginal by_integral o real_column); try assumption.
  - intros f g v E (h & A & B & C). exists h. split; [exact A|]. split; [exact B|]. intros q. rewrite <- E. apply C.
  - intros k f v K (h & A & B & C). exists (fun x => k * h x). split; [|split; [apply integral_scal; exact B|intros q; rewrite C; reflexivity]].
    intros x. destruct (A x) as [A1 A2]. split; [apply Rmult_le_pos; assumption|]. apply (continuous_scal_r (V := R_NormedModule) k h). exact A2.
  - intros f g v w (h & A & B & C) (h' & A' & B' & C'). exists (fun x => h x + h' x). split; [|split; [apply integral_plus; assumption|intros q; rewrite C, C'; reflexivity]].
    intros x. destruct (A x) as [A1 A2]. destruct (A' x) as [A3 A4]. split; [lra|]. apply (continuous_plus h h'); assumption.
  - exists (fun _ => 0). split; [intros x; split; [lra|apply continuous_const]|]. split; [exact integral_zero|reflexivity].
  - intros d D RC. destruct (real_leaf d D RC) as (f & A & B & C). exists f. split; [intros x; destruct (A x) as [A1 A2]; split; [lra|exact A2]|]. auto.
Qed.

Lemma series_ext : forall f g v, (forall n, f n = g n) -> infinite_sum f v -> infinite_sum g v.
Proof. intros f g v E X eps P. destruct (X eps P) as (N & Y). exists N. intros n L. rewrite <- (sum_eq f g); [apply Y; exact L|auto]. Qed.

Lemma count_marginal : forall c o S, wf c -> modelled o count_column c -> In o (outputs c) -> lookup o S = None ->
  by_series (fun q => dens c ((o, VQ q) :: S)) (dens c S).
Proof.
  intros c o S W MO HO LO. apply (marginal by_series o count_column); try assumption; unfold by_series.
  - intros f g v E. apply series_ext. auto.
  - intros k f v K X. apply is_series_Reals. apply is_series_Reals in X. exact (is_series_scal (V := R_NormedModule) k _ _ X).
  - intros f g v w X Y. apply is_series_Reals. apply is_series_Reals in X. apply is_series_Reals in Y. exact (is_series_plus _ _ _ _ X Y).
  - intros eps P. exists O. intros n _. rewrite sum_eq_R0 by reflexivity. unfold R_dist. rewrite Rminus_0_r, Rabs_R0. exact P.
  - exact count_leaf.
Qed.

Lemma category_marginal : forall k c o S, wf c -> modelled o (category_column (Z.of_nat k)) c -> In o (outputs c) -> lookup o S = None ->
  by_sum k (fun q => dens c ((o, VQ q) :: S)) (dens c S).
Proof.
  intros k c o S W MO HO LO. apply (marginal (by_sum k) o (category_column (Z.of_nat k))); try assumption; unfold by_sum.
  - intros f g v E X. rewrite <- X. apply rsum_ext. auto.
  - intros a f v K <-. generalize (zrange k). induction l as [|z l IH]; [cbn; lra|]. change (a * f (qz z) + rsum (map (fun z => a * f (qz z)) l) = a * (f (qz z) + rsum (map (fun z => f (qz z)) l))). rewrite IH. lra.
  - intros f g v w <- <-. generalize (zrange k). induction l as [|z l IH]; [cbn; lra|].
    change (f (qz z) + g (qz z) + rsum (map (fun z => f (qz z) + g (qz z)) l) = f (qz z) + rsum (map (fun z => f (qz z)) l) + (g (qz z) + rsum (map (fun z => g (qz z)) l))). rewrite IH. lra.
  - apply rsum_zero. reflexivity.
  - apply category_leaf.
Qed.

(** ** Answers *)

Lemma answers_with : forall m o P rid T C, wf m -> unknown m rid -> modelled o P m -> (forall d, P d -> forall s, d <> DCrp s) ->
  labelled m (T ++ C) -> disjoint_rows T C -> ~ In o (keys (T ++ C)) -> In o (outputs m) -> (forall k, In k (keys (T ++ C)) -> In k (outputs m)) ->
  solid m C -> 0 < dens m C ->
  (forall q, logpdf m rid ((o, VQ q) :: T) C [] = Ok (xlog (dens m ((o, VQ q) :: T ++ C) / dens m C))) /\
  exists t, (T = [] -> t = Fin 0) /\ (T <> [] -> logpdf m rid T C [] = Ok t) /\ xexp t = dens m (T ++ C) / dens m C.
Proof.
  intros m o P rid T C W U MO NC LB DJ NO HO K SD PD. split.
  - intros q. apply (model_density m rid ((o, VQ q) :: T) C W U); [cbn [app]; eapply labelled_more; eauto|constructor; [exact NO|exact DJ]|discriminate| |exact SD|exact PD].
    intros k [<-|Hk]; [exact HO|apply K; exact Hk].
  - exists (xlog (dens m (T ++ C) / dens m C)). assert (NN : 0 <= dens m (T ++ C) / dens m C) by (apply Rmult_le_pos; [apply dens_nonneg; exact W|left; apply Rinv_0_lt_compat; exact PD]).
    split; [|split; [|apply xexp_xlog; exact NN]].
    + intros ->. cbn [app]. unfold Rdiv. rewrite Rinv_r by lra. apply xlog_1.
    + intros NT. apply model_density; assumption.
Qed.

Lemma not_recorded_key : forall o (S : row), ~ In o (keys S) -> lookup o S = None.
Proof. intros o S N. destruct (lookup o S) eqn:L; [|reflexivity]. exfalso. apply N. eapply lookup_Some_keys. exact L. Qed.

Lemma ratio_nonneg : forall m S C, wf m -> 0 < dens m C -> 0 <= dens m S / dens m C.
Proof. intros m S C W P. apply Rmult_le_pos; [apply dens_nonneg; exact W|left; apply Rinv_0_lt_compat; exact P]. Qed.

Lemma real_answers : forall m o rid T C, wf m -> unknown m rid -> modelled o real_column m ->
  labelled m (T ++ C) -> disjoint_rows T C -> ~ In o (keys (T ++ C)) -> In o (outputs m) -> (forall k, In k (keys (T ++ C)) -> In k (outputs m)) ->
  solid m C -> 0 < dens m C ->
  exists f t, (forall x, 0 <= f x /\ continuous f x) /\ integral f (xexp t) /\
    (forall q, exists l, logpdf m rid ((o, VQ q) :: T) C [] = Ok l /\ xexp l = f (qr q)) /\
    (T = [] -> t = Fin 0) /\ (T <> [] -> logpdf m rid T C [] = Ok t).
Proof.
  intros m o rid T C W U MO LB DJ NO HO K SD PD.
  destruct (answers_with m o real_column rid T C W U MO) as (A & t & T1 & T2 & T3); auto; [intros d X s ->; destruct X|].
  destruct (real_marginal m o (T ++ C) W MO HO (not_recorded_key _ _ NO)) as (f & F1 & F2 & F3).
  exists (fun x => / dens m C * f x), t. assert (IP : 0 < / dens m C) by (apply Rinv_0_lt_compat; exact PD). split; [|split; [|split; [|auto]]].
  - intros x. destruct (F1 x) as [X1 X2]. split; [apply Rmult_le_pos; lra|]. apply (continuous_scal_r (V := R_NormedModule) (/ dens m C) f). exact X2.
  - rewrite T3. unfold Rdiv. rewrite Rmult_comm. apply integral_scal. exact F2.
  - intros q. eexists. split; [apply A|]. rewrite xexp_xlog by (apply ratio_nonneg; assumption). rewrite F3. unfold Rdiv. apply Rmult_comm.
Qed.

Lemma count_answers : forall m o rid T C, wf m -> unknown m rid -> modelled o count_column m ->
  labelled m (T ++ C) -> disjoint_rows T C -> ~ In o (keys (T ++ C)) -> In o (outputs m) -> (forall k, In k (keys (T ++ C)) -> In k (outputs m)) ->
  solid m C -> 0 < dens m C ->
  exists l t, (forall n : nat, logpdf m rid ((o, vz (Z.of_nat n)) :: T) C [] = Ok (l n)) /\ infinite_sum (fun n => xexp (l n)) (xexp t) /\
    (T = [] -> t = Fin 0) /\ (T <> [] -> logpdf m rid T C [] = Ok t).
Proof.
  intros m o rid T C W U MO LB DJ NO HO K SD PD.
  destruct (answers_with m o count_column rid T C W U MO) as (A & t & T1 & T2 & T3); auto; [intros d X s ->; destruct X|].
  assert (F := count_marginal m o (T ++ C) W MO HO (not_recorded_key _ _ NO)). unfold by_series in F.
  eexists. exists t. split; [intros n; apply A|]. split; [|auto]. rewrite T3.
  apply (series_ext (fun n => / dens m C * dens m ((o, VQ (qz (Z.of_nat n))) :: T ++ C))).
  - intros n. cbv beta. rewrite xexp_xlog by (apply ratio_nonneg; assumption). unfold Rdiv. apply Rmult_comm.
  - unfold Rdiv. rewrite Rmult_comm. apply is_series_Reals. apply is_series_Reals in F. exact (is_series_scal (V := R_NormedModule) (/ dens m C) _ _ F).
Qed.

Lemma category_answers : forall k m o rid T C, wf m -> unknown m rid -> modelled o (category_column (Z.of_nat k)) m ->
  labelled m (T ++ C) -> disjoint_rows T C -> ~ In o (keys (T ++ C)) -> In o (outputs m) -> (forall k, In k (keys (T ++ C)) -> In k (outputs m)) ->
  solid m C -> 0 < dens m C ->
  exists l t, (forall z, logpdf m rid ((o, vz z) :: T) C [] = Ok (l z)) /\ rsum (map (fun z => xexp (l z)) (zrange k)) = xexp t /\
    (T = [] -> t = Fin 0) /\ (T <> [] -> logpdf m rid T C [] = Ok t).
Proof.
  intros k m o rid T C W U MO LB DJ NO HO K SD PD.
  destruct (answers_with m o (category_column (Z.of_nat k)) rid T C W U MO) as (A & t & T1 & T2 & T3); auto; [intros d X s ->; destruct X|].
  assert (F := category_marginal k m o (T ++ C) W MO HO (not_recorded_key _ _ NO)). unfold by_sum in F.
  eexists. exists t. split; [intros z; apply A|]. split; [|auto]. rewrite T3, <- F.
  generalize (zrange k). induction l as [|z l IH]; [cbn; unfold Rdiv; ring|].
  change (xexp (xlog (dens m ((o, VQ (qz z)) :: T ++ C) / dens m C)) + rsum (map (fun z => xexp (xlog (dens m ((o, VQ (qz z)) :: T ++ C) / dens m C))) l) =
    (dens m ((o, VQ (qz z)) :: T ++ C) + rsum (map (fun z => dens m ((o, VQ (qz z)) :: T ++ C)) l)) / dens m C).
  rewrite IH, xexp_xlog by (apply ratio_nonneg; assumption). field. lra.
Qed.

Lemma solid_of : forall m C, wf m -> view m \/ state m \/ solid m C -> solid m C.
Proof. intros m C W [V|[V|V]]; auto using solid_view, solid_state. Qed.
