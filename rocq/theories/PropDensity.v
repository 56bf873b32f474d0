(** C65, C66: answers of logpdf are probability densities; integrating or summing a column
    out of an answer leaves the answer without it. *)
From Coq Require Import List ZArith QArith Qcanon Reals Bool String Permutation Lia Lra.
From Coquelicot Require Import Coquelicot.
From Verif Require Import Base Xr Samp Lgamma Prims Cgpm Lib SpecPrims PrimsInv PrimsDens PrimsThm2
  SpecComp CompInv CompDens CompThm PropPrims DemoComp Regress SpecRegress RegressThm RegressThm2 RegressThm5 PropRegress PropRegress2
  SpecWalks WalksThm SpecDensity Integral Integral2 Marginal Marginal2.
Import ListNotations.
Local Open Scope Z_scope.

Lemma inner_comm : forall u v, SpecRegress.inner u v = SpecRegress.inner v u.
Proof. induction u as [|x u IH]; intros [|y v]; cbn [SpecRegress.inner]; try reflexivity. rewrite IH. ring. Qed.

(** ** C65 *)

(** What Normal answers for a row not on record is the logarithm of a density: positive,
    continuous and with integral 1, whatever rows it has seen. *)
Theorem C65_normal : forall s rid, reachable (DNrm s) -> unrecorded rid (dist_data (DNrm s)) ->
  log_density (fun q => dist_logpdf (DNrm s) rid [(dist_o (DNrm s), VQ q)] [] []).
Proof. intros s rid X U. apply real_logpdf; [apply reachable_dinv; exact X|exact Logic.I|exact U]. Qed.
Print Assumptions C65_normal.

Theorem C65_normal_uc : forall s rid, reachable (DNuc s) -> unrecorded rid (dist_data (DNuc s)) ->
  log_density (fun q => dist_logpdf (DNuc s) rid [(dist_o (DNuc s), VQ q)] [] []).
Proof. intros s rid X U. apply real_logpdf; [apply reachable_dinv; exact X|exact Logic.I|exact U]. Qed.
Print Assumptions C65_normal_uc.

(** What LinearRegression answers given inputs it can code is the logarithm of a density. *)
Theorem C65_linreg : forall g0 g rows coded, fresh_linreg g0 ->
  proper (Z.to_nat (code_length (lr_table g0))) (lr_a g0) (lr_b g0) (lr_mu g0) (lr_V g0) ->
  observe_rows g0 rows = Some g -> Forall2 (coded_row (lr_table g0)) rows coded ->
  forall rid inp y, omem rid (t_data (lr_table g)) = false -> process_inputs dummy_code_linreg (lr_table g0) inp = Ok (map VQ y) ->
  log_density (fun q => linreg_logpdf g rid [(t_out (lr_table g0), VQ q)] [] inp).
Proof.
  intros g0 g rows coded F PR OB CO rid inp y NR PI.
  destruct (C64_predictive g0 g rows coded F PR OB CO) as (po & IP & LP).
  destruct IP as (PA & PB & _ & (_ & _ & SY & _) & _).
  destruct (LP rid inp y 0%Qc NR PI) as (z & LZ & EZ & PZ & _).
  assert (S2 : (0 < po_b po / po_a po * (1 + SpecRegress.inner (map qr y) z))%R) by (apply Rmult_lt_0_compat; [apply Rdiv_lt_0_compat|]; lra).
  exists (student_t (2 * po_a po) (SpecRegress.inner (map qr y) (po_mu po)) (po_b po / po_a po * (1 + SpecRegress.inner (map qr y) z))).
  split; [intros x; apply student_good; lra|]. split; [apply student_integral; lra|].
  intros q. destruct (LP rid inp y q NR PI) as (z' & LZ' & EZ' & _ & E). rewrite E.
  assert (X := SY z' z LZ' LZ). rewrite EZ, EZ' in X. rewrite (inner_comm z'), (inner_comm z) in X. rewrite X. reflexivity.
Qed.
Print Assumptions C65_linreg.

(** A Normal with two rows; the regression of [C64_case]. *)
Example C65_case : log_density (fun q => dist_logpdf demo_nrm (Some 3) [(7, VQ q)] [] []) /\
  log_density (fun q => linreg_logpdf demo_linreg (Some 8) [(t_out (lr_table demo_new), VQ q)] [] (demo_inputs 1 1)).
Proof.
  split.
  - apply (C65_normal (match demo_nrm with DNrm s => s | _ => nrm0 end) (Some 3)); [apply demo_nrm_reachable|cbn; intuition lia].
  - destruct C64_case as (F & P & OB & CO & NR & PI). exact (C65_linreg _ _ _ _ F P OB CO _ _ _ NR PI).
Qed.

(** ** C66 *)

(** Integrating a column of real numbers out of the answers of a view, of a state or of any
    nesting whose components allow the constraints leaves the answer without the column;
    with no other target, the answers are a density in that column given the constraints. *)
Theorem C66_real : forall m o rid T C, grown m -> view m \/ state m \/ solid m C -> unknown m rid ->
  modelled o real_column m -> In o (outputs m) -> ~ In o (keys (T ++ C)) ->
  labelled m (T ++ C) -> disjoint_rows T C -> (forall k, In k (keys (T ++ C)) -> In k (outputs m)) -> (0 < dens m C)%R ->
  exists f t, (forall x, (0 <= f x)%R /\ continuous f x) /\ integral f (xexp t) /\
    (forall q, exists l, logpdf m rid ((o, VQ q) :: T) C [] = Ok l /\ xexp l = f (qr q)) /\
    (T = [] -> t = Fin 0) /\ (T <> [] -> logpdf m rid T C [] = Ok t).
Proof. intros m o rid T C G V U MO HO NO LB DJ K P. apply real_answers; auto using grown_wf, solid_of. Qed.
Print Assumptions C66_real.

(** Summing a column of counts out. *)
Theorem C66_count : forall m o rid T C, grown m -> view m \/ state m \/ solid m C -> unknown m rid ->
  modelled o count_column m -> In o (outputs m) -> ~ In o (keys (T ++ C)) ->
  labelled m (T ++ C) -> disjoint_rows T C -> (forall k, In k (keys (T ++ C)) -> In k (outputs m)) -> (0 < dens m C)%R ->
  exists l t, (forall n : nat, logpdf m rid ((o, vz (Z.of_nat n)) :: T) C [] = Ok (l n)) /\ infinite_sum (fun n => xexp (l n)) (xexp t) /\
    (T = [] -> t = Fin 0) /\ (T <> [] -> logpdf m rid T C [] = Ok t).
Proof. intros m o rid T C G V U MO HO NO LB DJ K P. apply count_answers; auto using grown_wf, solid_of. Qed.
Print Assumptions C66_count.

(** Summing a column of at most [k] categories out. *)
Theorem C66_category : forall k m o rid T C, grown m -> view m \/ state m \/ solid m C -> unknown m rid ->
  modelled o (category_column (Z.of_nat k)) m -> In o (outputs m) -> ~ In o (keys (T ++ C)) ->
  labelled m (T ++ C) -> disjoint_rows T C -> (forall k, In k (keys (T ++ C)) -> In k (outputs m)) -> (0 < dens m C)%R ->
  exists l t, (forall z, logpdf m rid ((o, vz z) :: T) C [] = Ok (l z)) /\ rsum (map (fun z => xexp (l z)) (zrange k)) = xexp t /\
    (T = [] -> t = Fin 0) /\ (T <> [] -> logpdf m rid T C [] = Ok t).
Proof. intros k m o rid T C G V U MO HO NO LB DJ K P. apply category_answers; auto using grown_wf, solid_of. Qed.
Print Assumptions C66_category.

(** A test for [modelled]. *)
Fixpoint modelledb (o : Z) (P : dist -> bool) (c : cgpm) : bool :=
  match c with
  | CDist d => negb (dist_o d =? o) || P d
  | CProd cs => forallb (modelledb o P) cs
  | CFinArr _ cs _ => forallb (modelledb o P) cs
  | CFlexArr _ base cs _ => modelledb o P base && forallb (fun p => let '(_, c') := p in modelledb o P c') cs
  | CMix _ div arr _ => negb (dist_o div =? o) && modelledb o P arr
  end.

Lemma modelledb_ok : forall o (P : dist -> Prop) Pb c, (forall d, Pb d = true -> P d) -> modelledb o Pb c = true -> modelled o P c.
Proof.
  intros o P Pb c X. induction c as [d|cs IH|ix cs m IH|ix b cs m IHb IH|flex div arr m IH] using cgpm_ind_In; cbn [modelledb modelled].
  - rewrite orb_true_iff, negb_true_iff, Z.eqb_neq. intros [N|Y] E; [contradiction|auto].
  - rewrite forallb_forall, each_In. auto.
  - rewrite forallb_forall, each_In. auto.
  - rewrite andb_true_iff, forallb_forall, each_In. intros [Y Z]. split; [auto|]. intros [k c] Hk. eapply IH; eauto. apply (Z (k, c) Hk).
  - rewrite andb_true_iff, negb_true_iff, Z.eqb_neq. intros [Y Z]. auto.
Qed.

(** A view with a Normal, a Poisson and a Categorical column, and two rows in two clusters. *)
Definition mixed_base : cgpm := CProd [CDist (DNrm (mkNrm 5 [] 0 0%Qc 0%Qc 0%Qc 1%Qc PropPrims.half 1%Qc)); CDist (DPoi (mkPoi 7 [] 0 0%Qc 0%R 1%Qc PropPrims.half)); CDist cat1].
Definition mixed_view1 : cgpm := state_of (observe (new_flexmix crp9 mixed_base) 0 [(9, vz 0); (5, VQ PropPrims.half); (7, vz 2); (1, vz 2)] []).
Definition mixed_view : cgpm := state_of (observe mixed_view1 1 [(9, vz 1); (5, vz (-2)); (1, vz 0)] []).

Lemma mixed_reachable : creachable mixed_view /\ view mixed_view.
Proof.
  split; [|apply viewb_ok; lazy; reflexivity].
  unfold mixed_view, mixed_view1. repeat (apply step_reachable; [|lazy; reflexivity]).
  apply (cr_flexible crp9 mixed_base [0]); [exact crp9_reachable|vm_compute; reflexivity| |cbn; intuition lia].
  apply (cr_product [CDist (DNrm (mkNrm 5 [] 0 0%Qc 0%Qc 0%Qc 1%Qc PropPrims.half 1%Qc)); CDist (DPoi (mkPoi 7 [] 0 0%Qc 0%R 1%Qc PropPrims.half)); CDist cat1]); [|reflexivity].
  intros c [<-|[<-|[<-|[]]]]; constructor; [| |exact cat1_reachable].
  - exists (DNrm (mkNrm 5 [] 0 0%Qc 0%Qc 0%Qc 1%Qc PropPrims.half 1%Qc)), []. split; [|reflexivity]. apply (fresh_nrm 5 0%Qc 1%Qc PropPrims.half 1%Qc). reflexivity.
  - exists (DPoi (mkPoi 7 [] 0 0%Qc 0%R 1%Qc PropPrims.half)), []. split; [|reflexivity]. apply (fresh_poi 7 1%Qc PropPrims.half). reflexivity.
Qed.

Example C66_case :
  (exists f t, (forall x, (0 <= f x)%R /\ continuous f x) /\ integral f (xexp t) /\
    (forall q, exists l, logpdf mixed_view (Some 6) [(5, VQ q); (7, vz 3)] [(1, vz 2)] [] = Ok l /\ xexp l = f (qr q)) /\
    logpdf mixed_view (Some 6) [(7, vz 3)] [(1, vz 2)] [] = Ok t) /\
  (exists l, (forall n : nat, logpdf mixed_view None [(7, vz (Z.of_nat n))] [(5, vz 1); (9, vz 1)] [] = Ok (l n)) /\ infinite_sum (fun n => xexp (l n)) 1) /\
  (exists l t, (forall z, logpdf mixed_view None [(1, vz z); (5, vz 4)] [] [] = Ok (l z)) /\ rsum (map (fun z => xexp (l z)) [0; 1; 2]) = xexp t /\
    logpdf mixed_view None [(5, vz 4)] [] [] = Ok t).
Proof.
  destruct mixed_reachable as [RC V]. assert (RE := creachable_grown _ RC). assert (W := grown_wf _ RE).
  assert (OU : outputs mixed_view = [9; 5; 7; 1]) by (vm_compute; reflexivity).
  assert (PL : forall S, plausibleb mixed_view S = true -> (0 < dens mixed_view S)%R /\ solid mixed_view S /\ labelled mixed_view S) by (intros S X; apply plausible_good; [exact W|apply plausibleb_ok; exact X]).
  assert (MR : modelled 5 real_column mixed_view).
  { apply (modelledb_ok 5 _ (fun d => match d with DNrm _ => true | _ => false end)); [intros []; cbn; auto; discriminate|vm_compute; reflexivity]. }
  assert (MC : modelled 7 count_column mixed_view).
  { apply (modelledb_ok 7 _ (fun d => match d with DPoi _ => true | _ => false end)); [intros []; cbn; auto; discriminate|vm_compute; reflexivity]. }
  assert (MK : modelled 1 (category_column (Z.of_nat 3)) mixed_view).
  { apply (modelledb_ok 1 _ (fun d => match d with DCat s => cat_k s <=? 3 | _ => false end)); [|vm_compute; reflexivity].
    intros []; try discriminate. apply Z.leb_le. }
  assert (P1 : plausibleb mixed_view ([(7, vz 3)] ++ [(1, vz 2)]) = true) by (vm_compute; reflexivity).
  assert (P2 : plausibleb mixed_view [(1, vz 2)] = true) by (vm_compute; reflexivity).
  assert (P3 : plausibleb mixed_view [(5, vz 1); (9, vz 1)] = true) by (vm_compute; reflexivity).
  assert (P4 : plausibleb mixed_view [(5, vz 4)] = true) by (vm_compute; reflexivity).
  assert (P5 : plausibleb mixed_view [] = true) by (vm_compute; reflexivity).
  assert (U6 : unknown mixed_view (Some 6)) by (vm_compute; intuition discriminate).
  assert (U0 : unknown mixed_view None) by (vm_compute; tauto).
  clear RC. revert V RE W OU PL MR MC MK P1 P2 P3 P4 P5 U6 U0. generalize mixed_view as m. intros.
  split; [|split].
  - destruct (C66_real m 5 (Some 6) [(7, vz 3)] [(1, vz 2)]) as (f & t & A & B & D & _ & E); auto; try (rewrite OU; cbn; intuition lia); try (apply PL; assumption).
    + cbn. intuition lia.
    + repeat constructor; cbn; intuition lia.
    + exists f, t. split; [exact A|]. split; [exact B|]. split; [exact D|]. apply E. discriminate.
  - destruct (C66_count m 7 None [] [(5, vz 1); (9, vz 1)]) as (l & t & A & B & D & _); auto; try (rewrite OU; cbn; intuition lia); try (apply PL; assumption).
    + cbn. intuition lia.
    + repeat constructor; cbn; intuition lia.
    + exists l. split; [exact A|]. rewrite (D eq_refl) in B. cbn [xexp] in B. rewrite exp_0 in B. exact B.
  - destruct (C66_category 3 m 1 None [(5, vz 4)] []) as (l & t & A & B & _ & D); auto; try (rewrite OU; cbn; intuition lia); try (apply PL; assumption).
    + cbn. intuition lia.
    + repeat constructor; cbn; intuition lia.
    + exists l, t. split; [exact A|]. split; [exact B|]. apply D. discriminate.
Qed.
