(** C64: regressions predict as Bayesian linear regression does. *)
From Coq Require Import List ZArith QArith Qcanon Reals Bool String Permutation Lia Lra.
From Verif Require Import Base Xr Samp Lgamma Prims Cgpm Lib SpecPrims PrimsInv Regress SpecRegress RegressThm RegressThm2 RegressThm4 RegressThm5 PropRegress.
Import ListNotations.
Local Open Scope Z_scope.

(** ** C64 *)

(** The hyperparameters computed for given rows are those of the posterior. *)
Theorem C64_posterior : forall p a b mu V rows, proper p a b mu V -> (forall r, In r rows -> List.length (fst r) = p) ->
  exists po, posterior_hypers (Z.of_nat (List.length rows)) (map (fun r => map VQ (fst r)) rows) (map (fun r => VQ (snd r)) rows) a b mu V = Ok (Some po) /\
    is_posterior p a b mu V rows po.
Proof. exact posterior_ok. Qed.
Print Assumptions C64_posterior.

(** A new row gets the density of Student's t given the posterior: twice the shape degrees
    of freedom, located at the prediction of the mean coefficients, the scale being the ratio
    of the posterior's [b] and [a] times one plus the uncertainty of the coefficients. *)
Theorem C64_predictive : forall g0 g rows coded, fresh_linreg g0 ->
  proper (Z.to_nat (code_length (lr_table g0))) (lr_a g0) (lr_b g0) (lr_mu g0) (lr_V g0) ->
  observe_rows g0 rows = Some g -> Forall2 (coded_row (lr_table g0)) rows coded ->
  exists po, is_posterior (Z.to_nat (code_length (lr_table g0))) (lr_a g0) (lr_b g0) (lr_mu g0) (lr_V g0) coded po /\
    forall rid inp y x, omem rid (t_data (lr_table g)) = false -> process_inputs dummy_code_linreg (lr_table g0) inp = Ok (map VQ y) ->
      exists z, List.length z = Z.to_nat (code_length (lr_table g0)) /\ image (po_Vinv po) z = map qr y /\ (0 <= inner (map qr y) z)%R /\
        linreg_logpdf g rid [(t_out (lr_table g0), VQ x)] [] inp =
        Ok (Fin (ln (student_t (2 * po_a po) (inner (map qr y) (po_mu po)) (po_b po / po_a po * (1 + inner (map qr y) z)) (qr x)))).
Proof.
  intros g0 g rows coded F PR O C. destruct (regression_ok g0 g rows coded F PR O C) as (po & IP & _ & _ & LP). exists po. auto.
Qed.
Print Assumptions C64_predictive.

(** The score is always a number, the sum of the predictions made along the way. *)
Theorem C64_score : forall g0 g rows coded, fresh_linreg g0 ->
  proper (Z.to_nat (code_length (lr_table g0))) (lr_a g0) (lr_b g0) (lr_mu g0) (lr_V g0) ->
  observe_rows g0 rows = Some g -> Forall2 (coded_row (lr_table g0)) rows coded ->
  exists ls, predictions g0 rows = Some ls /\ linreg_score g = Ok (Fin (rsum ls)).
Proof. exact score_ok. Qed.
Print Assumptions C64_score.

(** The hyperparameters taken by default are proper. *)
Theorem C64_default : forall outs ins levels g, new_linreg outs ins levels None None None None = Ok g ->
  proper (Z.to_nat (code_length (lr_table g))) (lr_a g) (lr_b g) (lr_mu g) (lr_V g).
Proof. exact default_proper. Qed.
Print Assumptions C64_default.

(** A regression on a number and a category of three levels, with two rows. *)
Example C64_case : fresh_linreg demo_new /\
  proper (Z.to_nat (code_length (lr_table demo_new))) (lr_a demo_new) (lr_b demo_new) (lr_mu demo_new) (lr_V demo_new) /\
  observe_rows demo_new demo_rows = Some demo_linreg /\
  Forall2 (coded_row (lr_table demo_new)) demo_rows [([1; qz 2; 1; 0]%Qc, qz 5); ([1; qz 3; 0; 0]%Qc, qz 4)] /\
  omem (Some 8) (t_data (lr_table demo_linreg)) = false /\
  process_inputs dummy_code_linreg (lr_table demo_new) (demo_inputs 1 1) = Ok (map VQ [1; 1; 0; 1]%Qc).
Proof.
  split; [exact demo_fresh|]. split; [apply (default_proper [0] [1; 2] [None; Some 3]); reflexivity|]. split; [reflexivity|].
  split; [repeat constructor|]. split; reflexivity.
Qed.
