(** What is expected of regressions and forests. *)
From Coq Require Import List ZArith QArith Qcanon Reals Bool String.
From Verif Require Import Base Xr Samp Prims Cgpm Regress.
Import ListNotations.
Local Open Scope Z_scope.

(** ** Legal inputs *)

(** The number of levels of an input, if it is categorical: an entry of the list given to the
    constructor, next to the input, that is neither None nor 0. *)
Inductive has_levels : list Z -> list (option Z) -> Z -> Z -> Prop :=
| here : forall i l ins ls, l <> 0 -> has_levels (i :: ins) (Some l :: ls) i l
| there : forall j o ins ls i l, has_levels ins ls i l -> has_levels (j :: ins) (o :: ls) i l.

(** A legal value of a categorical input: one of 0, ..., l - 1. *)
Definition category (l : Z) (x : val) : Prop := exists z, x = vz z /\ 0 <= z < l.

(** Every input is given, and the categorical ones have legal values. *)
Definition legal (t : table) (inp : row) : Prop :=
  forall i, In i (t_ins t) -> exists x, lookup i inp = Some x /\
    forall l, has_levels (t_ins t) (t_levels t) i l -> category l x.

(** The same where a categorical value may be missing. *)
Definition legal_or_missing (t : table) (inp : row) : Prop :=
  forall i, In i (t_ins t) -> exists x, lookup i inp = Some x /\
    forall l, has_levels (t_ins t) (t_levels t) i l -> category l x \/ (x = VNan /\ 1 <= l).

(** The number of numbers that code the inputs, the constant included: one for a number, one
    less than there are levels for a category. *)
Definition code_length (t : table) : Z :=
  1 + fold_right (fun o n => n + match o with None => 1 | Some l => if l =? 0 then 1 else l - 1 end) 0 (t_levels t).

(** ** Histories *)

(** A table a user can bring about; [code] is the coding of an input (linreg or forest). *)
Inductive kept_table (code : dict Z Z -> Z -> val -> out (list val)) : table -> Prop :=
| kept_new : forall outs ins levels t, new_table outs ins levels = Ok t -> kept_table code t
| kept_observe : forall t rid obs inp, kept_table code t -> kept_table code (fst (table_observe code t rid obs inp))
| kept_unobserve : forall t rid, kept_table code t -> kept_table code (fst (table_unobserve t rid)).

(** A history of calls of observe and unobserve on a regression. *)
Inductive used : linreg -> linreg -> Prop :=
| used_refl : forall g, used g g
| used_observe : forall g g' rid obs inp, used g g' -> used g (fst (linreg_observe g' rid obs inp))
| used_unobserve : forall g g' rid, used g g' -> used g (fst (linreg_unobserve g' rid)).

(** A regression straight from the constructor. *)
Definition fresh_linreg (g : linreg) : Prop :=
  exists outs ins levels a b mu V, new_linreg outs ins levels a b mu V = Ok g.

(** Observing a list of rows, all of which must succeed. *)
Fixpoint observe_rows (g : linreg) (rows : list (Z * row * row)) : option linreg :=
  match rows with
  | [] => Some g
  | (rid, obs, inp) :: rows' =>
      match linreg_observe g rid obs inp with
      | (g', Ok _) => observe_rows g' rows'
      | (_, Err _) => None
      end
  end.

(** A number that is no category at all: missing, negative or too large. *)
Definition out_of_range (l : Z) (x : val) : Prop :=
  x = VNan \/ exists q, x = VQ q /\ (Qclt q 0 \/ Qcle (qz l) q).

(** The log densities a regression gives to the rows of a list, each just before it is
    observed; None if one of them is not a number. *)
Fixpoint predictions (g : linreg) (rows : list (Z * row * row)) : option (list R) :=
  match rows with
  | [] => Some []
  | (rid, obs, inp) :: rows' =>
      match linreg_logpdf g (Some rid) obs [] inp with
      | Ok (Fin l) => match predictions (fst (linreg_observe g rid obs inp)) rows' with Some ls => Some (l :: ls) | None => None end
      | _ => None
      end
  end.

(** ** Bayesian linear regression *)

(** Vectors are lists of numbers, matrices lists of rows. *)
Fixpoint inner (u v : list R) : R := match u, v with x :: u', y :: v' => (x * y + inner u' v')%R | _, _ => 0%R end.
Fixpoint minus (u v : list R) : list R := match u, v with x :: u', y :: v' => (x - y)%R :: minus u' v' | _, _ => [] end.
Definition image (M : list (list R)) (v : list R) : list R := map (fun r => inner r v) M.

(** A symmetric positive definite matrix of [p] rows. *)
Definition definite (p : nat) (M : list (list R)) : Prop :=
  List.length M = p /\ (forall r, In r M -> List.length r = p) /\
  (forall u v, List.length u = p -> List.length v = p -> inner u (image M v) = inner v (image M u)) /\
  (forall v, List.length v = p -> (exists x, In x v /\ x <> 0%R) -> (0 < inner v (image M v))%R).

(** Hyperparameters of a distribution of coefficients and variance: the variance is
    inverse gamma with [a] and [b]; the coefficients are normal about [mu] with the
    covariance [V] times the variance. *)
Definition proper (p : nat) (a b : R) (mu : list R) (V : list (list R)) : Prop :=
  (0 < a)%R /\ (0 < b)%R /\ List.length mu = p /\ definite p V.

(** Their log density at the variance [s], up to a constant; [e] is the squared distance of
    the [p] coefficients from the mean, in the inverse of the covariance. *)
Definition log_kernel (p : nat) (a b e s : R) : R := (- (a + 1 + INR p / 2) * ln s - (b + e / 2) / s)%R.

(** The log density of the rows, inputs and output, given coefficients [w] and variance
    [s], up to a constant. *)
Definition log_likelihood (rows : list (list Qc * Qc)) (w : list R) (s : R) : R :=
  rsum (map (fun r => - / 2 * ln s - (qr (snd r) - inner (map qr (fst r)) w) ^ 2 / (2 * s))%R rows).

(** [po] is the posterior: its density is the prior's times the likelihood, up to a
    constant. The squared distance from the prior's mean is given by a solution [z] of
    [V z = w - mu]. *)
Definition is_posterior (p : nat) (a b : R) (mu : list R) (V : list (list R)) (rows : list (list Qc * Qc)) (po : posterior) : Prop :=
  (0 < po_a po)%R /\ (0 < po_b po)%R /\ List.length (po_mu po) = p /\ definite p (po_Vinv po) /\
  forall w z s, List.length w = p -> List.length z = p -> image V z = minus w mu -> (0 < s)%R ->
    log_kernel p (po_a po) (po_b po) (inner (minus w (po_mu po)) (image (po_Vinv po) (minus w (po_mu po)))) s =
    (log_kernel p a b (inner (minus w mu) z) s + log_likelihood rows w s)%R.

(** The rows as coded: numbers throughout. *)
Definition coded_row (t : table) (r : Z * row * row) (c : list Qc * Qc) : Prop :=
  snd (fst r) = [(t_out t, VQ (snd c))] /\ process_inputs dummy_code_linreg t (snd r) = Ok (map VQ (fst c)).

(** ** Forests *)

(** What is assumed of the classifier: it answers with distinct classes and, for any
    inputs, with one log probability for each of them. *)
Definition honest (fit : list (list val) -> list val -> out (list val * (list val -> list xr))) : Prop :=
  forall Y x classes predict, fit Y x = Ok (classes, predict) ->
    NoDup classes /\ forall y, List.length (predict y) = List.length classes /\
      (forall p, In p (predict y) -> p = NInf \/ exists r, p = Fin r) /\ rsum (map xexp (predict y)) = 1%R.

(** A forest a user can bring about, and whether it has been trained. *)
Inductive forest_state (fit : list (list val) -> list val -> out (list val * (list val -> list xr))) : bool -> forest -> Prop :=
| forest_new : forall outs ins k levels f, new_forest outs ins k levels = Ok f -> forest_state fit false f
| forest_observed : forall b f rid obs inp, forest_state fit b f -> forest_state fit b (fst (forest_observe f rid obs inp))
| forest_unobserved : forall b f rid, forest_state fit b f -> forest_state fit b (fst (forest_unobserve f rid))
| forest_trained : forall b f f', forest_state fit b f -> forest_transition fit f = (f', Ok tt) -> forest_state fit true f'.
