(** Estimates of entropy and mutual information (src/entropy.py). *)
From Coq Require Import List ZArith QArith Qcanon Reals Bool String.
From Verif Require Import Base Xr Samp Prims Cgpm Meta Ensemble.
Import ListNotations.
Local Open Scope Z_scope.

(** A non-negative multiple of a float (used for numpy.mean and numpy.var at
    src/entropy.py:21-22): 1/n is positive, so infinities stay. *)
Definition xscale (r : R) (x : xr) : xr := match x with Fin a => Fin (r * a) | _ => x end.

(** The square of a float (numpy.var at src/entropy.py:22 averages the squares of the
    deviations). *)
Definition xsquare (x : xr) : xr := match x with Fin a => Fin (a * a) | XNan => XNan | _ => PInf end.

(** numpy.mean (src/entropy.py:21) of a list; of no numbers it is nan, with a warning. *)
Definition numpy_mean (l : list xr) : xr :=
  match l with [] => XNan | _ => xscale (/ INR (List.length l)) (xsum l) end.

(** numpy.var (src/entropy.py:22): the mean squared deviation from the mean. *)
Definition numpy_var (l : list xr) : xr :=
  numpy_mean (map (fun x => xsquare (xsub x (numpy_mean l))) l).

(** src/entropy.py:18 Estimate *)
Record estimate : Type := mkEstimate { est_mean : xr; est_variance : xr }.

(** src/entropy.py:20-23 get_estimate of a list; reals stand for floats. The list is
    never empty in calls from this file (the number of samples is at least 1). *)
Definition get_estimate (samples : list xr) : estimate :=
  mkEstimate (numpy_mean samples) (xscale (/ INR (List.length samples)) (numpy_var samples)).

(** Tests on sets of columns used at src/entropy.py:33-51: some member of the first list
    lies in the second, and equality of sets. *)
Definition meets (a b : list Z) : bool := existsb (fun k => memb k b) a.
(** Equality of the sets of two lists (src/entropy.py:50, 54, 57). *)
Definition same_set (a b : list Z) : bool := forallb (fun k => memb k b) a && forallb (fun k => memb k a) b.

(** src/entropy.py:25-51 _validate_query; [C] are the constrained columns. *)
Definition validate_query (outs t0 t1 C M : list Z) : out unit :=
  if negb (forallb (fun k => memb k outs) (t0 ++ t1 ++ C ++ M)) then Err ValueError
  else if meets (t0 ++ t1) C then Err ValueError
  else if meets (t0 ++ t1) M then Err ValueError
  else if meets C M then Err ValueError
  else if negb (same_set t0 t1) && meets t0 t1 then Err ValueError
  else Ok tt.

(** Iterating over the answer of simulate (src/entropy.py:59, 64-65): a list of samples.
    A single dict, which simulate never returns when asked for N >= 1 samples, would be
    iterated key by key and fail in logpdf. *)
Definition samples_of (r : sres) : out (list row) :=
  match r with SMany l => Ok l | SOne _ => Err TypeError end.

(** The dict comprehension {t: sample[t] for t in targets} (src/entropy.py:64-65). *)
Definition pick (ts : list Z) (sample : row) : out row :=
  omap dict_of (oseq (map (fun t => omap (fun x => (t, x)) (dget t sample)) ts)).

(** The log density of each sample given the constraints (src/entropy.py:59, 66-68). *)
Definition logps (c : cgpm) (C : row) (samples : list row) : out (list xr) :=
  oseq (map (fun s => logpdf c None s C []) samples).

(** src/entropy.py:56-60 _sample_entropy from the samples on *)
Definition entropy_of (c : cgpm) (C : row) (samples : list row) : out (list xr) :=
  omap (map xneg) (logps c C samples).

(** src/entropy.py:56-60 _sample_entropy *)
Definition sample_entropy (c : cgpm) (t0 t1 : list Z) (C : row) (N : nat) : samp (out (list xr)) :=
  if same_set t0 t1 then
    sobind (simulate c None t0 C [] (Some N)) (fun r =>
    Ret (obind (samples_of r) (entropy_of c C)))
  else Ret (Err AssertionError).

(** src/entropy.py:69 the differences pxy - px - py *)
Fixpoint differences (pxy px py : list xr) : list xr :=
  match pxy, px, py with
  | a :: pxy', b :: px', d :: py' => xsub (xsub a b) d :: differences pxy' px' py'
  | _, _, _ => []
  end.

(** src/entropy.py:64-69 _sample_mi from the samples on *)
Definition mi_of (c : cgpm) (t0 t1 : list Z) (C : row) (samples : list row) : out (list xr) :=
  obind (oseq (map (pick t0) samples)) (fun s0 =>
  obind (oseq (map (pick t1) samples)) (fun s1 =>
  obind (logps c C samples) (fun pxy =>
  obind (logps c C s0) (fun px =>
  obind (logps c C s1) (fun py => Ok (differences pxy px py)))))).

(** src/entropy.py:62-69 _sample_mi *)
Definition sample_mi (c : cgpm) (t0 t1 : list Z) (C : row) (N : nat) : samp (out (list xr)) :=
  sobind (simulate c None (t0 ++ t1) C [] (Some N)) (fun r =>
  Ret (obind (samples_of r) (mi_of c t0 t1 C))).

(** src/entropy.py:53-54 _get_estimator, applied *)
Definition estimator (c : cgpm) (t0 t1 : list Z) (C : row) (N : nat) : samp (out (list xr)) :=
  if same_set t0 t1 then sample_entropy c t0 t1 C N else sample_mi c t0 t1 C N.

(** [N or default] for a number of samples (src/entropy.py:74-75); both defaults are 100
    (src/entropy.py:15-16). *)
Definition or_default (N : option nat) : nat := match N with Some (S n) => S n | _ => 100%nat end.

(** cgpm.utils.general.merged applied to the constraints, possibly None, and a sample
    (src/entropy.py:81): None is not a mapping. *)
Definition merged_with (C : option row) (m : row) : out row :=
  match C with Some C => Ok (merged C m) | None => Err TypeError end.

(** src/entropy.py:71-86 mutual_information. Absent constraints reach simulate and logpdf
    as None, which they treat as {}. With [marginalize] the estimates are chained into an
    iterator, and get_estimate (line 22) calls len() on it: TypeError. numpy.mean of the
    iterator (line 21) already fails with the same exception. *)
Definition mutual_information (c : cgpm) (t0 t1 : list Z) (C : option row) (M : option (list Z))
    (T N : option nat) : samp (out estimate) :=
  let C' := match C with Some C => C | None => [] end in
  let M' := match M with Some M => M | None => [] end in
  match validate_query (outputs c) t0 t1 (keys C') M' with
  | Err e => Ret (Err e)
  | Ok _ =>
      match M' with
      | [] => sobind (estimator c t0 t1 C' (or_default N)) (fun l => Ret (Ok (get_estimate l)))
      | _ =>
          sobind (simulate c None M' [] [] (Some (or_default T))) (fun r =>
          match obind (samples_of r) (fun l => oseq (map (merged_with C) l)) with
          | Err e => Ret (Err e)
          | Ok Cs => sobind (soseq (map (fun C => estimator c t0 t1 C (or_default N)) Cs)) (fun _ => Ret (Err TypeError))
          end)
      end
  end.

(** src/crosscat_ensemble.py:362-367 mutual_information *)
Definition ens_mutual_information (e : ensemble) (t0 t1 : list Z) (C : option row) (M : option (list Z)) (T N : option nat)
    (multiprocess : bool) : samp (ensemble * out (list estimate)) :=
  ens_evaluate e multiprocess (fun _ c => let! r := mutual_information c t0 t1 C M T N in Ret (c, r)).
