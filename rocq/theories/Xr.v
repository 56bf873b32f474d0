(** Extended log-densities: reals with IEEE infinities and NaN, and the
    log-domain helpers of [cgpm.utils.general]. *)
From Coq Require Import List ZArith QArith Qcanon Qreals Reals Bool.
From Verif Require Import Base.
Import ListNotations.
Local Open Scope R_scope.

(** What logpdf returns: a float, with infinities and NaN (src/crp.py:65, 71; src/icgpm.py:57). *)
Inductive xr := Fin (r : R) | NInf | PInf | XNan.

(** IEEE 754 addition (exact on finite values) (src/finite_rowmix.py:169). *)
Definition xadd (a b : xr) : xr :=
  match a, b with
  | XNan, _ => XNan
  | _, XNan => XNan
  | Fin x, Fin y => Fin (x + y)
  | Fin _, i => i
  | i, Fin _ => i
  | NInf, NInf => NInf
  | PInf, PInf => PInf
  | NInf, PInf => XNan
  | PInf, NInf => XNan
  end.

(** IEEE 754 negation (src/crp.py:71). *)
Definition xneg (a : xr) : xr :=
  match a with Fin x => Fin (- x) | NInf => PInf | PInf => NInf | XNan => XNan end.

(** IEEE 754 subtraction (src/finite_rowmix.py:100). *)
Definition xsub (a b : xr) : xr := xadd a (xneg b).

(** Python's [sum] of a list of floats (exact arithmetic, so the association
    order is immaterial) (src/product.py:40). *)
Definition xsum (l : list xr) : xr := fold_right xadd (Fin 0) l.

(** [exp] of a log density; only meaningful for finite values and -inf
    (used by the cgpm helpers logsumexp and log_pflip, src/finite_rowmix.py:12-14). *)
Definition xexp (a : xr) : R := match a with Fin x => exp x | _ => 0 end.

(** Is the float finite? (The test inside log_pflip, src/crp.py:81.) *)
Definition is_fin (a : xr) : bool := match a with Fin _ => true | _ => false end.
(** Is it NaN or +inf? (The test inside log_pflip, src/crp.py:81.) *)
Definition is_bad (a : xr) : bool := match a with XNan | PInf => true | _ => false end.

(** Sum of a list of reals (numpy.sum inside log_pflip, src/crp.py:81). *)
Definition rsum (l : list R) : R := fold_right Rplus 0 l.
(** Product of a list of reals (used in statements about src/crp.py:86-87). *)
Definition rprod (l : list R) : R := fold_right Rmult 1 l.

(** cgpm.utils.general.logsumexp (src/finite_rowmix.py:13): log of the sum of
    exponentials; -inf when every term is -inf; NaN propagates. *)
Definition logsumexp (l : list xr) : xr :=
  if existsb (fun a => match a with XNan => true | _ => false end) l then XNan
  else if existsb (fun a => match a with PInf => true | _ => false end) l then PInf
  else if existsb is_fin l then Fin (ln (rsum (map xexp l)))
  else NInf.

(** cgpm.utils.general.log_normalize (src/finite_rowmix.py:11). *)
Definition log_normalize (l : list xr) : list xr :=
  map (fun a => xsub a (logsumexp l)) l.

(** cgpm.utils.general.logmeanexp (src/chain.py:23). *)
Definition logmeanexp (l : list xr) : xr :=
  xsub (logsumexp l) (Fin (ln (INR (List.length l)))).

(** Elementwise [np.add] on two lists of the same length (src/finite_rowmix.py:157, 163). *)
Definition xadds (a b : list xr) : list xr := map (fun p => xadd (fst p) (snd p)) (combine a b).

(** Real value of an exact rational (e.g. src/normal.py:182-188). *)
Definition qr (q : Qc) : R := Q2R (this q).

(** [math.log] of an exact number: ValueError (math domain error) unless positive
    (src/normal.py:186-187). *)
Definition pylog (q : Qc) : out R :=
  if qltb 0%Qc q then Ok (ln (qr q)) else Err ValueError.
