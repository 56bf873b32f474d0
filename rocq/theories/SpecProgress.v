(** Specification of the scheduling of kernels. *)
From Coq Require Import List ZArith QArith Qcanon Reals Bool String.
From Verif Require Import Base Xr Samp Prims Hypers Progress.
Import ListNotations.
Local Open Scope Z_scope.

(** Running kernels one after the other, until one raises. *)
Fixpoint run_all {St} (ks : list (kernel St)) (s : St) : samp (St * out unit) :=
  match ks with
  | [] => Ret (s, Ok tt)
  | k :: ks' => let! r := k s in match snd r with Err e => Ret (fst r, Err e) | Ok _ => run_all ks' (fst r) end
  end.

(** The first [n] kernels of [ks, ks, ks, ...]. *)
Definition rounds {St} (ks : list (kernel St)) (n : nat) : list (kernel St) := firstn n (List.concat (repeat ks n)).

(** The quotient of [a] and [b] is at least 1. *)
Definition reached (a b : Qc) : Prop := ((0 < b /\ b <= a) \/ (b < 0 /\ a <= b))%Qc.

(** A limit that can be divided by. *)
Definition limit_ok (x : option Qc) : Prop := x <> Some 0%Qc.

(** When kernel number [j] (from 0) of the repeated list would be started, a limit has been
    reached: the number of complete passes, or the time, of which reading [j + 1] of the clock
    was made then (reading 0 at the beginning). *)
Definition finished {St} (clock : nat -> Qc) (ks : list (kernel St)) (N S : option Qc) (j : nat) : Prop :=
  (exists n, N = Some n /\ reached (nq (j / List.length ks)) n) \/
  (exists s, S = Some s /\ reached (clock (Datatypes.S j) - clock O)%Qc s).
