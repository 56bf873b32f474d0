(** The loop that schedules the kernels of inference: src/progress.py. *)
From Coq Require Import List ZArith QArith Qcanon Reals Bool String.
From Verif Require Import Base Xr Samp Prims Hypers.
Import ListNotations.
Local Open Scope Z_scope.

(** A call without arguments that may change a state and may raise (src/progress.py:41). *)
Definition kernel (St : Type) : Type := St -> samp (St * out unit).

(** Division of floats: ZeroDivisionError (src/progress.py:20, 24). *)
Definition qdiv (a b : Qc) : out Qc := if Qc_eq_dec b 0%Qc then Err ZeroDivisionError else Ok (a / b)%Qc.

(** src/progress.py:16-25 proportion_done. [N] may be any number. [elapsed] is
    [time.time() - start]. Floats are rational. *)
Definition proportion_done (N S : option Qc) (iters : nat) (elapsed : Qc) : out Qc :=
  do p_seconds <- match S with None => Ok 0%Qc | Some s => qdiv elapsed s end;
  do p_iters <- match N with None => Ok 0%Qc | Some n => qdiv (nq iters) n end;
  Ok (if qltb p_iters p_seconds then p_seconds else p_iters).

(** The [for] loop of src/progress.py:35-43; the result is whether it ended by [break]. The
    clock is any function from the number of the reading to the time read; reading 0 is
    [start], and [t] readings have been made. report_progress (line 38), which only writes to
    stdout, is left out. *)
Fixpoint run_pass {St} (clock : nat -> Qc) (N S : option Qc) (iters t : nat) (kernels : list (kernel St)) (s : St)
  : samp (St * out bool) :=
  match kernels with
  | [] => Ret (s, Ok false)
  | k :: rest =>
    match proportion_done N S iters (clock t - clock O)%Qc with
    | Err e => Ret (s, Err e)
    | Ok p =>
      if qltb p 1%Qc then
        let! r := k s in
        match snd r with
        | Err e => Ret (fst r, Err e)
        | Ok _ => run_pass clock N S iters (Datatypes.S t) rest (fst r)
        end
      else Ret (s, Ok true)
    end
  end.

(** The [while] loop of src/progress.py:34-45, with at most [fuel] passes. *)
Fixpoint run_passes {St} (fuel : nat) (clock : nat -> Qc) (N S : option Qc) (iters t : nat) (kernels : list (kernel St)) (s : St)
  : samp (St * out unit) :=
  match fuel with
  | O => Ret (s, Err OutOfFuel)
  | Datatypes.S fuel' =>
    let! r := run_pass clock N S iters t kernels s in
    match snd r with
    | Err e => Ret (fst r, Err e)
    | Ok true => Ret (fst r, Ok tt)
    | Ok false => run_passes fuel' clock N S (Datatypes.S iters) (t + List.length kernels) kernels (fst r)
    end
  end.

(** src/progress.py:27-48 transition_generic; the messages on stdout (lines 30-31, 37-38,
    46-48) are left out. *)
Definition transition_generic {St} (fuel : nat) (clock : nat -> Qc) (kernels : list (kernel St)) (N S : option Qc) (s : St)
  : samp (St * out unit) :=
  let N' := match N, S with None, None => Some 1%Qc | _, _ => N end in
  match kernels with
  | [] => Ret (s, Ok tt)
  | _ => run_passes fuel clock N' S 0 1 kernels s
  end.
