(** What a sample of a row may look like, independent of how samples are drawn. *)
From Coq Require Import List ZArith QArith Qcanon Reals Bool String Permutation.
From Verif Require Import Base Xr Samp Lgamma Prims Cgpm SpecPrims SpecComp.
Import ListNotations.
Local Open Scope Z_scope.

(** The value recorded for the row, if any. *)
Definition on_record {V} (rid : option Z) (data : dict Z V) : option V :=
  match rid with None => None | Some r => lookup r data end.

(** A sampled cell: the recorded value of a recorded row (unless recorded as missing), else
    a value (not missing) the primitive would accept; tables are whole numbers. *)
Definition cell_ok (d : dist) (rid : option Z) (x : val) : Prop :=
  match on_record rid (dist_data d) with
  | Some (VQ q) => x = VQ q
  | _ => x <> VNan /\ in_domain (kind_of d) (dist_data d) x /\ stored (kind_of d) x = x
  end.

(** [sample_ok c rid C s]: the cells of [s] are possible for the row given the
    constraints. In a mixture all of them come from the component of one cluster: the
    recorded cluster of a recorded row, else the cluster the constraints name, else one
    of the support whose log density given the constraints is finite. *)
Fixpoint sample_ok (c : cgpm) (rid : option Z) (C s : row) : Prop :=
  match c with
  | CDist d => forall x, lookup (dist_o d) s = Some x -> cell_ok d rid x
  | CProd cs => each (fun c' => cells_of (outputs c') s = [] \/ sample_ok c' rid (cells_of (outputs c') C) s) cs
  | CFinArr ix cs _ =>
      match lookup ix s with
      | Some k =>
          match py_index cs k with
          | Ok n => nth n (map (fun c' => sample_ok c' rid C s) cs) False
          | Err _ => False
          end
      | None => False
      end
  | CFlexArr ix base cs _ =>
      match lookup ix s with
      | Some z =>
          match lookup z (map (fun p => let '(k, c') := p in (k, sample_ok c' rid C s)) cs) with
          | Some P => P
          | None => sample_ok base rid C s
          end
      | None => False
      end
  | CMix flex div arr r2c =>
      exists z,
        match on_record rid r2c with
        | Some y => z = y
        | None => exists t K, z = vz t /\ dist_support div = Ok K /\ In t K /\
            match lookup (dist_o div) C with
            | Some y => z = y
            | None => exists w, logpdf (CMix flex div arr r2c) rid [(dist_o div, z)] C [] = Ok (Fin w)
            end
        end /\
        (forall x, lookup (dist_o div) s = Some x -> x = z) /\
        (cells_of (outputs arr) s = [] \/ sample_ok arr rid (cells_of (outputs arr) C) ((dist_o div, z) :: s))
  end.

(** The answer of simulate has the requested form: one sample, or a list of [n], each
    with the targets as its keys. *)
Definition well_shaped (ts : list Z) (N : option nat) (P : row -> Prop) (r : sres) : Prop :=
  match N, r with
  | None, SOne s => Permutation (keys s) ts /\ P s
  | Some n, SMany l => List.length l = n /\ forall s, In s l -> Permutation (keys s) ts /\ P s
  | _, _ => False
  end.

(** A NormalUC column with a value of the row on record is only asked for one sample: it
    ignores the number of samples. A mixture asks its components for one sample exactly
    when it is asked for one sample of a recorded row. *)
Fixpoint uc_ok (c : cgpm) (rid : option Z) (many : bool) : Prop :=
  match c with
  | CDist (DNuc s) => many = false \/ forall q, on_record rid (nuc_data s) <> Some (VQ q)
  | CDist _ => True
  | CProd cs => each (fun c' => uc_ok c' rid many) cs
  | CFinArr _ cs _ => each (fun c' => uc_ok c' rid many) cs
  | CFlexArr _ base cs _ =>
      uc_ok base rid many /\ each (fun p => let '(_, c') := p in uc_ok c' rid many) cs
  | CMix _ _ arr r2c =>
      uc_ok arr rid (match on_record rid r2c with Some _ => many | None => true end)
  end.

(** ** The law of a sample *)

(** The sample agrees with the cells [T]. *)
Definition hit (T s : row) : bool := 
  forallb (fun p => match lookup (fst p) s with Some x => eqb x (snd p) | None => false end) T.

(** 1 when the answer is a single sample, alone or as a list of one, that agrees with
    [T]; 0 otherwise. *)
Definition agrees (T : row) (r : out sres) : R :=
  match r with
  | Ok (SOne s) => if hit T s then 1 else 0
  | Ok (SMany [s]) => if hit T s then 1 else 0
  | _ => 0
  end%R.

(** The primitives of the columns [ts] are Categorical, Bernoulli or CRP. *)
Fixpoint discrete (c : cgpm) (ts : list Z) : Prop :=
  match c with
  | CDist d => In (dist_o d) ts -> exists K, dist_support d = Ok K
  | CProd cs => each (fun c' => discrete c' ts) cs
  | CFinArr _ cs _ => each (fun c' => discrete c' ts) cs
  | CFlexArr _ base cs _ => discrete base ts /\ each (fun p => let '(_, c') := p in discrete c' ts) cs
  | CMix _ _ arr _ => discrete arr ts
  end.
