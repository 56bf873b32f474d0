(** Basic vocabulary of the model: Python exceptions as values, dictionaries,
    cell values, and the helpers of [cgpm.utils.general] used throughout
    /repo/src.  No proofs here except decidable equality instances. *)
From Coq Require Import List ZArith QArith Qcanon Bool String Ascii.
Import ListNotations.
Local Open Scope Z_scope.

(** ** Decidable equality *)

Class EqDec (A : Type) := eq_dec : forall x y : A, {x = y} + {x <> y}.
#[global] Instance EqDec_Z : EqDec Z := Z.eq_dec.
#[global] Instance EqDec_nat : EqDec nat := Nat.eq_dec.
#[global] Instance EqDec_string : EqDec string := string_dec.
#[global] Instance EqDec_Qc : EqDec Qc := Qc_eq_dec.
#[global] Instance EqDec_list {A} `{EqDec A} : EqDec (list A) := list_eq_dec eq_dec.

(** Boolean test of decidable equality; Python's [==] on ints, strings, lists
    (src/distribution.py:37, 52). *)
Definition eqb {A} `{EqDec A} (x y : A) : bool := if eq_dec x y then true else false.

(** Python's [x in l] for a list (src/chain.py:144, src/crp.py:63). *)
Fixpoint memb {A} `{EqDec A} (x : A) (l : list A) : bool :=
  match l with
  | [] => false
  | y :: l' => if eq_dec x y then true else memb x l'
  end.

(** ** Exceptions as values *)

(** The Python exception classes raised in /repo/src (and by the builtins it
    calls). [LinAlgError] is numpy's; [OutOfFuel] is an artefact of the model and
    is proved unreachable where it occurs (e.g. src/distribution.py:34-37). *)
Inductive exn :=
| AssertionError | ValueError | KeyError | IndexError | TypeError
| ZeroDivisionError | AttributeError | LinAlgError | StopIteration | OutOfFuel.

#[global] Instance EqDec_exn : EqDec exn.
Proof. intros x y; unfold eq_dec; decide equality. Defined.

(** Result of a Python call: a value, or an exception (e.g. src/icgpm.py:38-127). *)
Inductive out (A : Type) := Ok (a : A) | Err (e : exn).
Arguments Ok {A} a.
Arguments Err {A} e.

(** Sequencing: an exception aborts the rest of the computation
    (e.g. src/distribution.py:33-37). *)
Definition obind {A B} (m : out A) (f : A -> out B) : out B :=
  match m with Ok a => f a | Err e => Err e end.
Notation "'do' x <- m ; k" := (obind m (fun x => k))
  (at level 60, x name, m at level 50, right associativity).

(** A function applied to the result of a call that may raise (e.g. src/product.py:40). *)
Definition omap {A B} (f : A -> B) (m : out A) : out B :=
  match m with Ok a => Ok (f a) | Err e => Err e end.

(** A Python list comprehension whose element expression may raise
    (e.g. src/product.py:33-34). *)
Fixpoint oseq {A} (l : list (out A)) : out (list A) :=
  match l with
  | [] => Ok []
  | Ok a :: l' => match oseq l' with Ok r => Ok (a :: r) | Err e => Err e end
  | Err e :: _ => Err e
  end.

(** Python's [assert b] (src/distribution.py:36). *)
Definition oassert (b : bool) : out unit := if b then Ok tt else Err AssertionError.

(** Did the call return? (The test made by the try of src/chain.py:171-174.) *)
Definition is_ok {A} (m : out A) : bool := match m with Ok _ => true | Err _ => false end.

(** ** Dictionaries *)

(** dict / OrderedDict: association list in insertion order. Plain Python 2 dicts
    have no defined order; the model fixes insertion order (simplification)
    (src/crp.py:33, src/flexible_array.py:25). *)
Definition dict (K V : Type) := list (K * V).

(** [d.get(k)], None when absent (e.g. src/linreg.py:89). *)
Fixpoint lookup {K V} `{EqDec K} (k : K) (d : dict K V) : option V :=
  match d with
  | [] => None
  | (k', v) :: d' => if eq_dec k k' then Some v else lookup k d'
  end.

(** [d.keys()] (src/distribution.py:37). *)
Definition keys {K V} (d : dict K V) : list K := map fst d.
(** [d.values()] (src/crp.py:87). *)
Definition values {K V} (d : dict K V) : list V := map snd d.

(** [k in d] (src/distribution.py:34) *)
Definition dmem {K V} `{EqDec K} (k : K) (d : dict K V) : bool :=
  match lookup k d with Some _ => true | None => false end.

(** [d[k] = v]: replaces in place, else appends (src/crp.py:46). *)
Fixpoint dset {K V} `{EqDec K} (k : K) (v : V) (d : dict K V) : dict K V :=
  match d with
  | [] => [(k, v)]
  | (k', v') :: d' => if eq_dec k k' then (k, v) :: d' else (k', v') :: dset k v d'
  end.

(** [del d[k]] (when present) (src/flexible_array.py:49). *)
Fixpoint ddel {K V} `{EqDec K} (k : K) (d : dict K V) : dict K V :=
  match d with
  | [] => []
  | (k', v') :: d' => if eq_dec k k' then d' else (k', v') :: ddel k d'
  end.

(** [d[k]]: KeyError when absent (src/finite_rowmix.py:173). *)
Definition dget {K V} `{EqDec K} (k : K) (d : dict K V) : out V :=
  match lookup k d with Some v => Ok v | None => Err KeyError end.

(** cgpm.utils.general.merged (imported at src/chain.py:24, src/finite_rowmix.py:14):
    left-to-right dict.update into a fresh dict. *)
Definition merged {K V} `{EqDec K} (a b : dict K V) : dict K V :=
  fold_left (fun d kv => dset (fst kv) (snd kv) d) b
    (fold_left (fun d kv => dset (fst kv) (snd kv) d) a []).

(** cgpm.utils.general.mergedl (src/chain.py:25, src/product.py:13). *)
Definition mergedl {K V} `{EqDec K} (ds : list (dict K V)) : dict K V :=
  fold_left (fun acc d => fold_left (fun d' kv => dset (fst kv) (snd kv) d') d acc) ds [].

(** cgpm.utils.general.get_intersection (src/product.py:10) on a dict: the entries whose
    key is in [left]. [None] and the empty dict are identified (an empty result). *)
Definition interd {V} (left : list Z) (right : dict Z V) : dict Z V :=
  filter (fun kv => memb (fst kv) left) right.

(** cgpm.utils.general.get_intersection (src/product.py:10) on a list. *)
Definition interl (left right : list Z) : list Z :=
  filter (fun k => memb k left) right.

(** ** Cell values *)

(** A cell: NaN (missing) or an exact rational. Simplification: ints and floats are
    identified, arithmetic is exact, infinities are excluded (src/categorical.py:45-48). *)
Inductive val := VNan | VQ (q : Qc).

#[global] Instance EqDec_val : EqDec val.
Proof. intros x y; unfold eq_dec; decide equality; apply Qc_eq_dec. Defined.

(** An int as a number (e.g. src/normal.py:191). *)
Definition qz (z : Z) : Qc := Q2Qc (inject_Z z).
(** An int as a cell (e.g. src/crp.py:55). *)
Definition vz (z : Z) : val := VQ (qz z).

(** Python's [x % 1 == 0] for a finite number (src/categorical.py:46). *)
Definition is_int (q : Qc) : bool := Pos.eqb (Qden (this q)) 1.

(** Python's [int(x)] for a finite number: truncation toward zero (src/crp.py:40). *)
Definition trunc (q : Qc) : Z := Z.quot (Qnum (this q)) (Zpos (Qden (this q))).

(** Python comparisons of numbers (src/categorical.py:46). *)
Definition qltb (a b : Qc) : bool := if Qclt_le_dec a b then true else false.
(** [a <= b] (src/categorical.py:46). *)
Definition qleb (a b : Qc) : bool := negb (qltb b a).

(** [isnan(x)] (src/categorical.py:45). *)
Definition isnan (v : val) : bool := match v with VNan => true | VQ _ => false end.

(** A row of cells: observation / targets / constraints / inputs dictionaries
    (src/icgpm.py:38-57). *)
Definition row := dict Z val.

(** Python list indexing [l[i]] with a number: negative indices count from the end;
    IndexError out of range; TypeError for a non-integer (src/finite_array.py:26-27). *)
Definition py_index {A} (l : list A) (v : val) : out nat :=
  match v with
  | VNan => Err TypeError
  | VQ q =>
      if is_int q then
        let i := trunc q in
        let n := Z.of_nat (List.length l) in
        if (0 <=? i) && (i <? n) then Ok (Z.to_nat i)
        else if (- n <=? i) && (i <? 0) then Ok (Z.to_nat (i + n))
        else Err IndexError
      else Err TypeError
  end.

(** ** Sorting and ranges of integers *)

(** Insertion into a sorted list; see [zsort] (src/crp.py:131). *)
Fixpoint zinsert (x : Z) (l : list Z) : list Z :=
  match l with
  | [] => [x]
  | y :: l' => if x <=? y then x :: l else y :: zinsert x l'
  end.

(** Python's [sorted] on a list of ints (src/crp.py:131). *)
Fixpoint zsort (l : list Z) : list Z :=
  match l with [] => [] | x :: l' => zinsert x (zsort l') end.

(** Python's [max] of a nonempty list of ints (first argument: the first element)
    (src/crp.py:132). *)
Definition zmax (x : Z) (l : list Z) : Z := fold_left Z.max l x.

(** Python's [range(n)] (src/finite_rowmix.py:27). *)
Definition zrange (n : nat) : list Z := map Z.of_nat (seq 0 n).

(** [sum] of ints (src/linreg.py:74). *)
Definition zsum (l : list Z) : Z := fold_right Z.add 0 l.
(** [sum] of numbers (src/sample_crosscat.py:66). *)
Definition qsum (l : list Qc) : Qc := fold_right Qcplus 0%Qc l.

(** [list(set(l))] up to order: first occurrences kept (src/product.py:67). *)
Fixpoint dedup {A} `{EqDec A} (l : list A) : list A :=
  match l with
  | [] => []
  | x :: l' => x :: filter (fun y => negb (eqb x y)) (dedup l')
  end.
