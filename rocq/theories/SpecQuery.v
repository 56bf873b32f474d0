(** Specification for C23: objects that differ by components created on demand, equality of
    randomised computations, and programs that mix queries with updates. *)
From Coq Require Import List ZArith QArith Qcanon Reals Bool String Permutation.
From Verif Require Import Base Xr Samp Lgamma Prims Cgpm Query.
Import ListNotations.
Local Open Scope Z_scope.

(** [touched c c']: [c'] is [c] with further components in some flexible arrays, all of
    them (up to further touching) copies of the base. *)
Inductive touched : cgpm -> cgpm -> Prop :=
| td_same : forall c, touched c c
| td_prod : forall cs cs', Forall2 touched cs cs' -> touched (CProd cs) (CProd cs')
| td_fin : forall ix cs cs' m, Forall2 touched cs cs' -> touched (CFinArr ix cs m) (CFinArr ix cs' m)
| td_flex : forall ix base cs cs' m,
    (NoDup (keys cs) -> NoDup (keys cs')) ->
    (forall k c, lookup k cs = Some c -> exists c', lookup k cs' = Some c' /\ touched c c') ->
    (forall k c', lookup k cs' = Some c' -> lookup k cs = None -> touched base c') ->
    touched (CFlexArr ix base cs m) (CFlexArr ix base cs' m)
| td_mix : forall flex div arr arr' m, touched arr arr' -> touched (CMix flex div arr m) (CMix flex div arr' m).

(** The two computations make the same draws with the same probabilities, and with the same
    draws of positive probability give related results. *)
Fixpoint coupled {A B} (R : A -> B -> Prop) (m : samp A) (m' : samp B) : Prop :=
  match m, m' with
  | Ret a, Ret b => R a b
  | Flip ws k, Flip ws' k' => ws' = ws /\
      forall i, (i < List.length ws)%nat -> (0 < nth i ws 0)%R -> coupled R (k i) (k' i)
  | DrawQ l k, DrawQ l' k' => l' = l /\ forall q, law_ok l q -> coupled R (k q) (k' q)
  | DrawNat n p k, DrawNat n' p' k' => n' = n /\ p' = p /\ forall x, coupled R (k x) (k' x)
  | DrawInt lo hi k, DrawInt lo' hi' k' => lo' = lo /\ hi' = hi /\ forall z, lo <= z < hi -> coupled R (k z) (k' z)
  | DrawPerm n k, DrawPerm n' k' => n' = n /\ forall l, Permutation (seq 0 n) l -> coupled R (k l) (k' l)
  | _, _ => False
  end.

(** Calls of the API and their answers. *)
Inductive request :=
| QLogpdf (rid : option Z) (T C ins : row)
| QSimulate (rid : option Z) (ts : list Z) (C ins : row) (N : option nat)
| QScore
| QObserve (rid : Z) (obs ins : row)
| QUnobserve (rid : Z).
Inductive answer :=
| ADensity (r : out xr)
| ASample (r : out sres)
| ADone (r : out unit)
| ARow (r : out (row * row)).

(** A program run on an object whose queries have their effects ... *)
Fixpoint run_effects (qs : list request) (c : cgpm) : samp (list answer) :=
  match qs with
  | [] => Ret []
  | QLogpdf rid T C ins :: qs' =>
      let (c', r) := logpdf_st (depth c) rid T C ins c in
      let! l := run_effects qs' c' in Ret (ADensity r :: l)
  | QSimulate rid ts C ins N :: qs' =>
      let! r := simulate_st (depth c) rid ts C ins N c in
      let! l := run_effects qs' (fst r) in Ret (ASample (snd r) :: l)
  | QScore :: qs' => let! l := run_effects qs' c in Ret (ADensity (score c) :: l)
  | QObserve rid obs ins :: qs' =>
      let! r := observe c rid obs ins in
      let! l := run_effects qs' (fst r) in Ret (ADone (snd r) :: l)
  | QUnobserve rid :: qs' =>
      let (c', r) := unobserve c rid in
      let! l := run_effects qs' c' in Ret (ARow r :: l)
  end.

(** ... and on one whose queries have none. *)
Fixpoint run_pure (qs : list request) (c : cgpm) : samp (list answer) :=
  match qs with
  | [] => Ret []
  | QLogpdf rid T C ins :: qs' =>
      let! l := run_pure qs' c in Ret (ADensity (logpdf c rid T C ins) :: l)
  | QSimulate rid ts C ins N :: qs' =>
      let! r := simulate c rid ts C ins N in
      let! l := run_pure qs' c in Ret (ASample r :: l)
  | QScore :: qs' => let! l := run_pure qs' c in Ret (ADensity (score c) :: l)
  | QObserve rid obs ins :: qs' =>
      let! r := observe c rid obs ins in
      let! l := run_pure qs' (fst r) in Ret (ADone (snd r) :: l)
  | QUnobserve rid :: qs' =>
      let (c', r) := unobserve c rid in
      let! l := run_pure qs' c' in Ret (ARow r :: l)
  end.
