(** Randomised computations as a free monad of random choices. *)
From Coq Require Import List ZArith QArith Qcanon Reals Bool Permutation.
From Verif Require Import Base Xr.
Import ListNotations.

(** Continuous laws of numpy's RandomState: rng.normal(loc, scale)
    (src/normal.py:85, 215, src/normal_uc.py:74), rng.gamma(shape, scale)
    (src/normal.py:214), rng.rand() / rng.uniform() on [0, 1). The parameters are
    recorded; the generator itself is not modelled. *)
Inductive law := Normal (loc scale : R) | Gamma (shape scale : R) | Uniform.

(** Values a continuous draw can take (draws are rational, like floats)
    (src/normal.py:214-215). *)
Definition law_ok (l : law) (q : Qc) : Prop :=
  match l with
  | Normal _ _ => True
  | Gamma _ _ => (0 < qr q)%R
  | Uniform => (0 <= qr q < 1)%R
  end.

(** [Flip ws k]: one index drawn with probability proportional to [ws] (numpy
    [rng.choice] as used by pflip/log_pflip); [DrawQ l]: a draw from the continuous
    law [l]; [DrawNat n p]: rng.negative_binomial(n, p); [DrawInt lo hi]:
    rng.randint(lo, hi); [DrawPerm n]: rng.permutation of n items, as a list of
    positions (src/crp.py:81). *)
Inductive samp (A : Type) :=
| Ret (a : A)
| Flip (ws : list R) (k : nat -> samp A)
| DrawQ (l : law) (k : Qc -> samp A)
| DrawNat (n p : R) (k : nat -> samp A)
| DrawInt (lo hi : Z) (k : Z -> samp A)
| DrawPerm (n : nat) (k : list nat -> samp A).
Arguments Ret {A} a.
Arguments Flip {A} ws k.
Arguments DrawQ {A} l k.
Arguments DrawNat {A} n p k.
Arguments DrawInt {A} lo hi k.
Arguments DrawPerm {A} n k.

(** [m; k]: the draws of [m], then those of [k] (e.g. src/normal.py:213-216). *)
Fixpoint sbind {A B} (m : samp A) (f : A -> samp B) : samp B :=
  match m with
  | Ret a => f a
  | Flip ws k => Flip ws (fun i => sbind (k i) f)
  | DrawQ l k => DrawQ l (fun q => sbind (k q) f)
  | DrawNat n p k => DrawNat n p (fun x => sbind (k x) f)
  | DrawInt lo hi k => DrawInt lo hi (fun z => sbind (k z) f)
  | DrawPerm n k => DrawPerm n (fun l => sbind (k l) f)
  end.
Notation "'let!' x := m 'in' k" := (sbind m (fun x => k))
  (at level 60, x name, m at level 50, right associativity).
Notation "'let!' ' p := m 'in' k" := (sbind m (fun x => match x with p => k end))
  (at level 60, p pattern, m at level 50, right associativity).

(** Sequencing of a randomised computation that may raise (e.g. src/crp.py:76-84). *)
Definition sobind {A B} (m : samp (out A)) (f : A -> samp (out B)) : samp (out B) :=
  sbind m (fun o => match o with Ok a => f a | Err e => Ret (Err e) end).

(** A function applied to what is drawn (e.g. src/crp.py:84). *)
Definition smap {A B} (f : A -> B) (m : samp A) : samp B := sbind m (fun a => Ret (f a)).

(** Every possible outcome satisfies [P]: choices of zero weight cannot happen
    (no code: a quantifier over the draws of e.g. src/crp.py:81). *)
Fixpoint always {A} (m : samp A) (P : A -> Prop) : Prop :=
  match m with
  | Ret a => P a
  | Flip ws k => forall i, (i < List.length ws)%nat -> (0 < nth i ws 0)%R -> always (k i) P
  | DrawQ l k => forall q, law_ok l q -> always (k q) P
  | DrawNat _ _ k => forall n, always (k n) P
  | DrawInt lo hi k => forall z, (lo <= z < hi)%Z -> always (k z) P
  | DrawPerm n k => forall l, Permutation (seq 0 n) l -> always (k l) P
  end.

(** Some possible outcome satisfies [P]
    (no code: a quantifier over the draws of e.g. src/crp.py:81). *)
Fixpoint possible {A} (m : samp A) (P : A -> Prop) : Prop :=
  match m with
  | Ret a => P a
  | Flip ws k => exists i, (i < List.length ws)%nat /\ (0 < nth i ws 0)%R /\ possible (k i) P
  | DrawQ l k => exists q, law_ok l q /\ possible (k q) P
  | DrawNat _ _ k => exists n, possible (k n) P
  | DrawInt lo hi k => exists z, (lo <= z < hi)%Z /\ possible (k z) P
  | DrawPerm n k => exists l, Permutation (seq 0 n) l /\ possible (k l) P
  end.

(** The computation only makes finite choices with well-defined probabilities
    (no code: draws such as src/crp.py:81 but not src/normal.py:214). *)
Fixpoint finite_choices {A} (m : samp A) : Prop :=
  match m with
  | Ret _ => True
  | Flip ws k =>
      (forall w, In w ws -> (0 <= w)%R) /\ (0 < rsum ws)%R /\
      forall i, (i < List.length ws)%nat -> finite_choices (k i)
  | _ => False
  end.

(** Exact expectation of [f] over the outcomes (for [finite_choices]
    computations; other draws contribute 0)
    (no code: the mean over the draws of e.g. src/crp.py:81). *)
Fixpoint expect {A} (m : samp A) (f : A -> R) : R :=
  match m with
  | Ret a => f a
  | Flip ws k =>
      rsum (map (fun i => (nth i ws 0 / rsum ws * expect (k i) f)%R) (seq 0 (List.length ws)))
  | _ => 0%R
  end.

(** cgpm.utils.general.log_pflip (src/crp.py:14): draw an index with probability
    proportional to exp(logp). numpy raises ValueError when the normalised
    probabilities contain NaN, i.e. when a weight is NaN/+inf or all are -inf. *)
Definition log_pflip (ws : list xr) : samp (out nat) :=
  if existsb is_bad ws then Ret (Err ValueError)
  else if existsb is_fin ws then Flip (map xexp ws) (fun i => Ret (Ok i))
  else Ret (Err ValueError).

(** cgpm.utils.general.pflip (src/categorical.py): draw an index with probability
    proportional to p. *)
Definition pflip (ws : list R) : samp nat := Flip ws (fun i => Ret i).

(** [n] independent runs (list comprehension over range(n)) (src/chain.py:67-70). *)
Fixpoint srepeat {A} (n : nat) (m : samp (out A)) : samp (out (list A)) :=
  match n with
  | O => Ret (Ok [])
  | S n' => sobind m (fun a => sobind (srepeat n' m) (fun l => Ret (Ok (a :: l))))
  end.

(** Result of a simulate call: one sample, or a list of samples (src/icgpm.py:88-123). *)
Inductive sres := SOne (d : row) | SMany (l : list row).

(** cgpm.utils.general.simulate_many (src/crp.py:14): decorator that calls the
    wrapped simulate once when N is None, else N times. *)
Definition simulate_many (m : samp (out row)) (N : option nat) : samp (out sres) :=
  match N with
  | None => sobind m (fun d => Ret (Ok (SOne d)))
  | Some n => sobind (srepeat n m) (fun l => Ret (Ok (SMany l)))
  end.

(** Run a computation with a fixed list of draws (for worked examples). Draws are
    given as naturals; continuous draws become the integer rational (no code). *)
Fixpoint run {A} (fuel : nat) (ds : list nat) (m : samp A) : option A :=
  match fuel with
  | O => None
  | S fuel' =>
    match m with
    | Ret a => Some a
    | Flip _ k => run fuel' (tl ds) (k (hd O ds))
    | DrawQ _ k => run fuel' (tl ds) (k (qz (Z.of_nat (hd O ds))))
    | DrawNat _ _ k => run fuel' (tl ds) (k (hd O ds))
    | DrawInt lo _ k => run fuel' (tl ds) (k (lo + Z.of_nat (hd O ds))%Z)
    | DrawPerm n k => run fuel' (tl ds) (k (seq 0 n))
    end
  end.
