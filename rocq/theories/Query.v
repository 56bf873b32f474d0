(** logpdf and simulate with their effect on the object: FlexibleArray.get_cgpm stores a new
    component under every index it is asked for. The functions of Cgpm.v read a missing
    component as the base and have no effect; here the same code is followed with the object
    threaded through it.

    The component stored is the base itself, standing for the copy made through its
    metadata (src/flexible_array.py:89-94; see Meta.v). Recursion is on a bound for the
    nesting depth of the object, since the object changes on the way. *)
From Coq Require Import List ZArith QArith Qcanon Reals Bool String.
From Verif Require Import Base Xr Samp Lgamma Prims Cgpm.
Import ListNotations.
Local Open Scope Z_scope.

(** ** Calls that change the object *)

(** A call on an object: the object afterwards, and the result. (Method calls in general.)
    (src/flexible_array.py:33-36, 84-87) *)
Definition call (A : Type) := cgpm -> cgpm * out A.

(** An expression without effect, [m; k], and a list comprehension, evaluated in order and
    stopped by an exception (Python semantics) (e.g. src/finite_rowmix.py:251-255). *)
Definition cpure {A} (v : out A) : call A := fun c => (c, v).
(** Sequencing of calls that change the object (e.g. src/finite_rowmix.py:146-164). *)
Definition cbind {A B} (m : call A) (k : A -> call B) : call B :=
  fun c => let (c1, r) := m c in match r with Ok a => k a c1 | Err e => (c1, Err e) end.
(** A list comprehension of such calls (e.g. src/finite_rowmix.py:148-162). *)
Fixpoint cseq {A} (l : list (call A)) : call (list A) :=
  match l with
  | [] => cpure (Ok [])
  | m :: l' => cbind m (fun a => cbind (cseq l') (fun r => cpure (Ok (a :: r))))
  end.

(** The same for calls that also draw random numbers (Python semantics)
    (src/flexible_array.py:28-31). *)
Definition rcall (A : Type) := cgpm -> samp (cgpm * out A).
(** A draw that does not touch the object (e.g. src/finite_rowmix.py:57). *)
Definition rpure {A} (v : samp (out A)) : rcall A := fun c => let! r := v in Ret (c, r).
(** Sequencing (e.g. src/finite_rowmix.py:44-61). *)
Definition rbind {A B} (m : rcall A) (k : A -> rcall B) : rcall B :=
  fun c => let! r := m c in
    match r with (c1, Ok a) => k a c1 | (c1, Err e) => Ret (c1, Err e) end.
(** A call without draws (src/finite_rowmix.py:55). *)
Definition rcalled {A} (m : call A) : rcall A := fun c => Ret (m c).
(** A list comprehension (src/finite_rowmix.py:59-60). *)
Fixpoint rseq {A} (l : list (rcall A)) : rcall (list A) :=
  match l with
  | [] => rpure (Ret (Ok []))
  | m :: l' => rbind m (fun a => rbind (rseq l') (fun r => rpure (Ret (Ok (a :: r)))))
  end.

(** A loop over the children of a composite (src/product.py:33-34, 38-39): each child is
    replaced by what its call leaves; an exception stops the loop. *)
Fixpoint each_child {A} (f : cgpm -> cgpm * out A) (cs : list cgpm) : list cgpm * out (list A) :=
  match cs with
  | [] => ([], Ok [])
  | c :: cs' =>
    match f c with
    | (c1, Err e) => (c1 :: cs', Err e)
    | (c1, Ok a) => let (cs1, r) := each_child f cs' in (c1 :: cs1, omap (cons a) r)
    end
  end.
(** The same loop for calls that draw (src/product.py:33-34). *)
Fixpoint reach_child {A} (f : cgpm -> samp (cgpm * out A)) (cs : list cgpm) : samp (list cgpm * out (list A)) :=
  match cs with
  | [] => Ret ([], Ok [])
  | c :: cs' =>
    let! r := f c in
    match r with
    | (c1, Err e) => Ret (c1 :: cs', Err e)
    | (c1, Ok a) => let! r' := reach_child f cs' in Ret (c1 :: fst r', omap (cons a) (snd r'))
    end
  end.

(** src/flexible_array.py:84-87 get_cgpm: the dictionary of components after the call. *)
Definition get_cgpm (base : cgpm) (i : val) (cs : dict val cgpm) : dict val cgpm * cgpm :=
  match lookup i cs with
  | Some c => (cs, c)
  | None => (dset i base cs, base)
  end.

(** ** logpdf *)

(** logpdf as a method, with the object threaded through (src/icgpm.py:57). *)
Definition logpdf_c := option Z -> row -> row -> row -> call xr.

(** src/product.py:90-96 logpdf_one *)
Definition logpdf_one_st (f : logpdf_c) (rid : option Z) (T C I : row) : call xr :=
  fun c => match interd (outputs c) T with
           | [] => (c, Ok (Fin 0%R))
           | Tc => f rid Tc (interd (outputs c) C) (interd (inputs c) I) c
           end.

(** src/finite_rowmix.py:251-264 _logpdf_one *)
Definition mix_logpdf_one_st (f : logpdf_c) (ix : Z) (ox : list Z)
  (rid : option Z) (T C I : row) (z : val) : call xr :=
  match interd ox T with
  | [] => cpure (Ok (Fin 0%R))
  | Tx => f rid Tx (interd ox C) (merged (interd ox I) [(ix, z)])
  end.

(** src/finite_rowmix.py:146-164 *)
Definition mix_logpdf_marg_st (f : logpdf_c) (div : dist) (ox : list Z)
  (rid : option Z) (T C I : row) : call xr :=
  let ix := dist_o div in
  cbind (cpure (dist_support div)) (fun sup =>
  cbind (cpure (oseq (map (fun z => dist_logpdf div rid [(ix, vz z)] [] []) sup))) (fun lp_z_prior =>
  cbind (cseq (map (fun z => mix_logpdf_one_st f ix ox rid C [] I (vz z)) sup)) (fun lp_c =>
  let lp_z_posterior := log_normalize (xadds lp_z_prior lp_c) in
  cbind (cseq (map (fun z => mix_logpdf_one_st f ix ox rid T C I (vz z)) sup)) (fun lp_t =>
  cpure (Ok (logsumexp (xadds lp_t lp_z_posterior))))))).

(** src/finite_rowmix.py:79-100 with [constraints] empty *)
Definition mix_logpdf_z0_st (f : logpdf_c) (div : dist) (ox : list Z)
  (rid : option Z) (T I : row) (z : val) : call xr :=
  let ix := dist_o div in
  cbind (cpure (dist_logpdf div rid [(ix, z)] [] [])) (fun lp_z =>
  cbind (mix_logpdf_one_st f ix ox rid (merged T []) [] I z) (fun lp_x =>
  cpure (Ok (xsub (xadd lp_z lp_x) (Fin 0%R))))).

(** src/finite_rowmix.py:63-164, the recursive call of lines 94-99 *)
Definition mix_logpdf0_st (f : logpdf_c) (div : dist) (ox : list Z)
  (rid : option Z) (T I : row) : call xr :=
  match lookup (dist_o div) T with
  | Some z => mix_logpdf_z0_st f div ox rid T I z
  | None => mix_logpdf_marg_st f div ox rid T [] I
  end.

(** src/finite_rowmix.py:63-164 FiniteRowMixture.logpdf, as a call on its component array. *)
Definition mix_logpdf_st (f : logpdf_c) (div : dist) (ox : list Z) (r2c : dict Z val)
  (rid : option Z) (T C I : row) : call xr :=
  let ix := dist_o div in
  match (match rid with None => None | Some r => lookup r r2c end) with
  | Some z =>
      cbind (cpure (oassert (negb (dmem ix C)))) (fun _ => mix_logpdf_one_st f ix ox rid T C I z)
  | None =>
    match lookup ix T with
    | Some z =>
        cbind (cpure (dist_logpdf div rid [(ix, z)] [] [])) (fun lp_z =>
        cbind (mix_logpdf_one_st f ix ox rid (merged T C) [] I z) (fun lp_x_joint =>
        cbind (match C with [] => cpure (Ok (Fin 0%R)) | _ => mix_logpdf0_st f div ox rid C I end) (fun lp_x_constraints =>
        cpure (Ok (xsub (xadd lp_z lp_x_joint) lp_x_constraints)))))
    | None =>
      match lookup ix C with
      | Some z =>
          cbind (cpure (dist_support div)) (fun sup =>
          if in_support z sup then
            cbind (mix_logpdf_one_st f ix ox rid (merged T C) [] I z) (fun lp_x_joint =>
            cbind (mix_logpdf_one_st f ix ox rid C [] I z) (fun lp_x_constraints =>
            cpure (Ok (xsub lp_x_joint lp_x_constraints))))
          else cpure (Err ValueError))
      | None => mix_logpdf_marg_st f div ox rid T C I
      end
    end
  end.

(** logpdf of an arbitrary object of nesting depth at most [n] (method dispatch;
    src/product.py:37-40, src/finite_array.py:30-33, src/flexible_array.py:33-36,
    src/finite_rowmix.py:63-164). *)
Fixpoint logpdf_st (n : nat) (rid : option Z) (T C I : row) (c : cgpm) : cgpm * out xr :=
  match n with
  | O => (c, Err OutOfFuel)
  | S n' =>
    match c with
    | CDist d => (c, dist_logpdf d rid T C I)
    | CProd cs =>
        let (cs', r) := each_child (logpdf_one_st (logpdf_st n') rid T C I) cs in (CProd cs', omap xsum r)
    | CFinArr ix cs r2i =>
        match lookup ix I with
        | None => (c, Err KeyError)
        | Some i =>
          match py_index cs i with
          | Err e => (c, Err e)
          | Ok k =>
            match nth_error cs k with
            | None => (c, Err IndexError)
            | Some c0 => let (c1, r) := logpdf_st n' rid T C (ddel ix I) c0 in (CFinArr ix (set_nth k c1 cs) r2i, r)
            end
          end
        end
    | CFlexArr ix base cs r2i =>
        match lookup ix I with
        | None => (c, Err KeyError)
        | Some i =>
          let (cs0, c0) := get_cgpm base i cs in
          let (c1, r) := logpdf_st n' rid T C (ddel ix I) c0 in (CFlexArr ix base (dset i c1 cs0) r2i, r)
        end
    | CMix flex div arr r2c =>
        let (arr', r) := mix_logpdf_st (logpdf_st n') div (outputs arr) r2c rid T C I arr in
        (CMix flex div arr' r2c, r)
    end
  end.

(** ** simulate *)

(** simulate as a method, with the object threaded through (src/icgpm.py:88). *)
Definition simulate_c := option Z -> list Z -> row -> row -> option nat -> rcall sres.

(** src/product.py:82-88 simulate_one *)
Definition simulate_one_st (f : simulate_c) (rid : option Z) (ts : list Z) (C I : row) (N : option nat) : rcall sres :=
  fun c => match interl (outputs c) ts with
           | [] => Ret (c, Ok (empty_samples N))
           | tc => f rid tc (interd (outputs c) C) (interd (inputs c) I) N c
           end.

(** src/finite_rowmix.py:228-249 _simulate_one *)
Definition mix_simulate_one_st (f : simulate_c) (ix : Z) (ox : list Z)
  (rid : option Z) (ts : list Z) (C I : row) (N : option nat) (z : val) : rcall sres :=
  rbind
    (match interl ox ts with
     | [] => rpure (Ret (Ok (empty_samples N)))
     | tx => f rid tx (interd ox C) (merged (interd ox I) [(ix, z)]) N
     end)
    (fun s => rpure (Ret (add_cluster ix z ts N s))).

(** src/finite_rowmix.py:44-61 FiniteRowMixture.simulate, as a call on its component array. *)
Definition mix_simulate_st (fl : logpdf_c) (fs : simulate_c) (div : dist) (ox : list Z) (r2c : dict Z val)
  (rid : option Z) (ts : list Z) (C I : row) (N : option nat) : rcall sres :=
  let ix := dist_o div in
  match (match rid with None => None | Some r => lookup r r2c end) with
  | Some z =>
      match oassert (negb (dmem ix C)) with
      | Err e => rpure (Ret (Err e))
      | Ok _ => mix_simulate_one_st fs ix ox rid ts C I N z
      end
  | None =>
    match lookup ix C with
    | Some z =>
        match dist_support div with
        | Err e => rpure (Ret (Err e))
        | Ok sup => if in_support z sup
                    then mix_simulate_one_st fs ix ox rid ts C I N z
                    else rpure (Ret (Err ValueError))
        end
    | None =>
      rbind (rpure (Ret (dist_support div))) (fun sup =>
      rbind (rcalled (cseq (map (fun z => mix_logpdf_st fl div ox r2c rid [(ix, vz z)] C I) sup))) (fun ws =>
      let size := match N with None => 1%nat | Some O => 1%nat | Some n => n end in
      rbind (rpure (srepeat size (log_pflip ws))) (fun is =>
      let zs := map (fun i => nth i sup 0) is in
      rbind (rseq (map (fun p => mix_simulate_one_st fs ix ox rid ts C I (Some (snd p)) (vz (fst p)))
                       (cluster_counts sup zs))) (fun l =>
      rpure (Ret (match N with
                  | Some _ => omap SMany (chain_samples l)
                  | None => do ll <- chain_samples l;
                            match ll with
                            | d :: _ => Ok (SOne d)
                            | [] => Err IndexError
                            end
                  end))))))
    end
  end.

(** simulate of an arbitrary object of nesting depth at most [n] (method dispatch;
    src/product.py:32-35, src/finite_array.py:25-28, src/flexible_array.py:28-31,
    src/finite_rowmix.py:44-61). *)
Fixpoint simulate_st (n : nat) (rid : option Z) (ts : list Z) (C I : row) (N : option nat) (c : cgpm)
  : samp (cgpm * out sres) :=
  match n with
  | O => Ret (c, Err OutOfFuel)
  | S n' =>
    match c with
    | CDist d => let! r := dist_simulate d rid ts C I N in Ret (c, r)
    | CProd cs =>
        let! r := reach_child (simulate_one_st (simulate_st n') rid ts C I N) cs in
        Ret (CProd (fst r), do l <- snd r; merge_samples l)
    | CFinArr ix cs r2i =>
        match lookup ix I with
        | None => Ret (c, Err KeyError)
        | Some i =>
          match py_index cs i with
          | Err e => Ret (c, Err e)
          | Ok k =>
            match nth_error cs k with
            | None => Ret (c, Err IndexError)
            | Some c0 => let! r := simulate_st n' rid ts C (ddel ix I) N c0 in
                         Ret (CFinArr ix (set_nth k (fst r) cs) r2i, snd r)
            end
          end
        end
    | CFlexArr ix base cs r2i =>
        match lookup ix I with
        | None => Ret (c, Err KeyError)
        | Some i =>
          let (cs0, c0) := get_cgpm base i cs in
          let! r := simulate_st n' rid ts C (ddel ix I) N c0 in
          Ret (CFlexArr ix base (dset i (fst r) cs0) r2i, snd r)
        end
    | CMix flex div arr r2c =>
        let! r := mix_simulate_st (logpdf_st n') (simulate_st n') div (outputs arr) r2c rid ts C I N arr in
        Ret (CMix flex div (fst r) r2c, snd r)
    end
  end.

(** The nesting depth of an object (bound for the recursion above)
    (no code; the nesting of src/product.py:24, src/flexible_array.py:25). *)
Fixpoint depth (c : cgpm) : nat :=
  match c with
  | CDist _ => 1
  | CProd cs => S (list_max (map depth cs))
  | CFinArr _ cs _ => S (list_max (map depth cs))
  | CFlexArr _ base cs _ => S (Nat.max (depth base) (list_max (map (fun p => let '(_, c') := p in depth c') cs)))
  | CMix _ _ arr _ => S (depth arr)
  end.
