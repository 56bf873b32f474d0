(** Composite models: Product, FiniteArray, FlexibleArray, FiniteRowMixture and
    FlexibleRowMixture, method by method.

    An object is a tree. Methods of a composite are written as functions of the
    methods of its parts ("records of methods"), and tied together by structural
    recursion on the tree.

    Simplifications: the row divider of a mixture is a primitive (only primitives
    define the [support()] the code requires); [None] and the empty dict are
    identified for constraints and inputs; the random generator is shared. *)
From Coq Require Import List ZArith QArith Qcanon Reals Bool String.
From Verif Require Import Base Xr Samp Lgamma Prims.
Import ListNotations.
Local Open Scope Z_scope.

(** Objects.
    - [CProd]: src/product.py:20-30, src/chain.py (methods inherited by Product)
    - [CFinArr]: src/finite_array.py:14-23 (indexer, cgpms, rowid_to_index)
    - [CFlexArr]: src/flexible_array.py:16-26 (indexer, cgpm_base, cgpms, rowid_to_index)
    - [CMix]: src/finite_rowmix.py:23-42 ([flex = false]) and src/flexible_rowmix.py:16-34
      ([flex = true]): cgpm_row_divide, cgpm_components_array, rowid_to_component *)
Inductive cgpm :=
| CDist (d : dist)
| CProd (cs : list cgpm)
| CFinArr (ix : Z) (cs : list cgpm) (r2i : dict Z val)
| CFlexArr (ix : Z) (base : cgpm) (cs : dict val cgpm) (r2i : dict Z val)
| CMix (flex : bool) (div : dist) (arr : cgpm) (r2c : dict Z val).

(** [self.outputs]: src/product.py:27, src/finite_array.py:19,
    src/flexible_array.py:21, src/finite_rowmix.py:36, src/flexible_rowmix.py:27 *)
Fixpoint outputs (c : cgpm) : list Z :=
  match c with
  | CDist d => [dist_o d]
  | CProd cs => flat_map outputs cs
  | CFinArr _ cs _ => match cs with [] => [] | c' :: _ => outputs c' end
  | CFlexArr _ base _ _ => outputs base
  | CMix _ div arr _ => dist_o div :: outputs arr
  end.

(** [self.inputs]: src/product.py:28, src/finite_array.py:20,
    src/flexible_array.py:22, src/finite_rowmix.py:37. The inputs of a mixture are
    those of its components, i.e. those of the array without the indexer. *)
Fixpoint inputs (c : cgpm) : list Z :=
  match c with
  | CDist _ => []
  | CProd cs => flat_map inputs cs
  | CFinArr ix cs _ => ix :: match cs with [] => [] | c' :: _ => inputs c' end
  | CFlexArr ix base _ _ => ix :: inputs base
  | CMix _ _ arr _ => tl (inputs arr)
  end.

(** ** logpdf *)

(** The type of the method logpdf (src/icgpm.py:57). *)
Definition logpdf_m := option Z -> row -> row -> row -> out xr.

(** src/product.py:90-96 logpdf_one *)
Definition logpdf_one (outs ins : list Z) (f : logpdf_m) (rid : option Z) (T C I : row) : out xr :=
  match interd outs T with
  | [] => Ok (Fin 0%R)
  | Tc => f rid Tc (interd outs C) (interd ins I)
  end.

(** src/product.py:37-40 Product.logpdf *)
Definition prod_logpdf (ms : list (list Z * list Z * logpdf_m)) : logpdf_m :=
  fun rid T C I =>
    omap xsum (oseq (map (fun m => let '(outs, ins, f) := m in logpdf_one outs ins f rid T C I) ms)).

(** src/finite_array.py:30-33 FiniteArray.logpdf *)
Definition finarr_logpdf (ix : Z) (ms : list logpdf_m) : logpdf_m :=
  fun rid T C I =>
    match lookup ix I with
    | None => Err KeyError
    | Some i =>
      do n <- py_index ms i;
      match nth_error ms n with
      | None => Err IndexError
      | Some f => f rid T C (ddel ix I)
      end
    end.

(** src/flexible_array.py:33-36 FlexibleArray.logpdf with get_cgpm (84-87): a missing
    component is read as the base (create_new_cgpm, 89-94, copies it through its
    metadata; the copy is proved equal to the original in Meta.v). *)
Definition flexarr_logpdf (ix : Z) (fb : logpdf_m) (ms : dict val logpdf_m) : logpdf_m :=
  fun rid T C I =>
    match lookup ix I with
    | None => Err KeyError
    | Some i => (match lookup i ms with Some f => f | None => fb end) rid T C (ddel ix I)
    end.

(** src/finite_rowmix.py:251-264 _logpdf_one. Line 257 intersects the inputs with
    [outputs_x] (not [inputs_x]); modelled as written. *)
Definition mix_logpdf_one (ix : Z) (ox : list Z) (farr : logpdf_m)
  (rid : option Z) (T C I : row) (z : val) : out xr :=
  match interd ox T with
  | [] => Ok (Fin 0%R)
  | Tx => farr rid Tx (interd ox C) (merged (interd ox I) [(ix, z)])
  end.

(** [z in self.cgpm_row_divide.support()] (src/finite_rowmix.py:51) *)
Definition in_support (z : val) (sup : list Z) : bool := memb z (map vz sup).

(** src/finite_rowmix.py:146-164: marginalisation over the cluster. *)
Definition mix_logpdf_marg (div : dist) (ox : list Z) (farr : logpdf_m)
  (rid : option Z) (T C I : row) : out xr :=
  let ix := dist_o div in
  do sup <- dist_support div;
  do lp_z_prior <- oseq (map (fun z => dist_logpdf div rid [(ix, vz z)] [] []) sup);
  do lp_c <- oseq (map (fun z => mix_logpdf_one ix ox farr rid C [] I (vz z)) sup);
  let lp_z_constraints := xadds lp_z_prior lp_c in
  let lp_z_posterior := log_normalize lp_z_constraints in
  do lp_t <- oseq (map (fun z => mix_logpdf_one ix ox farr rid T C I (vz z)) sup);
  Ok (logsumexp (xadds lp_t lp_z_posterior)).

(** src/finite_rowmix.py:79-100 with [constraints] empty: p(z) p(xT | z). *)
Definition mix_logpdf_z0 (div : dist) (ox : list Z) (farr : logpdf_m)
  (rid : option Z) (T I : row) (z : val) : out xr :=
  let ix := dist_o div in
  do lp_z <- dist_logpdf div rid [(ix, z)] [] [];
  do lp_x <- mix_logpdf_one ix ox farr rid (merged T []) [] I z;
  Ok (xsub (xadd lp_z lp_x) (Fin 0%R)).

(** src/finite_rowmix.py:63-164 FiniteRowMixture.logpdf for a row without recorded
    cluster and without constraints (the recursive call of lines 94-99). *)
Definition mix_logpdf0 (div : dist) (ox : list Z) (farr : logpdf_m)
  (rid : option Z) (T I : row) : out xr :=
  match lookup (dist_o div) T with
  | Some z => mix_logpdf_z0 div ox farr rid T I z
  | None => mix_logpdf_marg div ox farr rid T [] I
  end.

(** src/finite_rowmix.py:63-164 FiniteRowMixture.logpdf *)
Definition mix_logpdf (div : dist) (ox : list Z) (r2c : dict Z val) (farr : logpdf_m) : logpdf_m :=
  fun rid T C I =>
    let ix := dist_o div in
    match (match rid with None => None | Some r => lookup r r2c end) with
    | Some z =>                                               (* lines 64-69 *)
        do _ <- oassert (negb (dmem ix C));
        mix_logpdf_one ix ox farr rid T C I z
    | None =>
      match lookup ix T with
      | Some z =>                                             (* lines 70-100 *)
          do lp_z <- dist_logpdf div rid [(ix, z)] [] [];
          do lp_x_joint <- mix_logpdf_one ix ox farr rid (merged T C) [] I z;
          do lp_x_constraints <-
            (match C with [] => Ok (Fin 0%R) | _ => mix_logpdf0 div ox farr rid C I end);
          Ok (xsub (xadd lp_z lp_x_joint) lp_x_constraints)
      | None =>
        match lookup ix C with
        | Some z =>                                           (* lines 101-128 *)
            do sup <- dist_support div;
            if in_support z sup then
              do lp_x_joint <- mix_logpdf_one ix ox farr rid (merged T C) [] I z;
              do lp_x_constraints <- mix_logpdf_one ix ox farr rid C [] I z;
              Ok (xsub lp_x_joint lp_x_constraints)
            else Err ValueError
        | None => mix_logpdf_marg div ox farr rid T C I       (* lines 129-164 *)
        end
      end
    end.

(** logpdf of an arbitrary model (method dispatch) (src/icgpm.py:57). *)
Fixpoint logpdf (c : cgpm) : logpdf_m :=
  match c with
  | CDist d => dist_logpdf d
  | CProd cs => prod_logpdf (map (fun c' => (outputs c', inputs c', logpdf c')) cs)
  | CFinArr ix cs _ => finarr_logpdf ix (map logpdf cs)
  | CFlexArr ix base cs _ =>
      flexarr_logpdf ix (logpdf base) (map (fun p => let '(k, c') := p in (k, logpdf c')) cs)
  | CMix _ div arr r2c => mix_logpdf div (outputs arr) r2c (logpdf arr)
  end.

(** ** logpdf_score *)

(** src/chain.py:98-99 (Product), src/finite_array.py:35-36 (the method is summed
    without being called: TypeError), src/flexible_array.py:38-39 (base excluded),
    src/finite_rowmix.py:166-169. *)
Fixpoint score (c : cgpm) : out xr :=
  match c with
  | CDist d => dist_score d
  | CProd cs => omap xsum (oseq (map score cs))
  | CFinArr _ cs _ => match cs with [] => Ok (Fin 0%R) | _ => Err TypeError end
  | CFlexArr _ _ cs _ => omap xsum (oseq (map (fun p => let '(_, c') := p in score c') cs))
  | CMix _ div arr _ =>
      do sz <- dist_score div;
      do sx <- score arr;
      Ok (xadd sz sx)
  end.

(** ** observe *)

(** The type of the method observe (src/icgpm.py:38). *)
Definition observe_m := Z -> row -> row -> samp (cgpm * out unit).

(** src/chain.py:49-51 Chain.observe and 162-168 observe_one (inherited by Product):
    children are updated in order; an exception stops the loop and keeps the
    updates made so far. *)
Fixpoint prod_observe (ms : list (cgpm * observe_m)) (rid : Z) (obs I : row)
  : samp (list cgpm * out unit) :=
  match ms with
  | [] => Ret ([], Ok tt)
  | (c, f) :: ms' =>
    match interd (outputs c) obs with
    | [] => let! r := prod_observe ms' rid obs I in Ret (c :: fst r, snd r)
    | oc =>
      let! r := f rid oc (merged (interd (inputs c) obs) (interd (inputs c) I)) in
      match snd r with
      | Err e => Ret (fst r :: map fst ms', Err e)
      | Ok _ => let! r' := prod_observe ms' rid obs I in Ret (fst r :: fst r', snd r')
      end
    end
  end.

(** [l[n] = x] (an element changed in place, as by src/chain.py:50-51) *)
Fixpoint set_nth {A} (n : nat) (x : A) (l : list A) : list A :=
  match l, n with
  | [], _ => []
  | _ :: l', O => x :: l'
  | y :: l', S n' => y :: set_nth n' x l'
  end.

(** src/finite_array.py:38-42 FiniteArray.observe *)
Definition finarr_observe (ix : Z) (cs : list cgpm) (ms : list observe_m) (r2i : dict Z val)
  (rid : Z) (obs I : row) : samp (cgpm * out unit) :=
  match lookup ix I with
  | None => Ret (CFinArr ix cs r2i, Err KeyError)
  | Some i =>
    match py_index ms i with
    | Err e => Ret (CFinArr ix cs r2i, Err e)
    | Ok n =>
      match nth_error ms n with
      | None => Ret (CFinArr ix cs r2i, Err IndexError)
      | Some f =>
        let! r := f rid obs (ddel ix I) in
        match snd r with
        | Err e => Ret (CFinArr ix (set_nth n (fst r) cs) r2i, Err e)
        | Ok _ => Ret (CFinArr ix (set_nth n (fst r) cs) (dset rid i r2i), Ok tt)
        end
      end
    end
  end.

(** src/flexible_array.py:41-45 FlexibleArray.observe with get_cgpm (84-87) *)
Definition flexarr_observe (ix : Z) (base : cgpm) (fb : observe_m) (cs : dict val cgpm)
  (ms : dict val observe_m) (r2i : dict Z val) (rid : Z) (obs I : row) : samp (cgpm * out unit) :=
  match lookup ix I with
  | None => Ret (CFlexArr ix base cs r2i, Err KeyError)
  | Some i =>
    let! r := (match lookup i ms with Some f => f | None => fb end) rid obs (ddel ix I) in
    match snd r with
    | Err e => Ret (CFlexArr ix base (dset i (fst r) cs) r2i, Err e)
    | Ok _ => Ret (CFlexArr ix base (dset i (fst r) cs) (dset rid i r2i), Ok tt)
    end
  end.

(** The value under key [ix] of a one-sample result (src/finite_rowmix.py:183). *)
Definition sres_get (ix : Z) (s : sres) : out val :=
  match s with SOne d => dget ix d | SMany _ => Err TypeError end.

(** src/finite_rowmix.py:184-187: the second half of observe. *)
Definition mix_observe_x (flex : bool) (div : dist) (arr : cgpm) (farr : observe_m)
  (r2c : dict Z val) (rid : Z) (obs I : row) (z : val) : samp (cgpm * out unit) :=
  let! r := farr rid (interd (outputs arr) obs)
              (merged (interd (tl (inputs arr)) I) [(dist_o div, z)]) in
  Ret (CMix flex div (fst r) r2c, snd r).

(** src/finite_rowmix.py:171-187 FiniteRowMixture.observe. Line 179-180 passes
    [inputs_z] in the position of [constraints]; primitives have no inputs, so it is
    empty. *)
Definition mix_observe (flex : bool) (div : dist) (arr : cgpm) (farr : observe_m)
  (r2c : dict Z val) (rid : Z) (obs I : row) : samp (cgpm * out unit) :=
  let ix := dist_o div in
  match lookup rid r2c with
  | Some z => mix_observe_x flex div arr farr r2c rid obs I z
  | None =>
    let! oz :=
      (match lookup ix obs with
       | Some z => Ret (Ok z)
       | None => let! s := dist_simulate div (Some rid) [ix] [] [] None in
                 Ret (do s' <- s; sres_get ix s')
       end) in
    match oz with
    | Err e => Ret (CMix flex div arr r2c, Err e)
    | Ok z =>
      match dist_observe div rid [(ix, z)] [] with
      | (div', Err e) => Ret (CMix flex div' arr r2c, Err e)
      | (div', Ok _) => mix_observe_x flex div' arr farr (dset rid z r2c) rid obs I z
      end
    end
  end.

(** observe of an arbitrary model (method dispatch) (src/icgpm.py:38). *)
Fixpoint observe (c : cgpm) : observe_m :=
  match c with
  | CDist d => fun rid obs I => Ret (let (d', r) := dist_observe d rid obs I in (CDist d', r))
  | CProd cs => fun rid obs I =>
      let! r := prod_observe (map (fun c' => (c', observe c')) cs) rid obs I in
      Ret (CProd (fst r), snd r)
  | CFinArr ix cs r2i => finarr_observe ix cs (map observe cs) r2i
  | CFlexArr ix base cs r2i =>
      flexarr_observe ix base (observe base) cs
        (map (fun p => let '(k, c') := p in (k, observe c')) cs) r2i
  | CMix flex div arr r2c => mix_observe flex div arr (observe arr) r2c
  end.

(** ** unobserve *)

(** src/chain.py:170-174 unobserve_one: every exception is swallowed, the child
    keeps whatever state it reached. *)
Definition unobserve_one (r : cgpm * out (row * row)) : cgpm * (row * row) :=
  match snd r with
  | Ok p => (fst r, p)
  | Err _ => (fst r, ([], []))
  end.

(** src/chain.py:53-60 Chain.unobserve: [zip] of an empty list cannot be unpacked. *)
Definition prod_unobserve (rs : list (cgpm * out (row * row))) : cgpm * out (row * row) :=
  match rs with
  | [] => (CProd [], Err ValueError)
  | _ =>
    let ps := map unobserve_one rs in
    (CProd (map fst ps),
     Ok (mergedl (map (fun p => fst (snd p)) ps), mergedl (map (fun p => snd (snd p)) ps)))
  end.

(** src/finite_array.py:44-48 FiniteArray.unobserve *)
Definition finarr_unobserve (ix : Z) (cs : list cgpm) (ms : list (Z -> cgpm * out (row * row)))
  (r2i : dict Z val) (rid : Z) : cgpm * out (row * row) :=
  match lookup rid r2i with
  | None => (CFinArr ix cs r2i, Err KeyError)
  | Some i =>
    let r2i' := ddel rid r2i in
    match py_index ms i with
    | Err e => (CFinArr ix cs r2i', Err e)
    | Ok n =>
      match nth_error ms n with
      | None => (CFinArr ix cs r2i', Err IndexError)
      | Some f => let (c', r) := f rid in (CFinArr ix (set_nth n c' cs) r2i', r)
      end
    end
  end.

(** src/flexible_array.py:47-51 FlexibleArray.unobserve *)
Definition flexarr_unobserve (ix : Z) (base : cgpm) (fb : Z -> cgpm * out (row * row))
  (cs : dict val cgpm) (ms : dict val (Z -> cgpm * out (row * row)))
  (r2i : dict Z val) (rid : Z) : cgpm * out (row * row) :=
  match lookup rid r2i with
  | None => (CFlexArr ix base cs r2i, Err KeyError)
  | Some i =>
    let (c', r) := (match lookup i ms with Some f => f | None => fb end) rid in
    (CFlexArr ix base (dset i c' cs) (ddel rid r2i), r)
  end.

(** src/finite_rowmix.py:189-195 FiniteRowMixture.unobserve *)
Definition mix_unobserve (flex : bool) (div : dist) (arr : cgpm)
  (farr : Z -> cgpm * out (row * row)) (r2c : dict Z val) (rid : Z) : cgpm * out (row * row) :=
  match dist_unobserve div rid with
  | (div', Err e) => (CMix flex div' arr r2c, Err e)
  | (div', Ok (obs_z, in_z)) =>
    match farr rid with
    | (arr', Err e) => (CMix flex div' arr' r2c, Err e)
    | (arr', Ok (obs_x, in_x)) =>
      if dmem rid r2c
      then (CMix flex div' arr' (ddel rid r2c), Ok (merged obs_z obs_x, merged in_z in_x))
      else (CMix flex div' arr' r2c, Err KeyError)
    end
  end.

(** unobserve of an arbitrary model (method dispatch) (src/icgpm.py:53). *)
Fixpoint unobserve (c : cgpm) (rid : Z) : cgpm * out (row * row) :=
  match c with
  | CDist d => let (d', r) := dist_unobserve d rid in (CDist d', r)
  | CProd cs => prod_unobserve (map (fun c' => unobserve c' rid) cs)
  | CFinArr ix cs r2i => finarr_unobserve ix cs (map unobserve cs) r2i rid
  | CFlexArr ix base cs r2i =>
      flexarr_unobserve ix base (unobserve base) cs
        (map (fun p => let '(k, c') := p in (k, unobserve c')) cs) r2i rid
  | CMix flex div arr r2c => mix_unobserve flex div arr (unobserve arr) r2c rid
  end.

(** ** simulate *)

(** The type of the method simulate (src/icgpm.py:88). *)
Definition simulate_m := option Z -> list Z -> row -> row -> option nat -> samp (out sres).

(** [{} if N is None else [{}]*N] (src/product.py:85, src/finite_rowmix.py:243) *)
Definition empty_samples (N : option nat) : sres :=
  match N with None => SOne [] | Some n => SMany (repeat [] n) end.

(** src/product.py:82-88 simulate_one *)
Definition simulate_one (outs ins : list Z) (f : simulate_m) (rid : option Z)
  (ts : list Z) (C I : row) (N : option nat) : samp (out sres) :=
  match interl outs ts with
  | [] => Ret (Ok (empty_samples N))
  | tc => f rid tc (interd outs C) (interd ins I) N
  end.

(** Sequencing of a list of randomised calls that may raise (src/product.py:33-34). *)
Fixpoint soseq {A} (l : list (samp (out A))) : samp (out (list A)) :=
  match l with
  | [] => Ret (Ok [])
  | m :: l' => sobind m (fun a => sobind (soseq l') (fun r => Ret (Ok (a :: r))))
  end.

(** Python's [zip] on several lists, shortest wins (src/product.py:77). *)
Fixpoint zip_rows (fuel : nat) (ls : list (list row)) : list (list row) :=
  match fuel with
  | O => []
  | S fuel' =>
    if existsb (fun l => match l with [] => true | _ => false end) ls then []
    else map (fun l => hd [] l) ls :: zip_rows fuel' (map (fun l => tl l) ls)
  end.

(** Are all of them single samples? (src/product.py:74-75) *)
Definition all_one (l : list sres) : out (list row) :=
  oseq (map (fun s => match s with SOne d => Ok d | SMany _ => Err TypeError end) l).
(** Are all of them lists of samples? (src/product.py:76-78) *)
Definition all_many (l : list sres) : out (list (list row)) :=
  oseq (map (fun s => match s with SMany d => Ok d | SOne _ => Err TypeError end) l).

(** src/product.py:73-80 merge_samples (IndexError on an empty list; mixing one
    sample with lists of samples is a TypeError). *)
Definition merge_samples (l : list sres) : out sres :=
  match l with
  | [] => Err IndexError
  | SOne _ :: _ => do ds <- all_one l; Ok (SOne (mergedl ds))
  | SMany l0 :: _ =>
      do ds <- all_many l; Ok (SMany (map mergedl (zip_rows (List.length l0) ds)))
  end.

(** src/product.py:32-35 Product.simulate *)
Definition prod_simulate (ms : list (list Z * list Z * simulate_m)) : simulate_m :=
  fun rid ts C I N =>
    sobind (soseq (map (fun m => let '(outs, ins, f) := m in simulate_one outs ins f rid ts C I N) ms))
      (fun l => Ret (merge_samples l)).

(** src/finite_array.py:25-28 FiniteArray.simulate *)
Definition finarr_simulate (ix : Z) (ms : list simulate_m) : simulate_m :=
  fun rid ts C I N =>
    match lookup ix I with
    | None => Ret (Err KeyError)
    | Some i =>
      match py_index ms i with
      | Err e => Ret (Err e)
      | Ok n =>
        match nth_error ms n with
        | None => Ret (Err IndexError)
        | Some f => f rid ts C (ddel ix I) N
        end
      end
    end.

(** src/flexible_array.py:28-31 FlexibleArray.simulate *)
Definition flexarr_simulate (ix : Z) (fb : simulate_m) (ms : dict val simulate_m) : simulate_m :=
  fun rid ts C I N =>
    match lookup ix I with
    | None => Ret (Err KeyError)
    | Some i => (match lookup i ms with Some f => f | None => fb end) rid ts C (ddel ix I) N
    end.

(** src/finite_rowmix.py:244-249: record the cluster in the samples if asked for. *)
Definition add_cluster (ix : Z) (z : val) (ts : list Z) (N : option nat) (s : sres) : out sres :=
  if memb ix ts then
    match N, s with
    | None, SOne d => Ok (SOne (dset ix z d))
    | Some _, SMany l => Ok (SMany (map (dset ix z) l))
    | _, _ => Err TypeError
    end
  else Ok s.

(** src/finite_rowmix.py:228-249 _simulate_one. Line 233 intersects the inputs with
    [outputs_x]; modelled as written. *)
Definition mix_simulate_one (ix : Z) (ox : list Z) (sarr : simulate_m)
  (rid : option Z) (ts : list Z) (C I : row) (N : option nat) (z : val) : samp (out sres) :=
  sobind
    (match interl ox ts with
     | [] => Ret (Ok (empty_samples N))
     | tx => sarr rid tx (interd ox C) (merged (interd ox I) [(ix, z)]) N
     end)
    (fun s => Ret (add_cluster ix z ts N s)).

(** Occurrences of each element of the support in the drawn list, in increasing
    order (np.bincount, src/finite_rowmix.py:58; dict iteration order fixed to
    increasing keys). *)
Definition cluster_counts (sup : list Z) (zs : list Z) : list (Z * nat) :=
  filter (fun p => negb (Nat.eqb (snd p) 0))
    (map (fun z => (z, count_occ Z.eq_dec zs z)) sup).

(** [lchain( *samples )] (src/finite_rowmix.py:61) *)
Definition chain_samples (l : list sres) : out (list row) :=
  omap (fun x => List.concat x) (all_many l).

(** src/finite_rowmix.py:44-61 FiniteRowMixture.simulate *)
Definition mix_simulate (div : dist) (ox : list Z) (r2c : dict Z val)
  (farr : logpdf_m) (sarr : simulate_m) : simulate_m :=
  fun rid ts C I N =>
    let ix := dist_o div in
    match (match rid with None => None | Some r => lookup r r2c end) with
    | Some z =>
        match oassert (negb (dmem ix C)) with
        | Err e => Ret (Err e)
        | Ok _ => mix_simulate_one ix ox sarr rid ts C I N z
        end
    | None =>
      match lookup ix C with
      | Some z =>
          match dist_support div with
          | Err e => Ret (Err e)
          | Ok sup => if in_support z sup
                      then mix_simulate_one ix ox sarr rid ts C I N z
                      else Ret (Err ValueError)
          end
      | None =>
        match (do sup <- dist_support div;
               do ws <- oseq (map (fun z => mix_logpdf div ox r2c farr rid [(ix, vz z)] C I) sup);
               Ok (sup, ws)) with
        | Err e => Ret (Err e)
        | Ok (sup, ws) =>
            let size := match N with None => 1%nat | Some O => 1%nat | Some n => n end in
            sobind (srepeat size (log_pflip ws)) (fun is =>
              let zs := map (fun i => nth i sup 0) is in
              sobind (soseq (map (fun p =>
                        mix_simulate_one ix ox sarr rid ts C I (Some (snd p)) (vz (fst p)))
                        (cluster_counts sup zs)))
                (fun l =>
                   Ret (match N with
                        | Some _ => omap SMany (chain_samples l)
                        | None => do ll <- chain_samples l;
                                  match ll with
                                  | d :: _ => Ok (SOne d)
                                  | [] => Err IndexError
                                  end
                        end)))
        end
      end
    end.

(** simulate of an arbitrary model (method dispatch) (src/icgpm.py:88). *)
Fixpoint simulate (c : cgpm) : simulate_m :=
  match c with
  | CDist d => dist_simulate d
  | CProd cs => prod_simulate (map (fun c' => (outputs c', inputs c', simulate c')) cs)
  | CFinArr ix cs _ => finarr_simulate ix (map simulate cs)
  | CFlexArr ix base cs _ =>
      flexarr_simulate ix (simulate base) (map (fun p => let '(k, c') := p in (k, simulate c')) cs)
  | CMix _ div arr r2c => mix_simulate div (outputs arr) r2c (logpdf arr) (simulate arr)
  end.

(** ** Constructors *)

(** src/product.py:64-71 validate_cgpms_product *)
Definition validate_product (cs : list cgpm) : out unit :=
  let outs := flat_map outputs cs in
  do _ <- oassert (Nat.eqb (List.length outs) (List.length (dedup outs)));
  oassert (forallb (fun i => negb (memb i outs)) (flat_map inputs cs)).

(** cgpm.utils.general.flatten_cgpms(cgpms, Product) (src/product.py:24): children that
    are Products are replaced by their own children (which are flat already). *)
Definition flatten_products (cs : list cgpm) : list cgpm :=
  flat_map (fun c => match c with CProd l => l | _ => [c] end) cs.

(** src/product.py:20-30 Product.__init__ *)
Definition new_product (cs : list cgpm) : out cgpm :=
  do _ <- validate_product cs; Ok (CProd (flatten_products cs)).

(** src/finite_array.py:14-23 FiniteArray.__init__ ([cgpms[0]] on an empty list) *)
Definition new_finarr (cs : list cgpm) (ix : Z) : out cgpm :=
  match cs with [] => Err IndexError | _ => Ok (CFinArr ix cs []) end.

(** src/flexible_array.py:16-26 FlexibleArray.__init__ *)
Definition new_flexarr (base : cgpm) (ix : Z) : cgpm := CFlexArr ix base [] [].

(** src/finite_rowmix.py:23-42 FiniteRowMixture.__init__ *)
Definition new_finmix (div : dist) (cs : list cgpm) : out cgpm :=
  do sup <- dist_support div;
  do _ <- oassert (eqb (zrange (List.length cs)) sup);
  do arr <- new_finarr cs (dist_o div);
  Ok (CMix false div arr []).

(** src/flexible_rowmix.py:16-34 FlexibleRowMixture.__init__ *)
Definition new_flexmix (div : dist) (base : cgpm) : cgpm :=
  CMix true div (new_flexarr base (dist_o div)) [].
