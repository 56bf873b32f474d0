(** logpdf, simulate and observe with the dictionaries passed to them as objects in a heap:
    the arrays pop the indexer from the dictionary they are given, every other method builds
    new dictionaries for the methods it calls. (For C24.)

    Lists of targets are never changed by the code and stay values; [None] for constraints
    or inputs is a new empty dictionary, as in Base.v. Components of flexible arrays that do
    not exist yet are read as the base (see Query.v for their creation). *)
From Coq Require Import List ZArith QArith Qcanon Reals Bool String.
From Verif Require Import Base Xr Samp Lgamma Prims Cgpm.
Import ListNotations.
Local Open Scope Z_scope.

(** Dictionaries in memory, by address. (Python objects.)
    (e.g. the argument inputs of src/flexible_array.py:33) *)
Definition heap := list row.
(** The dictionary at an address (e.g. src/flexible_array.py:33-36). *)
Definition get (h : heap) (a : nat) : row := nth a h [].

(** A call that reads and writes dictionaries: the heap afterwards and the result; allocation
    of a new dictionary, reading one, and [d.pop(k)]. (Python semantics.)
    (src/flexible_array.py:34) *)
Definition hcall (A : Type) := heap -> heap * out A.
(** A result without effect (e.g. src/product.py:93). *)
Definition hpure {A} (v : out A) : hcall A := fun h => (h, v).
(** Sequencing (e.g. src/product.py:37-40). *)
Definition hbind {A B} (m : hcall A) (k : A -> hcall B) : hcall B :=
  fun h => let (h1, r) := m h in match r with Ok a => k a h1 | Err e => (h1, Err e) end.
(** A new dictionary (get_intersection and merged, src/product.py:94-95). *)
Definition hnew {A} (d : row) (k : nat -> hcall A) : hcall A := fun h => k (List.length h) (h ++ [d]).
(** Reading a dictionary (src/product.py:91). *)
Definition hread {A} (a : nat) (k : row -> hcall A) : hcall A := fun h => k (get h a) h.
(** [inputs.pop(i)] (src/flexible_array.py:34). *)
Definition hpop {A} (a : nat) (i : Z) (k : val -> hcall A) : hcall A :=
  fun h => match lookup i (get h a) with
           | None => (h, Err KeyError)
           | Some v => k v (set_nth a (ddel i (get h a)) h)
           end.
(** A list comprehension (src/product.py:38-39). *)
Fixpoint hseq {A} (l : list (hcall A)) : hcall (list A) :=
  match l with
  | [] => hpure (Ok [])
  | m :: l' => hbind m (fun a => hbind (hseq l') (fun r => hpure (Ok (a :: r))))
  end.

(** ** logpdf *)

(** logpdf as a method whose dictionaries are addresses (src/icgpm.py:57). *)
Definition logpdf_a := option Z -> nat -> nat -> nat -> hcall xr.

(** src/product.py:90-96 logpdf_one *)
Definition logpdf_one_a (outs ins : list Z) (f : logpdf_a) (rid : option Z) (T C I : nat) : hcall xr :=
  hread T (fun t => match interd outs t with
    | [] => hpure (Ok (Fin 0%R))
    | t' => hnew t' (fun T' => hread C (fun c => hnew (interd outs c) (fun C' =>
            hread I (fun i => hnew (interd ins i) (fun I' => f rid T' C' I')))))
    end).

(** src/product.py:37-40 Product.logpdf *)
Definition prod_logpdf_a (ms : list (list Z * list Z * logpdf_a)) : logpdf_a :=
  fun rid T C I =>
    hbind (hseq (map (fun m => let '(outs, ins, f) := m in logpdf_one_a outs ins f rid T C I) ms))
      (fun l => hpure (Ok (xsum l))).

(** src/finite_array.py:30-33 FiniteArray.logpdf: the dictionaries of the caller are handed on. *)
Definition finarr_logpdf_a (ix : Z) (ms : list logpdf_a) : logpdf_a :=
  fun rid T C I =>
    hpop I ix (fun i =>
    hbind (hpure (py_index ms i)) (fun n =>
    match nth_error ms n with
    | None => hpure (Err IndexError)
    | Some f => f rid T C I
    end)).

(** src/flexible_array.py:33-36 FlexibleArray.logpdf *)
Definition flexarr_logpdf_a (ix : Z) (fb : logpdf_a) (ms : dict val logpdf_a) : logpdf_a :=
  fun rid T C I =>
    hpop I ix (fun i => (match lookup i ms with Some f => f | None => fb end) rid T C I).

(** src/finite_rowmix.py:251-264 _logpdf_one *)
Definition mix_logpdf_one_a (ix : Z) (ox : list Z) (f : logpdf_a) (rid : option Z) (T C I : nat) (z : val) : hcall xr :=
  hread T (fun t => match interd ox t with
    | [] => hpure (Ok (Fin 0%R))
    | t' => hnew t' (fun T' => hread C (fun c => hnew (interd ox c) (fun C' =>
            hread I (fun i => hnew (merged (interd ox i) [(ix, z)]) (fun I' => f rid T' C' I')))))
    end).

(** src/finite_rowmix.py:146-164. The dictionaries given to the row divider are new and only
    read. *)
Definition mix_logpdf_marg_a (div : dist) (ox : list Z) (f : logpdf_a) (rid : option Z) (T C I : nat) : hcall xr :=
  let ix := dist_o div in
  hbind (hpure (dist_support div)) (fun sup =>
  hbind (hpure (oseq (map (fun z => dist_logpdf div rid [(ix, vz z)] [] []) sup))) (fun lp_z_prior =>
  hbind (hseq (map (fun z => hnew [] (fun none => mix_logpdf_one_a ix ox f rid C none I (vz z))) sup)) (fun lp_c =>
  hbind (hseq (map (fun z => mix_logpdf_one_a ix ox f rid T C I (vz z)) sup)) (fun lp_t =>
  hpure (Ok (logsumexp (xadds lp_t (log_normalize (xadds lp_z_prior lp_c))))))))).

(** src/finite_rowmix.py:63-164, the recursive call of lines 94-99: the constraints of the
    caller are passed as targets. *)
Definition mix_logpdf0_a (div : dist) (ox : list Z) (f : logpdf_a) (rid : option Z) (T I : nat) : hcall xr :=
  let ix := dist_o div in
  hread T (fun t => match lookup ix t with
    | Some z =>
        hbind (hpure (dist_logpdf div rid [(ix, z)] [] [])) (fun lp_z =>
        hnew (merged t []) (fun J => hnew [] (fun none =>
        hbind (mix_logpdf_one_a ix ox f rid J none I z) (fun lp_x =>
        hpure (Ok (xsub (xadd lp_z lp_x) (Fin 0%R)))))))
    | None => hnew [] (fun none => mix_logpdf_marg_a div ox f rid T none I)
    end).

(** src/finite_rowmix.py:63-164 FiniteRowMixture.logpdf *)
Definition mix_logpdf_a (div : dist) (ox : list Z) (r2c : dict Z val) (f : logpdf_a) : logpdf_a :=
  fun rid T C I =>
    let ix := dist_o div in
    hread T (fun t => hread C (fun c =>
    match (match rid with None => None | Some r => lookup r r2c end) with
    | Some z => hbind (hpure (oassert (negb (dmem ix c)))) (fun _ => mix_logpdf_one_a ix ox f rid T C I z)
    | None =>
      match lookup ix t with
      | Some z =>
          hbind (hpure (dist_logpdf div rid [(ix, z)] [] [])) (fun lp_z =>
          hnew (merged t c) (fun J => hnew [] (fun none =>
          hbind (mix_logpdf_one_a ix ox f rid J none I z) (fun lp_x_joint =>
          hbind (match c with [] => hpure (Ok (Fin 0%R)) | _ => mix_logpdf0_a div ox f rid C I end) (fun lp_x_constraints =>
          hpure (Ok (xsub (xadd lp_z lp_x_joint) lp_x_constraints)))))))
      | None =>
        match lookup ix c with
        | Some z =>
            hbind (hpure (dist_support div)) (fun sup =>
            if in_support z sup then
              hnew (merged t c) (fun J => hnew [] (fun none =>
              hbind (mix_logpdf_one_a ix ox f rid J none I z) (fun lp_x_joint =>
              hnew [] (fun none' =>
              hbind (mix_logpdf_one_a ix ox f rid C none' I z) (fun lp_x_constraints =>
              hpure (Ok (xsub lp_x_joint lp_x_constraints)))))))
            else hpure (Err ValueError))
        | None => mix_logpdf_marg_a div ox f rid T C I
        end
      end
    end)).

(** logpdf of an arbitrary model on dictionaries in memory (method dispatch; primitives only
    read them, src/distribution.py). *)
Fixpoint logpdf_at (c : cgpm) : logpdf_a :=
  match c with
  | CDist d => fun rid T C I => hread T (fun t => hread C (fun c' => hread I (fun i => hpure (dist_logpdf d rid t c' i))))
  | CProd cs => prod_logpdf_a (map (fun c' => (outputs c', inputs c', logpdf_at c')) cs)
  | CFinArr ix cs _ => finarr_logpdf_a ix (map logpdf_at cs)
  | CFlexArr ix base cs _ =>
      flexarr_logpdf_a ix (logpdf_at base) (map (fun p => let '(k, c') := p in (k, logpdf_at c')) cs)
  | CMix _ div arr r2c => mix_logpdf_a div (outputs arr) r2c (logpdf_at arr)
  end.

(** ** Calls that draw *)

(** The same operations for calls that also draw random numbers. (Python semantics.)
    (src/flexible_array.py:28-31) *)
Definition scall (A : Type) := heap -> samp (heap * out A).
(** A draw without effect on the heap (src/finite_rowmix.py:57). *)
Definition spure {A} (v : samp (out A)) : scall A := fun h => let! r := v in Ret (h, r).
(** A call without draws (src/finite_rowmix.py:55). *)
Definition scalled {A} (m : hcall A) : scall A := fun h => Ret (m h).
(** Sequencing (src/finite_rowmix.py:44-61). *)
Definition scbind {A B} (m : scall A) (k : A -> scall B) : scall B :=
  fun h => let! r := m h in match r with (h1, Ok a) => k a h1 | (h1, Err e) => Ret (h1, Err e) end.
(** A new dictionary (src/finite_rowmix.py:232-234). *)
Definition snew {A} (d : row) (k : nat -> scall A) : scall A := fun h => k (List.length h) (h ++ [d]).
(** Reading a dictionary (src/finite_rowmix.py:49). *)
Definition sread {A} (a : nat) (k : row -> scall A) : scall A := fun h => k (get h a) h.
(** [inputs.pop(i)] (src/flexible_array.py:29). *)
Definition spop {A} (a : nat) (i : Z) (k : val -> scall A) : scall A :=
  fun h => match lookup i (get h a) with
           | None => Ret (h, Err KeyError)
           | Some v => k v (set_nth a (ddel i (get h a)) h)
           end.
(** A list comprehension (src/finite_rowmix.py:59-60). *)
Fixpoint scseq {A} (l : list (scall A)) : scall (list A) :=
  match l with
  | [] => spure (Ret (Ok []))
  | m :: l' => scbind m (fun a => scbind (scseq l') (fun r => spure (Ret (Ok (a :: r)))))
  end.

(** simulate as a method whose dictionaries are addresses (src/icgpm.py:88). *)
Definition simulate_a := option Z -> list Z -> nat -> nat -> option nat -> scall sres.

(** src/product.py:82-88 simulate_one *)
Definition simulate_one_a (outs ins : list Z) (f : simulate_a) (rid : option Z) (ts : list Z) (C I : nat) (N : option nat) : scall sres :=
  match interl outs ts with
  | [] => spure (Ret (Ok (empty_samples N)))
  | tc => sread C (fun c => snew (interd outs c) (fun C' =>
          sread I (fun i => snew (interd ins i) (fun I' => f rid tc C' I' N))))
  end.

(** src/product.py:32-35 Product.simulate *)
Definition prod_simulate_a (ms : list (list Z * list Z * simulate_a)) : simulate_a :=
  fun rid ts C I N =>
    scbind (scseq (map (fun m => let '(outs, ins, f) := m in simulate_one_a outs ins f rid ts C I N) ms))
      (fun l => spure (Ret (merge_samples l))).

(** src/finite_array.py:25-28 FiniteArray.simulate *)
Definition finarr_simulate_a (ix : Z) (ms : list simulate_a) : simulate_a :=
  fun rid ts C I N =>
    spop I ix (fun i =>
    scbind (spure (Ret (py_index ms i))) (fun n =>
    match nth_error ms n with
    | None => spure (Ret (Err IndexError))
    | Some f => f rid ts C I N
    end)).

(** src/flexible_array.py:28-31 FlexibleArray.simulate *)
Definition flexarr_simulate_a (ix : Z) (fb : simulate_a) (ms : dict val simulate_a) : simulate_a :=
  fun rid ts C I N =>
    spop I ix (fun i => (match lookup i ms with Some f => f | None => fb end) rid ts C I N).

(** src/finite_rowmix.py:228-249 _simulate_one. The samples changed on lines 245-248 are those
    the component has just returned. *)
Definition mix_simulate_one_a (ix : Z) (ox : list Z) (f : simulate_a)
  (rid : option Z) (ts : list Z) (C I : nat) (N : option nat) (z : val) : scall sres :=
  scbind
    (match interl ox ts with
     | [] => spure (Ret (Ok (empty_samples N)))
     | tx => sread C (fun c => snew (interd ox c) (fun C' =>
             sread I (fun i => snew (merged (interd ox i) [(ix, z)]) (fun I' => f rid tx C' I' N))))
     end)
    (fun s => spure (Ret (add_cluster ix z ts N s))).

(** src/finite_rowmix.py:44-61 FiniteRowMixture.simulate *)
Definition mix_simulate_a (div : dist) (ox : list Z) (r2c : dict Z val) (fl : logpdf_a) (fs : simulate_a) : simulate_a :=
  fun rid ts C I N =>
    let ix := dist_o div in
    sread C (fun c =>
    match (match rid with None => None | Some r => lookup r r2c end) with
    | Some z =>
        scbind (spure (Ret (oassert (negb (dmem ix c))))) (fun _ => mix_simulate_one_a ix ox fs rid ts C I N z)
    | None =>
      match lookup ix c with
      | Some z =>
          scbind (spure (Ret (dist_support div))) (fun sup =>
          if in_support z sup then mix_simulate_one_a ix ox fs rid ts C I N z else spure (Ret (Err ValueError)))
      | None =>
        scbind (spure (Ret (dist_support div))) (fun sup =>
        scbind (scalled (hseq (map (fun z => hnew [(ix, vz z)] (fun T => mix_logpdf_a div ox r2c fl rid T C I)) sup))) (fun ws =>
        let size := match N with None => 1%nat | Some O => 1%nat | Some n => n end in
        scbind (spure (srepeat size (log_pflip ws))) (fun is =>
        let zs := map (fun i => nth i sup 0) is in
        scbind (scseq (map (fun p => mix_simulate_one_a ix ox fs rid ts C I (Some (snd p)) (vz (fst p)))
                           (cluster_counts sup zs))) (fun l =>
        spure (Ret (match N with
                    | Some _ => omap SMany (chain_samples l)
                    | None => do ll <- chain_samples l;
                              match ll with
                              | d :: _ => Ok (SOne d)
                              | [] => Err IndexError
                              end
                    end))))))
      end
    end).

(** simulate of an arbitrary model on dictionaries in memory (method dispatch)
    (src/icgpm.py:88). *)
Fixpoint simulate_at (c : cgpm) : simulate_a :=
  match c with
  | CDist d => fun rid ts C I N => sread C (fun c' => sread I (fun i => spure (dist_simulate d rid ts c' i N)))
  | CProd cs => prod_simulate_a (map (fun c' => (outputs c', inputs c', simulate_at c')) cs)
  | CFinArr ix cs _ => finarr_simulate_a ix (map simulate_at cs)
  | CFlexArr ix base cs _ =>
      flexarr_simulate_a ix (simulate_at base) (map (fun p => let '(k, c') := p in (k, simulate_at c')) cs)
  | CMix _ div arr r2c => mix_simulate_a div (outputs arr) r2c (logpdf_at arr) (simulate_at arr)
  end.

(** ** observe *)

(** observe as a method whose dictionaries are addresses: the object afterwards is part of
    the result (src/icgpm.py:38). *)
Definition observe_a := Z -> nat -> nat -> heap -> samp (heap * (cgpm * out unit)).

(** src/chain.py:49-51 and 162-168 (inherited by Product) *)
Fixpoint prod_observe_a (ms : list (cgpm * observe_a)) (rid : Z) (obs I : nat) (h : heap)
  : samp (heap * (list cgpm * out unit)) :=
  match ms with
  | [] => Ret (h, ([], Ok tt))
  | (c, f) :: ms' =>
    match interd (outputs c) (get h obs) with
    | [] => let! r := prod_observe_a ms' rid obs I h in Ret (fst r, (c :: fst (snd r), snd (snd r)))
    | oc =>
      let h1 := h ++ [oc] in
      let h2 := h1 ++ [merged (interd (inputs c) (get h obs)) (interd (inputs c) (get h I))] in
      let! r := f rid (List.length h) (List.length h1) h2 in
      match snd (snd r) with
      | Err e => Ret (fst r, (fst (snd r) :: map fst ms', Err e))
      | Ok _ => let! r' := prod_observe_a ms' rid obs I (fst r) in
                Ret (fst r', (fst (snd r) :: fst (snd r'), snd (snd r')))
      end
    end
  end.

(** src/finite_array.py:38-42 FiniteArray.observe *)
Definition finarr_observe_a (ix : Z) (cs : list cgpm) (ms : list observe_a) (r2i : dict Z val) : observe_a :=
  fun rid obs I h =>
  match lookup ix (get h I) with
  | None => Ret (h, (CFinArr ix cs r2i, Err KeyError))
  | Some i =>
    let h1 := set_nth I (ddel ix (get h I)) h in
    match py_index ms i with
    | Err e => Ret (h1, (CFinArr ix cs r2i, Err e))
    | Ok n =>
      match nth_error ms n with
      | None => Ret (h1, (CFinArr ix cs r2i, Err IndexError))
      | Some f =>
        let! r := f rid obs I h1 in
        match snd (snd r) with
        | Err e => Ret (fst r, (CFinArr ix (set_nth n (fst (snd r)) cs) r2i, Err e))
        | Ok _ => Ret (fst r, (CFinArr ix (set_nth n (fst (snd r)) cs) (dset rid i r2i), Ok tt))
        end
      end
    end
  end.

(** src/flexible_array.py:41-45 FlexibleArray.observe *)
Definition flexarr_observe_a (ix : Z) (base : cgpm) (fb : observe_a) (cs : dict val cgpm)
  (ms : dict val observe_a) (r2i : dict Z val) : observe_a :=
  fun rid obs I h =>
  match lookup ix (get h I) with
  | None => Ret (h, (CFlexArr ix base cs r2i, Err KeyError))
  | Some i =>
    let h1 := set_nth I (ddel ix (get h I)) h in
    let! r := (match lookup i ms with Some f => f | None => fb end) rid obs I h1 in
    match snd (snd r) with
    | Err e => Ret (fst r, (CFlexArr ix base (dset i (fst (snd r)) cs) r2i, Err e))
    | Ok _ => Ret (fst r, (CFlexArr ix base (dset i (fst (snd r)) cs) (dset rid i r2i), Ok tt))
    end
  end.

(** src/finite_rowmix.py:184-187 *)
Definition mix_observe_x_a (flex : bool) (div : dist) (arr : cgpm) (farr : observe_a)
  (r2c : dict Z val) (rid : Z) (obs I : nat) (z : val) (h : heap) : samp (heap * (cgpm * out unit)) :=
  let ins := merged (interd (tl (inputs arr)) (get h I)) [(dist_o div, z)] in
  let h1 := h ++ [interd (outputs arr) (get h obs)] in
  let! r := farr rid (List.length h) (List.length h1) (h1 ++ [ins]) in
  Ret (fst r, (CMix flex div (fst (snd r)) r2c, snd (snd r))).

(** src/finite_rowmix.py:171-187 FiniteRowMixture.observe *)
Definition mix_observe_a (flex : bool) (div : dist) (arr : cgpm) (farr : observe_a) (r2c : dict Z val) : observe_a :=
  fun rid obs I h =>
  let ix := dist_o div in
  match lookup rid r2c with
  | Some z => mix_observe_x_a flex div arr farr r2c rid obs I z h
  | None =>
    let! oz :=
      (match lookup ix (get h obs) with
       | Some z => Ret (Ok z)
       | None => let! s := dist_simulate div (Some rid) [ix] [] [] None in
                 Ret (do s' <- s; sres_get ix s')
       end) in
    match oz with
    | Err e => Ret (h, (CMix flex div arr r2c, Err e))
    | Ok z =>
      match dist_observe div rid [(ix, z)] [] with
      | (div', Err e) => Ret (h, (CMix flex div' arr r2c, Err e))
      | (div', Ok _) => mix_observe_x_a flex div' arr farr (dset rid z r2c) rid obs I z h
      end
    end
  end.

(** observe of an arbitrary model on dictionaries in memory (method dispatch)
    (src/icgpm.py:38). *)
Fixpoint observe_at (c : cgpm) : observe_a :=
  match c with
  | CDist d => fun rid obs I h => Ret (h, let (d', r) := dist_observe d rid (get h obs) (get h I) in (CDist d', r))
  | CProd cs => fun rid obs I h =>
      let! r := prod_observe_a (map (fun c' => (c', observe_at c')) cs) rid obs I h in
      Ret (fst r, (CProd (fst (snd r)), snd (snd r)))
  | CFinArr ix cs r2i => finarr_observe_a ix cs (map observe_at cs) r2i
  | CFlexArr ix base cs r2i =>
      flexarr_observe_a ix base (observe_at base) cs
        (map (fun p => let '(k, c') := p in (k, observe_at c')) cs) r2i
  | CMix flex div arr r2c => mix_observe_a flex div arr (observe_at arr) r2c
  end.
