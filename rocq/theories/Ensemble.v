(** Ensembles of CrossCat models: src/crosscat_ensemble.py.

    Simplifications: arguments of the wrong Python type raise TypeError at once; the random
    generators of the chains, seeded by the ensemble (src/crosscat_ensemble.py:183), are draws
    like any others; the worker processes of [parallel_map] (an external function, line 164)
    work on copies of the chains and their draws are listed chain by chain. *)
From Coq Require Import List ZArith QArith Qcanon Reals Bool String.
From Verif Require Import Base Xr Samp Lgamma Prims Cgpm Trans Meta Walks Alias Views Sample Cpp.
Import ListNotations.
Local Open Scope Z_scope.

(** ** Random models *)

(** A distribution: its name and its arguments, of which only the integer 'k' of a
    categorical is read (src/crosscat_ensemble.py:36-46, src/categorical.py:29, 34). *)
Definition distribution : Type := string * dict string Z.

(** src/crosscat_ensemble.py:36-46 make_random_primitive with distribution_to_cgpm. The
    defaults: src/crp.py:36, src/categorical.py:40, src/bernoulli.py:39-40,
    src/normal.py:43-46, src/poisson.py:39-40. *)
Definition make_random_primitive (output : Z) (distribution : distribution) : out dist :=
  let (name, distargs) := distribution in
  if String.eqb name "categorical" then
    do k <- dget "k"%string distargs;
    if Z.leb 0 k then Ok (DCat (cat_new output k 1%Qc)) else Err ValueError
  else if String.eqb name "crp" then Ok (DCrp (crp_new output 1%Qc))
  else if String.eqb name "bernoulli" then Ok (DBer (ber_new output 1%Qc 1%Qc))
  else if String.eqb name "normal" then omap DNrm (nrm_new output 0%Qc 1%Qc 1%Qc 1%Qc)
  else if String.eqb name "poisson" then omap DPoi (poi_new output 1%Qc 1%Qc)
  else Err KeyError.

(** src/crosscat_ensemble.py:48-58 make_random_view *)
Definition make_random_view (outs : list Z) (distributions : list distribution) : samp (out cgpm) :=
  DrawInt 0 (2 ^ 32 - 1) (fun crp_output =>
    Ret (do cgpm_base_list <- oseq (map (fun p => make_random_primitive (fst p) (snd p)) (combine outs distributions));
         do base <- new_product (map CDist cgpm_base_list);
         Ok (new_flexmix (DCrp (crp_new crp_output 1%Qc)) base))).

(** src/crosscat_ensemble.py:60-64 make_random_partition. [constrained]: are there Cd or Ci;
    [crp_constrained N alpha] is the external simulate_crp_constrained; [order] is the order
    in which a set is iterated over. *)
Definition make_random_partition (order : list Z -> list Z) (crp_constrained : nat -> Qc -> samp (out (list Z)))
  (constrained : bool) (N : nat) (alpha : Qc) : samp (out (list (list nat))) :=
  if negb constrained then smap (omap (map (map Z.to_nat))) (generate_random_partition alpha N)
  else smap (omap (partition_assignments_to_blocks order)) (crp_constrained N alpha).

(** [[l[i] for i in block]] (src/crosscat_ensemble.py:73-74) *)
Definition select {A} (l : list A) (block : list nat) : out (list A) :=
  oseq (map (fun i => match nth_error l i with Some a => Ok a | None => Err IndexError end) block).

(** The list comprehension of src/crosscat_ensemble.py:71-77 *)
Fixpoint make_views (outs : list Z) (distributions : list distribution) (partition : list (list nat))
  : samp (out (list cgpm)) :=
  match partition with
  | [] => Ret (Ok [])
  | block :: partition' =>
    match (do os <- select outs block; do ds <- select distributions block; Ok (os, ds)) with
    | Err e => Ret (Err e)
    | Ok p =>
      sobind (make_random_view (fst p) (snd p)) (fun v =>
      sobind (make_views outs distributions partition') (fun vs => Ret (Ok (v :: vs))))
    end
  end.

(** src/crosscat_ensemble.py:66-79 make_random_crosscat *)
Definition make_random_crosscat (order : list Z -> list Z) (crp_constrained : nat -> Qc -> samp (out (list Z)))
  (constrained : bool) (outs : list Z) (distributions : list distribution) : samp (out cgpm) :=
  DrawQ (Gamma 2 1) (fun alpha =>
    sobind (make_random_partition order crp_constrained constrained (List.length outs) alpha) (fun partition =>
    sobind (make_views outs distributions partition) (fun views => Ret (new_product views)))).

(** ** Calls *)

(** An argument of a method: None, an int, a dict, a list of outputs
    (src/crosscat_ensemble.py:189-262). *)
Inductive arg := ANone | AInt (z : Z) | ADict (d : row) | AList (l : list Z).

(** [constraints or {}], [inputs or {}] (src/crosscat_ensemble.py:226-229) *)
Definition as_dict (a : arg) : option row :=
  match a with ANone => Some [] | ADict d => Some d | _ => None end.

(** A rowid that may be None (src/crosscat_ensemble.py:226). *)
Definition as_rowid (a : arg) : option (option Z) :=
  match a with ANone => Some None | AInt r => Some (Some r) | _ => None end.

(** A number of samples that may be None (src/crosscat_ensemble.py:246). *)
Definition as_count (a : arg) : option (option nat) :=
  match a with ANone => Some None | AInt n => Some (Some (Z.to_nat n)) | _ => None end.

(** [crosscat.observe( *args)] (src/crosscat_ensemble.py:84, 190-191; src/chain.py:49-51) *)
Definition call_observe (args : list arg) (c : cgpm) : samp (cgpm * out unit) :=
  match args with
  | [AInt rowid; ADict observation; ins] =>
      match as_dict ins with
      | Some i => observe c rowid observation i
      | None => Ret (c, Err TypeError)
      end
  | _ => Ret (c, Err TypeError)
  end.

(** [crosscat.unobserve( *args)] (src/crosscat_ensemble.py:84, 204-205; src/chain.py:53-58) *)
Definition call_unobserve (args : list arg) (c : cgpm) : samp (cgpm * out (row * row)) :=
  match args with
  | [AInt rowid] => Ret (unobserve c rowid)
  | _ => Ret (c, Err TypeError)
  end.

(** [crosscat.logpdf_score( *args)] (src/crosscat_ensemble.py:94, 218-219; src/chain.py:98-99) *)
Definition call_score (args : list arg) (c : cgpm) : samp (cgpm * out xr) :=
  Ret (c, match args with [] => score c | _ => Err TypeError end).

(** [crosscat.logpdf( *args)] (src/crosscat_ensemble.py:94, 228-229; src/product.py:37-40) *)
Definition call_logpdf (args : list arg) (c : cgpm) : samp (cgpm * out xr) :=
  Ret (c, match args with
          | [rowid; ADict targets; constraints; ins] =>
              match as_rowid rowid, as_dict constraints, as_dict ins with
              | Some r, Some C, Some i => logpdf c r targets C i
              | _, _, _ => Err TypeError
              end
          | _ => Err TypeError
          end).

(** [crosscat.simulate( *args)] (src/crosscat_ensemble.py:94, 248-249; src/product.py:32-35) *)
Definition call_simulate (args : list arg) (c : cgpm) : samp (cgpm * out sres) :=
  match args with
  | [rowid; AList targets; constraints; ins; N] =>
      match as_rowid rowid, as_dict constraints, as_dict ins, as_count N with
      | Some r, Some C, Some i, Some n => smap (fun s => (c, s)) (simulate c r targets C i n)
      | _, _, _, _ => Ret (c, Err TypeError)
      end
  | _ => Ret (c, Err TypeError)
  end.

(** [zip] of lists of length [N] (src/crosscat_ensemble.py:123) *)
Fixpoint zip (N : nat) (ls : list (list arg)) : list (list arg) :=
  match N with
  | O => []
  | S N' => map (hd ANone) ls :: zip N' (map (@tl arg) ls)
  end.

(** [listify] (src/crosscat_ensemble.py:116-121) *)
Definition listify (N : nat) (a : option (list arg)) : out (list arg) :=
  match a with
  | None => Ok (repeat ANone N)
  | Some l => do _ <- oassert (Nat.eqb (List.length l) N); Ok l
  end.

(** src/crosscat_ensemble.py:112-123 make_args_list *)
Definition make_args_list (args : list (option (list arg))) : out (list (list arg)) :=
  let Ns := flat_map (fun a => match a with Some l => [List.length l] | None => [] end) args in
  match Ns with
  | [] => Err IndexError
  | N :: _ =>
    do _ <- oassert (forallb (fun n => Nat.eqb n N) Ns);
    do args_list <- oseq (map (listify N) args);
    Ok (zip N args_list)
  end.

(** src/crosscat_ensemble.py:83-85 _modify, given the method and its arguments *)
Definition modify {A} (method : list arg -> cgpm -> samp (cgpm * out A)) (args : list arg) (c : cgpm)
  : samp (cgpm * out cgpm) :=
  let! p := method args c in Ret (fst p, do _ <- snd p; Ok (fst p)).

(** The calls, one after the other, of src/crosscat_ensemble.py:89-90 and 98 *)
Fixpoint call_all {A} (method : list arg -> cgpm -> samp (cgpm * out A)) (l : list (list arg)) (c : cgpm)
  : samp (cgpm * out (list A)) :=
  match l with
  | [] => Ret (c, Ok [])
  | args :: l' =>
    let! p := method args c in
    match snd p with
    | Err e => Ret (fst p, Err e)
    | Ok a => let! q := call_all method l' (fst p) in Ret (fst q, omap (cons a) (snd q))
    end
  end.

(** src/crosscat_ensemble.py:87-91 _modify_bulk *)
Definition modify_bulk {A} (method : list arg -> cgpm -> samp (cgpm * out A)) (args : list (option (list arg))) (c : cgpm)
  : samp (cgpm * out cgpm) :=
  match make_args_list args with
  | Err e => Ret (c, Err e)
  | Ok args_list => let! p := call_all method args_list c in Ret (fst p, do _ <- snd p; Ok (fst p))
  end.

(** src/crosscat_ensemble.py:96-98 _evaluate_bulk *)
Definition evaluate_bulk {A} (method : list arg -> cgpm -> samp (cgpm * out A)) (args : list (option (list arg))) (c : cgpm)
  : samp (cgpm * out (list A)) :=
  match make_args_list args with
  | Err e => Ret (c, Err e)
  | Ok args_list => call_all method args_list c
  end.

(** ** Ensembles *)

(** src/crosscat_ensemble.py:173-185: the attributes chains and cgpms; outputs and
    distributions are only read by the queries and by to_metadata. *)
Record ensemble := mkEns {
  chains : nat;
  ens_outputs : list Z;
  ens_distributions : list distribution;
  cgpms : list cgpm }.

(** [self.cgpms = ...] (src/crosscat_ensemble.py:193) *)
Definition with_cgpms (e : ensemble) (cs : list cgpm) : ensemble :=
  mkEns (chains e) (ens_outputs e) (ens_distributions e) cs.

(** What is to be done on a chain, and the chain (src/crosscat_ensemble.py:190-192). *)
Definition job (A : Type) : Type := (cgpm -> samp (cgpm * out A)) * cgpm.

(** [map(func, args)] (src/crosscat_ensemble.py:161): chains are changed in place, in order;
    an exception leaves the chains that follow as they were. *)
Fixpoint map_jobs {A} (jobs : list (job A)) : samp (list cgpm * out (list A)) :=
  match jobs with
  | [] => Ret ([], Ok [])
  | (f, c) :: jobs' =>
    let! p := f c in
    match snd p with
    | Err e => Ret (fst p :: map snd jobs', Err e)
    | Ok a => let! q := map_jobs jobs' in Ret (fst p :: fst q, omap (cons a) (snd q))
    end
  end.

(** What the workers of [parallel_map] answer (src/crosscat_ensemble.py:159-164). *)
Fixpoint run_jobs {A} (jobs : list (job A)) : samp (list (out A)) :=
  match jobs with
  | [] => Ret []
  | (f, c) :: jobs' => let! p := f c in let! q := run_jobs jobs' in Ret (snd p :: q)
  end.

(** src/crosscat_ensemble.py:159-164 mapper, with the chains as they are afterwards. *)
Definition mapper {A} (multiprocess : bool) (jobs : list (job A)) : samp (list cgpm * out (list A)) :=
  if negb multiprocess then map_jobs jobs
  else let! l := run_jobs jobs in Ret (map snd jobs, oseq l).

(** [[... self.cgpms[chain] ... for chain in self.chains_list]], e.g.
    src/crosscat_ensemble.py:190-192 *)
Definition jobs_of {A} (e : ensemble) (f : nat -> cgpm -> samp (cgpm * out A)) : out (list (job A)) :=
  oseq (map (fun chain => match nth_error (cgpms e) chain with
                          | Some c => Ok (f chain, c)
                          | None => Err IndexError
                          end) (seq 0 (chains e))).

(** The calls that keep what the jobs return as the new chains:
    src/crosscat_ensemble.py:189-193, 203-207, 329-332. *)
Definition ens_modify (e : ensemble) (multiprocess : bool) (f : cgpm -> samp (cgpm * out cgpm)) : samp (ensemble * out unit) :=
  match jobs_of e (fun _ => f) with
  | Err x => Ret (e, Err x)
  | Ok jobs =>
    let! r := mapper multiprocess jobs in
    match snd r with
    | Ok cs => Ret (with_cgpms e cs, Ok tt)
    | Err x => Ret (with_cgpms e (fst r ++ skipn (chains e) (cgpms e)), Err x)
    end
  end.

(** The calls that return what the jobs return: src/crosscat_ensemble.py:217-222, 226-232,
    246-252, 278-283, 301-306, 336-371. *)
Definition ens_evaluate {A} (e : ensemble) (multiprocess : bool) (f : nat -> cgpm -> samp (cgpm * out A))
  : samp (ensemble * out (list A)) :=
  match jobs_of e f with
  | Err x => Ret (e, Err x)
  | Ok jobs =>
    let! r := mapper multiprocess jobs in
    Ret (with_cgpms e (fst r ++ skipn (chains e) (cgpms e)), snd r)
  end.

(** src/crosscat_ensemble.py:189-199 observe, observe_bulk *)
Definition ens_observe (e : ensemble) (rowid observation ins : arg) (multiprocess : bool) :=
  ens_modify e multiprocess (modify call_observe [rowid; observation; ins]).
(** src/crosscat_ensemble.py:198-199 observe_bulk *)
Definition ens_observe_bulk (e : ensemble) (rowids observations ins : option (list arg)) (multiprocess : bool) :=
  ens_modify e multiprocess (modify_bulk call_observe [rowids; observations; ins]).

(** src/crosscat_ensemble.py:203-213 unobserve, unobserve_bulk *)
Definition ens_unobserve (e : ensemble) (rowid : arg) (multiprocess : bool) :=
  ens_modify e multiprocess (modify call_unobserve [rowid]).
(** src/crosscat_ensemble.py:212-213 unobserve_bulk *)
Definition ens_unobserve_bulk (e : ensemble) (rowids : option (list arg)) (multiprocess : bool) :=
  ens_modify e multiprocess (modify_bulk call_unobserve [rowids]).

(** src/crosscat_ensemble.py:217-222 logpdf_score *)
Definition ens_score (e : ensemble) (multiprocess : bool) :=
  ens_evaluate e multiprocess (fun _ => call_score []).

(** src/crosscat_ensemble.py:226-242 logpdf, logpdf_bulk *)
Definition ens_logpdf (e : ensemble) (rowid targets constraints ins : arg) (multiprocess : bool) :=
  ens_evaluate e multiprocess (fun _ => call_logpdf [rowid; targets; constraints; ins]).
(** src/crosscat_ensemble.py:239-242 logpdf_bulk *)
Definition ens_logpdf_bulk (e : ensemble) (rowids targets constraints ins : option (list arg)) (multiprocess : bool) :=
  ens_evaluate e multiprocess (fun _ => evaluate_bulk call_logpdf [rowids; targets; constraints; ins]).

(** src/crosscat_ensemble.py:246-262 simulate, simulate_bulk *)
Definition ens_simulate (e : ensemble) (rowid targets constraints ins N : arg) (multiprocess : bool) :=
  ens_evaluate e multiprocess (fun _ => call_simulate [rowid; targets; constraints; ins; N]).
(** src/crosscat_ensemble.py:259-262 simulate_bulk *)
Definition ens_simulate_bulk (e : ensemble) (rowids targets constraints ins Ns : option (list arg)) (multiprocess : bool) :=
  ens_evaluate e multiprocess (fun _ => evaluate_bulk call_simulate [rowids; targets; constraints; ins; Ns]).

(** src/crosscat_ensemble.py:266-269 _process_heterogenous_args; [none] stands for None *)
Definition process_heterogeneous {A} (none : A) (e : ensemble) (a : option (list A)) : out (list A) :=
  let args_return := match a with Some l => l | None => repeat none (chains e) end in
  do _ <- oassert (Nat.eqb (List.length args_return) (chains e)); Ok args_return.

(** src/crosscat_ensemble.py:273-281, 297-304: the arguments of every chain *)
Definition heterogeneous {A B} (none : A) (e : ensemble) (args : list (option (list A))) (multiprocess : bool)
  (f : list A -> cgpm -> samp (cgpm * out B)) : samp (ensemble * out (list B)) :=
  match oseq (map (process_heterogeneous none e) args) with
  | Err x => Ret (e, Err x)
  | Ok ls => ens_evaluate e multiprocess (fun chain => f (map (fun l => nth chain l none) ls))
  end.

(** src/crosscat_ensemble.py:271-293 simulate_heterogeneous and its bulk form *)
Definition ens_simulate_heterogeneous (e : ensemble) (rowid targets constraints ins N : option (list arg)) (multiprocess : bool) :=
  heterogeneous ANone e [rowid; targets; constraints; ins; N] multiprocess call_simulate.
(** src/crosscat_ensemble.py:290-293 simulate_heterogeneous_bulk *)
Definition ens_simulate_heterogeneous_bulk (e : ensemble) (rowid targets constraints ins Ns : option (list (option (list arg))))
  (multiprocess : bool) :=
  heterogeneous None e [rowid; targets; constraints; ins; Ns] multiprocess (evaluate_bulk call_simulate).

(** src/crosscat_ensemble.py:295-316 logpdf_heterogeneous and its bulk form *)
Definition ens_logpdf_heterogeneous (e : ensemble) (rowid targets constraints ins : option (list arg)) (multiprocess : bool) :=
  heterogeneous ANone e [rowid; targets; constraints; ins] multiprocess call_logpdf.
(** src/crosscat_ensemble.py:313-316 logpdf_heterogeneous_bulk *)
Definition ens_logpdf_heterogeneous_bulk (e : ensemble) (rowid targets constraints ins : option (list (option (list arg))))
  (multiprocess : bool) :=
  heterogeneous None e [rowid; targets; constraints; ins] multiprocess (evaluate_bulk call_logpdf).

(** src/crosscat_ensemble.py:107-110 _alter and 329-332 transition: the program returns the
    model that takes the place of the chain. *)
Definition ens_transition (e : ensemble) (program : cgpm -> samp (cgpm * out cgpm)) (multiprocess : bool) :=
  ens_modify e multiprocess program.

(** The list comprehension of src/crosscat_ensemble.py:184-185 *)
Fixpoint make_chains (m : samp (out cgpm)) (n : nat) : samp (out (list cgpm)) :=
  match n with
  | O => Ret (Ok [])
  | S n' => sobind m (fun c => sobind (make_chains m n') (fun l => Ret (Ok (c :: l))))
  end.

(** src/crosscat_ensemble.py:168-185 CrossCatEnsemble.__init__ (inputs are empty) *)
Definition new_ensemble (order : list Z -> list Z) (crp_constrained : nat -> Qc -> samp (out (list Z)))
  (constrained : bool) (outs : list Z) (distributions : list distribution) (n : nat) : samp (out ensemble) :=
  if Nat.eqb (List.length outs) (List.length distributions) then
    sobind (make_chains (make_random_crosscat order crp_constrained constrained outs distributions) n)
      (fun cs => Ret (Ok (mkEns n outs distributions cs)))
  else Ret (Err AssertionError).

(** src/crosscat_ensemble.py:375-400: from_metadata of to_metadata. The constructor first
    makes random chains, which are then replaced. *)
Definition ens_reload (order : list Z -> list Z) (crp_constrained : nat -> Qc -> samp (out (list Z)))
  (constrained : bool) (e : ensemble) : samp (out ensemble) :=
  sobind (new_ensemble order crp_constrained constrained (ens_outputs e) (ens_distributions e) (chains e)) (fun e' =>
    Ret (omap (with_cgpms e') (oseq (map clone (cgpms e))))).

(** ** Queries on the structure *)

(** [self.output_to_index] of a Product (src/product.py:29-30) *)
Definition output_to_index (c : cgpm) : dict Z nat :=
  dict_of (flat_map (fun p : nat * cgpm => map (fun o => (o, fst p)) (outputs (snd p))) (enum_from 0 (views_of c))).

(** src/crosscat_ensemble.py:127-130 same_assignment_column *)
Definition same_assignment_column (crosscat : cgpm) (output0 output1 : Z) : out bool :=
  do view_idx0 <- dget output0 (output_to_index crosscat);
  do view_idx1 <- dget output1 (output_to_index crosscat);
  Ok (Nat.eqb view_idx0 view_idx1).

(** [crosscat.cgpms[view_idx]] (src/crosscat_ensemble.py:134, 149) *)
Definition view_at (crosscat : cgpm) (view_idx : nat) : out cgpm :=
  match nth_error (views_of crosscat) view_idx with Some v => Ok v | None => Err IndexError end.

(** src/crosscat_ensemble.py:132-137 same_assignment_row *)
Definition same_assignment_row (crosscat : cgpm) (output row0 row1 : Z) : out bool :=
  do view_idx <- dget output (output_to_index crosscat);
  do view <- view_at crosscat view_idx;
  match view with
  | CMix _ div _ _ =>
      do cluster_idx0 <- dget row0 (dist_data div);
      do cluster_idx1 <- dget row1 (dist_data div);
      Ok (eqb cluster_idx0 cluster_idx1)
  | _ => Err AttributeError
  end.

(** numpy's [eye] (src/crosscat_ensemble.py:140, 150) *)
Definition eye (n : nat) : list (list Z) :=
  map (fun i => map (fun j => if Nat.eqb i j then 1 else 0) (seq 0 n)) (seq 0 n).

(** [matrix[i, j] = matrix[j, i] = d] (src/crosscat_ensemble.py:144, 154) *)
Definition mset (i j : nat) (d : bool) (matrix : list (list Z)) : list (list Z) :=
  let put i j m := set_nth i (set_nth j (if d then 1 else 0) (nth i m [])) m in
  put j i (put i j matrix).

(** [itertools.combinations(l, 2)] (src/crosscat_ensemble.py:142, 152) *)
Fixpoint combinations2 (l : list Z) : list (Z * Z) :=
  match l with
  | [] => []
  | i :: l' => map (fun j => (i, j)) l' ++ combinations2 l'
  end.

(** src/crosscat_ensemble.py:140-145, 150-155: the loop over the pairs *)
Definition pairwise (l : list Z) (same : Z -> Z -> out bool) : out (list (list Z)) :=
  let reindex := dict_of (map (fun p : nat * Z => (snd p, fst p)) (enum_from 0 l)) in
  fold_left (fun acc p =>
      do matrix <- acc;
      do d <- same (fst p) (snd p);
      do i <- dget (fst p) reindex;
      do j <- dget (snd p) reindex;
      Ok (mset i j d matrix))
    (combinations2 l) (Ok (eye (List.length l))).

(** src/crosscat_ensemble.py:139-145 same_assignment_column_pairwise *)
Definition same_assignment_column_pairwise (crosscat : cgpm) (outs : list Z) : out (list (list Z)) :=
  pairwise outs (same_assignment_column crosscat).

(** src/crosscat_ensemble.py:147-155 same_assignment_row_pairwise *)
Definition same_assignment_row_pairwise (crosscat : cgpm) (output : Z) : out (list (list Z)) :=
  do view_idx <- dget output (output_to_index crosscat);
  do view <- view_at crosscat view_idx;
  do rowids <- get_rowids view;
  pairwise rowids (same_assignment_row crosscat output).

(** src/crosscat_ensemble.py:336-360: the queries on every chain *)
Definition ens_same_assignment_column (e : ensemble) (output0 output1 : Z) (multiprocess : bool) :=
  ens_evaluate e multiprocess (fun _ c => Ret (c, same_assignment_column c output0 output1)).
(** src/crosscat_ensemble.py:342-347 same_assignment_column_pairwise *)
Definition ens_same_assignment_column_pairwise (e : ensemble) (multiprocess : bool) :=
  ens_evaluate e multiprocess (fun _ c => Ret (c, same_assignment_column_pairwise c (ens_outputs e))).
(** src/crosscat_ensemble.py:349-353 same_assignment_row *)
Definition ens_same_assignment_row (e : ensemble) (output rowid0 rowid1 : Z) (multiprocess : bool) :=
  ens_evaluate e multiprocess (fun _ c => Ret (c, same_assignment_row c output rowid0 rowid1)).
(** src/crosscat_ensemble.py:355-360 same_assignment_row_pairwise *)
Definition ens_same_assignment_row_pairwise (e : ensemble) (output : Z) (multiprocess : bool) :=
  ens_evaluate e multiprocess (fun _ c => Ret (c, same_assignment_row_pairwise c output)).
