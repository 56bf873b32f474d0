(** Inference on a whole CrossCat model: the kernels of src/transition_crosscat.py. *)
From Coq Require Import List ZArith QArith Qcanon Reals Bool String.
From Verif Require Import Base Xr Samp Lgamma Prims Cgpm Trans Meta Walks Views Hypers Progress.
Import ListNotations.
Local Open Scope Z_scope.

(** The model once the objects returned by [get_cgpms_by_output_index c o]
    (src/walks.py:24-45) have become the first of [ds], in the same order; the rest of [ds] is
    returned. src/transition_crosscat.py:131, 136 change these objects in place. *)
Fixpoint put_column (o : Z) (c : cgpm) (ds : list dist) : cgpm * list dist :=
  match c with
  | CDist d =>
      if dist_o d =? o then match ds with d' :: rest => (CDist d', rest) | [] => (c, []) end
      else (c, ds)
  | CProd cs =>
      let (cs', rest) :=
        (fix go (cs : list cgpm) (ds : list dist) : list cgpm * list dist :=
           match cs with
           | [] => ([], ds)
           | c :: cs' =>
             let (c1, ds1) := (if memb o (outputs c) then put_column o c ds else (c, ds)) in
             let (cs1, ds2) := go cs' ds1 in (c1 :: cs1, ds2)
           end) cs ds in
      (CProd cs', rest)
  | CFinArr ix cs r2i =>
      let (cs', rest) :=
        (fix go (cs : list cgpm) (ds : list dist) : list cgpm * list dist :=
           match cs with
           | [] => ([], ds)
           | c :: cs' =>
             let (c1, ds1) := put_column o c ds in
             let (cs1, ds2) := go cs' ds1 in (c1 :: cs1, ds2)
           end) cs ds in
      (CFinArr ix cs' r2i, rest)
  | CFlexArr ix base cs r2i =>
      let (cs', ds1) :=
        (fix go (cs : dict val cgpm) (ds : list dist) : dict val cgpm * list dist :=
           match cs with
           | [] => ([], ds)
           | (k, c) :: cs' =>
             let (c1, ds1) := put_column o c ds in
             let (cs1, ds2) := go cs' ds1 in ((k, c1) :: cs1, ds2)
           end) cs ds in
      let (base', rest) := put_column o base ds1 in
      (CFlexArr ix base' cs' r2i, rest)
  | CMix flex div arr r2c =>
      if dist_o div =? o then
        match ds with d' :: rest => (CMix flex d' arr r2c, rest) | [] => (c, []) end
      else let (arr', rest) := put_column o arr ds in (CMix flex div arr' r2c, rest)
  end.

(** A GibbsCrossCat object (src/transition_crosscat.py:93-104) without the model itself:
    whether it was given dependence constraints, and its grids. *)
Record sampler := mkSampler {
  constrained : bool;
  grids_columns : dict Z grids;
  grids_dividers : grids }.

(** src/transition_crosscat.py:66-74 validate_crosscat *)
Definition validate_crosscat (c : cgpm) : out unit :=
  match c with
  | CProd vs =>
      oassert (forallb (fun v =>
        match v with
        | CMix true (DCrp _) (CFlexArr _ (CProd cs) _ _) _ => forallb (fun c' => match c' with CDist _ => true | _ => false end) cs
        | _ => false
        end) vs)
  | _ => Err AssertionError
  end.

(** src/transition_crosscat.py:93-104 GibbsCrossCat.__init__ with n_grid=30; validating the
    constraints (line 100) is done by [new_gibbs] (Depend.v). [logspace] stands for log_linspace. *)
Definition new_sampler (logspace : Qc -> Qc -> nat -> list Qc) (with_constraints : bool) (c : cgpm) : out sampler :=
  do _ <- validate_crosscat c;
  do row <- match views_of c with
            | CMix _ div _ _ :: _ => transition_hyper_grids logspace [div] 30
            | _ => Err IndexError
            end;
  do cols <- oseq (map (fun o => do ds <- get_cgpms_by_output_index c o;
                                 do g <- transition_hyper_grids logspace ds 30; Ok (o, g))
                       (get_distribution_outputs c));
  Ok (mkSampler with_constraints cols row).

(** [outputs or get_distribution_outputs(crosscat)], src/transition_crosscat.py:41, 53, 163 *)
Definition outputs_or (c : cgpm) (outs : option (list Z)) : list Z :=
  match outs with None | Some [] => get_distribution_outputs c | Some l => l end.

(** A list without repetitions in any order: what iterating over a Python 2 set or dict gives
    (src/transition_crosscat.py:46, 130, 135). *)
Definition any_order {A B} (l : list A) (k : list A -> samp B) : samp B :=
  DrawPerm (List.length l) (fun p => k (flat_map (fun i => match nth_error l i with Some a => [a] | None => [] end) p)).

(** The loops of src/transition_crosscat.py:130-131 and 135-136: the components of each
    column are inferred with its grids. The components were looked up before the loop (line
    129, 134); those of one column are not affected by inference on another. *)
Fixpoint hypers_each (c : cgpm) (cols : list (Z * out grids)) : samp (cgpm * out unit) :=
  match cols with
  | [] => Ret (c, Ok tt)
  | (o, g) :: rest =>
    match (do gs <- g; do ds <- get_cgpms_by_output_index c o; Ok (gs, ds)) with
    | Err e => Ret (c, Err e)
    | Ok (gs, ds) =>
      let! r := transition_hypers ds gs in
      let c' := fst (put_column o c (fst r)) in
      match snd r with
      | Err e => Ret (c', Err e)
      | Ok _ => hypers_each c' rest
      end
    end
  end.

(** src/transition_crosscat.py:128-131 transition_hypers_distributions, with
    get_distribution_cgpms (lines 52-57). *)
Definition transition_hypers_distributions (g : sampler) (c : cgpm) (outs : option (list Z)) : samp (cgpm * out unit) :=
  match oseq (map (get_cgpms_by_output_index c) (outputs_or c outs)) with
  | Err e => Ret (c, Err e)
  | Ok _ =>
    any_order (nodup Z.eq_dec (outputs_or c outs)) (fun os => hypers_each c (map (fun o => (o, dget o (grids_columns g))) os))
  end.

(** src/transition_crosscat.py:40-46 get_row_mixture_cgpms: the indexes of the views, in any
    order. *)
Definition view_indexes (c : cgpm) (outs : option (list Z)) : out (list nat) :=
  do is <- oseq (map (fun o => get_cgpm_current_view_index c [o]) (outputs_or c outs));
  Ok (nodup Nat.eq_dec is).

(** src/transition_crosscat.py:133-136 transition_hypers_row_divide, with
    get_row_divide_cgpms (lines 59-64) and get_row_divide_outputs (lines 48-50). *)
Definition transition_hypers_row_divide (g : sampler) (c : cgpm) (outs : option (list Z)) : samp (cgpm * out unit) :=
  match (do is <- view_indexes c outs;
         do labels <- oseq (map (fun i => do v <- item (views_of c) i; first_output v) is);
         do _ <- oseq (map (get_cgpms_by_output_index c) labels);
         Ok labels) with
  | Err e => Ret (c, Err e)
  | Ok labels => any_order labels (fun os => hypers_each c (map (fun o => (o, Ok (grids_dividers g))) os))
  end.

(** src/transition_crosscat.py:86-89 get_rowids_transition; [rowids] None or empty means all *)
Definition get_rowids_transition (v : cgpm) (rowids : option (list Z)) : out (list Z) :=
  do rs <- get_rowids v;
  Ok (match rowids with None | Some [] => rs | Some l => filter (fun r => memb r l) rs end).

(** The inner loop of src/transition_crosscat.py:158-159 *)
Fixpoint rows_each (v : cgpm) (rids : list Z) : samp (cgpm * out unit) :=
  match rids with
  | [] => Ret (v, Ok tt)
  | r :: rest =>
    let! p := transition_rows v r in
    match snd p with
    | Err e => Ret (fst p, Err e)
    | Ok _ => rows_each (fst p) rest
    end
  end.

(** The outer loop of src/transition_crosscat.py:156-159 over the views *)
Fixpoint views_rows (c : cgpm) (is : list nat) (rowids : option (list Z)) : samp (cgpm * out unit) :=
  match is with
  | [] => Ret (c, Ok tt)
  | i :: rest =>
    match (do v <- item (views_of c) i; do rs <- get_rowids_transition v rowids; Ok (v, rs)) with
    | Err e => Ret (c, Err e)
    | Ok (v, rs) =>
      any_order rs (fun rids =>
        let! p := rows_each v rids in
        let c' := CProd (set_nth i (fst p) (views_of c)) in
        match snd p with
        | Err e => Ret (c', Err e)
        | Ok _ => views_rows c' rest rowids
        end)
    end
  end.

(** src/transition_crosscat.py:153-159 transition_row_assignments *)
Definition transition_row_assignments (c : cgpm) (outs rowids : option (list Z)) : samp (cgpm * out unit) :=
  match view_indexes c outs with
  | Err e => Ret (c, Err e)
  | Ok is => any_order is (fun is' => views_rows c is' rowids)
  end.

(** The dict of src/transition_crosscat.py:110-122 *)
Definition kernel_names : list string :=
  ["hypers_distributions"; "hypers_row_divide"; "hypers_column_divide"; "row_assignments"; "view_assignments"]%string.
(** The dict of src/transition_crosscat.py:110-122, read at a name. *)
Definition kernel_lookup (g : sampler) (outs rowids : option (list Z)) (name : string) : out (kernel cgpm) :=
  if String.eqb name "hypers_distributions" then Ok (fun c => transition_hypers_distributions g c outs)
  else if String.eqb name "hypers_row_divide" then Ok (fun c => transition_hypers_row_divide g c outs)
  else if String.eqb name "hypers_column_divide" then Ok (fun c => Ret (c, Ok tt))
  else if String.eqb name "row_assignments" then Ok (fun c => transition_row_assignments c outs rowids)
  else if String.eqb name "view_assignments" then Ok (fun c => transition_view_assignments (constrained g) c outs)
  else Err KeyError.

(** src/transition_crosscat.py:125-126: the kernels of the given names are scheduled. *)
Definition run_kernels (fuel : nat) (clock : nat -> Qc) (g : sampler) (c : cgpm) (N S : option Qc)
    (outs rowids : option (list Z)) (names : list string) : samp (cgpm * out unit) :=
  match oseq (map (kernel_lookup g outs rowids) names) with
  | Err e => Ret (c, Err e)
  | Ok ks => transition_generic fuel clock ks N S c
  end.

(** src/transition_crosscat.py:108-126 GibbsCrossCat.transition; the result is
    [self.crosscat] afterwards. Without [kernels], all five in any order. *)
Definition transition (fuel : nat) (clock : nat -> Qc) (g : sampler) (c : cgpm) (N S : option Qc)
    (kernels : option (list string)) (outs rowids : option (list Z)) : samp (cgpm * out unit) :=
  match kernels with
  | Some names => run_kernels fuel clock g c N S outs rowids names
  | None => any_order kernel_names (run_kernels fuel clock g c N S outs rowids)
  end.

(** src/transition_crosscat.py:204-206 GibbsCrossCat.set_hypers_distribution *)
Definition set_hypers_distribution (c : cgpm) (o : Z) (h : hypers) : cgpm * out unit :=
  match get_cgpms_by_output_index c o with
  | Err e => (c, Err e)
  | Ok ds => let (ds', r) := set_hypers ds h in (fst (put_column o c ds'), r)
  end.

(** src/transition_crosscat.py:208-210 GibbsCrossCat.set_hypers_row_divide *)
Definition set_hypers_row_divide (c : cgpm) (o : Z) (h : hypers) : cgpm * out unit :=
  match (do i <- get_cgpm_current_view_index c [o]; do v <- item (views_of c) i; first_output v) with
  | Err e => (c, Err e)
  | Ok label => set_hypers_distribution c label h
  end.

(** The loop of src/transition_crosscat.py:214-215 *)
Fixpoint views_reseat (c : cgpm) (is : list nat) (rid0 : Z) (rid1 : option Z) : samp (cgpm * out unit) :=
  match is with
  | [] => Ret (c, Ok tt)
  | i :: rest =>
    match item (views_of c) i with
    | Err e => Ret (c, Err e)
    | Ok v =>
      let! p := set_rowid_component v rid0 rid1 in
      let c' := CProd (set_nth i (fst p) (views_of c)) in
      match snd p with
      | Err e => Ret (c', Err e)
      | Ok _ => views_reseat c' rest rid0 rid1
      end
    end
  end.

(** src/transition_crosscat.py:212-215 GibbsCrossCat.set_rowid_component *)
Definition set_rowid_component_all (c : cgpm) (outs : option (list Z)) (rid0 : Z) (rid1 : option Z) : samp (cgpm * out unit) :=
  match view_indexes c outs with
  | Err e => Ret (c, Err e)
  | Ok is => any_order is (fun is' => views_reseat c is' rid0 rid1)
  end.
