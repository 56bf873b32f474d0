(** Transitions by the external engine: src/transition_crosscat_cpp.py.

    The engine itself (crosscat.LocalEngine) is not modelled: it is any function from what
    it is given to what it gives back. The structures exchanged are Python dicts with fixed
    keys; here they are records. A string 'c%d' or '%d' is represented by the number it
    shows. *)
From Coq Require Import List ZArith QArith Qcanon Reals Bool String.
From Verif Require Import Base Xr Samp Lgamma Prims Cgpm Trans Meta Walks Views Hypers Progress Crosscat.
Import ListNotations.
Local Open Scope Z_scope.

(** ** Assignments and blocks *)

(** [ [i for i, a in enumerate(assignments) if a == u] ], src/transition_crosscat_cpp.py:28 *)
Definition block_of {A} `{EqDec A} (u : A) (assignments : list A) : list nat :=
  map fst (filter (fun p => eqb (snd p) u) (enum_from 0 assignments)).

(** src/transition_crosscat_cpp.py:26-28 partition_assignments_to_blocks; [order l] are the
    members of [set(l)] in the order in which CPython iterates over them. *)
Definition partition_assignments_to_blocks {A} `{EqDec A} (order : list A -> list A) (assignments : list A) : list (list nat) :=
  map (fun u => block_of u assignments) (order assignments).

(** ** The data of a model *)

(** Python's stable [sorted(l, key=lambda v: v[0])], src/transition_crosscat_cpp.py:37 *)
Fixpoint insert_row {A} (p : Z * A) (l : list (Z * A)) : list (Z * A) :=
  match l with
  | [] => [p]
  | q :: l' => if fst p <=? fst q then p :: l else q :: insert_row p l'
  end.

(** The rest of the sort of src/transition_crosscat_cpp.py:37. *)
Fixpoint sort_rows {A} (l : list (Z * A)) : list (Z * A) :=
  match l with [] => [] | p :: l' => insert_row p (sort_rows l') end.

(** src/transition_crosscat_cpp.py:35-39 get_crosscat_dataset_one *)
Definition get_crosscat_dataset_one (c : cgpm) (o : Z) : out (list val) :=
  do l <- get_dataset c o;
  oseq (map (fun p : Z * row => dget o (snd p)) (sort_rows l)).

(** The dict comprehension of src/transition_crosscat_cpp.py:44. *)
Definition get_column (c : cgpm) (o : Z) : out (dict Z val) :=
  do l <- get_dataset c o;
  do xs <- oseq (map (fun p : Z * row => do x <- dget o (snd p); Ok (fst p, x)) l);
  Ok (dict_of xs).

(** src/transition_crosscat_cpp.py:41-47 get_crosscat_dataset *)
Definition get_crosscat_dataset (c : cgpm) : out (dict Z (dict Z val)) :=
  let outs := get_distribution_outputs c in
  do cols <- oseq (map (get_column c) outs);
  Ok (dict_of (combine outs cols)).

(** src/transition_crosscat_cpp.py:49-57: the empty component of every column, of which the
    code takes name, arguments and hyperparameters. Unpacking the transposed list of no columns
    raises. *)
Definition get_bases (c : cgpm) (outs : list Z) : out (list dist) :=
  do ds <- oseq (map (get_cgpm_base c) outs);
  match ds with [] => Err ValueError | _ => Ok ds end.

(** ** M_c *)

(** src/transition_crosscat_cpp.py:63-67 and 72-77: the metadata of a column, with
    value_to_code and code_to_value. *)
Inductive metadata := MNormal | MSymbols (value_to_code code_to_value : dict Z Z).

(** src/transition_crosscat_cpp.py:64-65, 73-75: code_to_value *)
Definition code_to_value (m : metadata) : dict Z Z :=
  match m with MNormal => [] | MSymbols _ c2v => c2v end.

(** [dict(zip(ks, vs))], src/transition_crosscat_cpp.py:74-75, 99-101 *)
Definition dict_zip {K V} `{EqDec K} (ks : list K) (vs : list V) : dict K V :=
  dict_of (combine ks vs).

(** The values that are not missing (src/transition_crosscat_cpp.py:69). *)
Definition present (data : list val) : list Qc := flat_map (fun x => match x with VQ q => [q] | VNan => [] end) data.

(** src/transition_crosscat_cpp.py:61-79 create_metadata; [srt] puts the values of
    [sorted(set(data))] in order: with NaNs among them, [sorted] gives no particular order.
    '%d' truncates. *)
Definition create_metadata (srt : list Qc -> list Qc) (data : list val) (base : dist) : out metadata :=
  match base with
  | DNrm _ => Ok MNormal
  | DCat s =>
      let categories := srt (nodup Qc_eq_dec (present data)) in
      do _ <- oassert (forallb (fun q => qleb 0 q && qltb q (qz (cat_k s)))%Qc categories);
      let codes := map trunc categories in
      let ncodes := zrange (List.length codes) in
      Ok (MSymbols (dict_zip ncodes codes) (dict_zip codes ncodes))
  | _ => Err AssertionError
  end.

(** M_c without idx_to_name, which is name_to_idx inverted: the names of the columns with their
    positions and the metadata (src/transition_crosscat_cpp.py:97-104). *)
Record metas := mkMetas { name_to_idx : dict Z nat; column_metadata : list metadata }.

(** src/transition_crosscat_cpp.py:81-104 _get_crosscat_M_c *)
Definition get_crosscat_M_c (srt : list Qc -> list Qc) (c : cgpm) (observations : dict Z (dict Z val)) : out metas :=
  let outs := get_distribution_outputs c in
  do bases <- get_bases c outs;
  do _ <- oassert (Nat.eqb (List.length observations) (List.length outs));
  do _ <- oassert (forallb (fun d => match d with DNrm _ | DCat _ => true | _ => false end) bases);
  do ms <- oseq (map (fun p : Z * dist => do obs <- dget (fst p) observations; create_metadata srt (values obs) (snd p)) (combine outs bases));
  Ok (mkMetas (dict_zip outs (seq 0 (List.length outs))) ms).

(** ** T *)

(** Equality of the sets of the keys of two dicts (src/transition_crosscat_cpp.py:109-110). *)
Definition same_set (l l' : list Z) : bool := forallb (fun z => memb z l') l && forallb (fun z => memb z l) l'.

(** src/transition_crosscat_cpp.py:108-112 observations_to_rowids_mapping: the rowid at each
    position *)
Definition observations_to_rowids_mapping (observations : dict Z (dict Z val)) : out (list Z) :=
  match map keys (values observations) with
  | [] => Err IndexError
  | r0 :: rest => do _ <- oassert (forallb (same_set r0) rest); Ok (zsort (nodup Z.eq_dec r0))
  end.

(** src/transition_crosscat_cpp.py:114-125 crosscat_value_to_code *)
Definition crosscat_value_to_code (M : metas) (x : val) (col : nat) : out val :=
  match x with
  | VNan => Ok VNan
  | VQ q =>
      do m <- item (column_metadata M) col;
      match code_to_value m with
      | [] => Ok (VQ q)
      | look =>
          do _ <- oassert (dmem (trunc q) look);
          omap vz (dget (trunc q) look)
      end
  end.

(** src/transition_crosscat_cpp.py:127-136 _get_crosscat_T *)
Definition get_crosscat_T (c : cgpm) (M : metas) (observations : dict Z (dict Z val)) : out (list (list val)) :=
  do rowids <- observations_to_rowids_mapping observations;
  oseq (map (fun r =>
    oseq (map (fun p : nat * Z => do obs <- dget (snd p) observations; do x <- dget r obs; crosscat_value_to_code M x (fst p))
              (enum_from 0 (get_distribution_outputs c)))) rowids).

(** ** X_D *)

(** src/transition_crosscat_cpp.py:147-159: the clusters of one view numbered in increasing
    order. The tables of a CRP are ints (src/crp.py:43). *)
Definition remapped (assignments : list val) : out (list Z) :=
  let tables := map (fun x => match x with VQ q => trunc q | VNan => 0 end) assignments in
  let blocks := zsort (nodup Z.eq_dec tables) in
  oseq (map (fun b => dget b (dict_zip blocks (zrange (List.length blocks)))) tables).

(** src/transition_crosscat_cpp.py:140-162 _get_crosscat_X_D *)
Definition get_crosscat_X_D (c : cgpm) : out (list (list Z)) :=
  do assignments <- oseq (map (fun v => do o <- first_output v; get_crosscat_dataset_one c o) (views_of c));
  oseq (map remapped assignments).

(** ** X_L *)

(** src/transition_crosscat_cpp.py:166-184 create_hypers *)
Definition create_hypers (M : metas) (index : nat) (base : dist) : out hypers :=
  (let h := dist_get_hypers base in
  match base with
  | DNrm _ =>
      do m <- dget "m" h; do nu <- dget "nu" h; do r <- dget "r" h; do s <- dget "s" h;
      Ok [("fixed", 0%Qc); ("mu", m); ("nu", nu); ("r", r); ("s", s)]
  | DCat _ =>
      do md <- item (column_metadata M) index;
      let K := List.length (code_to_value md) in
      do _ <- oassert (Nat.ltb 0 K);
      do alpha <- dget "alpha" h;
      Ok [("fixed", 0%Qc); ("dirichlet_alpha", alpha); ("K", qz (Z.of_nat K))]
  | _ => Err AssertionError
  end)%string.

(** np.bincount of a list of nonnegative ints (src/transition_crosscat_cpp.py:200, 230): how
    often each of 0..max occurs. *)
Definition bincount (l : list Z) : list Z :=
  match l with
  | [] => []
  | x :: l' => map (fun i => Z.of_nat (List.length (filter (Z.eqb i) l))) (zrange (Z.to_nat (zmax x l' + 1)))
  end.

(** An entry of X_L['view_state'] (src/transition_crosscat_cpp.py:201-211); of the empty
    column_component_suffstats the number of blocks is kept. *)
Record view_state := mkViewState { vs_blocks : nat; vs_columns : list Z; vs_counts : list Z; vs_alpha : Qc }.

(** src/transition_crosscat_cpp.py:186-211 create_view_state *)
Definition create_view_state (v : cgpm) (row_partition : list Z) : out view_state :=
  match v with
  | CMix _ div _ _ =>
      do alpha <- dget "alpha"%string (dist_get_hypers div);
      let counts := bincount row_partition in
      do _ <- oassert (negb (memb 0 counts));
      Ok (mkViewState (List.length (nodup Z.eq_dec row_partition)) (tl (outputs v)) counts alpha)
  | _ => Err AttributeError
  end.

(** X_L (src/transition_crosscat_cpp.py:263-268): the hyperparameters of the columns, the view
    of each column with the sizes of the views (the concentration is always 1), the states of
    the views, and the constraints. *)
Record latents := mkLatents {
  column_hypers : list hypers;
  assignments : list Z;
  partition_counts : list Z;
  view_states : list view_state;
  dependent : option (dict nat (list nat));
  independent : option (dict nat (list nat)) }.

(** The dict comprehensions of src/transition_crosscat_cpp.py:250-261 over (column, block)
    pairs. *)
Definition ensure (inverse : dict Z nat) (l : list (Z * list Z)) : out (dict nat (list nat)) :=
  do es <- oseq (map (fun p : Z * list Z => do i <- dget (fst p) inverse; do js <- oseq (map (fun c => dget c inverse) (snd p)); Ok (i, js)) l);
  Ok (dict_of es).

(** src/transition_crosscat_cpp.py:213-268 _get_crosscat_X_L; [scc] stands for
    get_scc_from_tuples of crosscat.utils.general_utils. *)
Definition get_crosscat_X_L (scc : list (list Z) -> list (Z * list Z)) (c : cgpm) (M : metas) (X_D : list (list Z))
    (Cd Ci : list (list Z)) : out latents :=
  let outs := get_distribution_outputs c in
  do bases <- get_bases c outs;
  do ch <- oseq (map (fun p : nat * dist => create_hypers M (fst p) (snd p)) (enum_from 0 bases));
  do va <- oseq (map (fun o => omap Z.of_nat (get_cgpm_current_view_index c [o])) outs);
  let counts := bincount va in
  do _ <- oassert (negb (memb 0 counts));
  do vs <- oseq (map (fun p : cgpm * list Z => create_view_state (fst p) (snd p)) (combine (views_of c) X_D));
  let inverse := dict_zip outs (seq 0 (List.length outs)) in
  do dep <- match Cd with [] => Ok None | _ => omap Some (ensure inverse (flat_map (fun b => map (fun col => (col, b)) b) Cd)) end;
  do ind <- match Ci with [] => Ok None | _ => omap Some (ensure inverse (scc Ci)) end;
  Ok (mkLatents ch va counts vs dep ind).

(** ** Taking the engine's answer over *)

(** The loop of src/transition_crosscat_cpp.py:307-308. *)
Fixpoint join_columns (c : cgpm) (first : Z) (members : list Z) : samp (out cgpm) :=
  match members with
  | [] => Ret (Ok c)
  | m :: rest =>
    let! p := set_cgpm_view_assignment c m (Some first) in
    match snd p with
    | Err e => Ret (Err e)
    | Ok c' => join_columns c' first rest
    end
  end.

(** The loop of src/transition_crosscat_cpp.py:316-317, in place. *)
Fixpoint join_rows (v : cgpm) (first : Z) (members : list Z) : samp (cgpm * out unit) :=
  match members with
  | [] => Ret (v, Ok tt)
  | r :: rest =>
    let! p := set_rowid_component v r (Some first) in
    match snd p with
    | Err e => Ret (fst p, Err e)
    | Ok _ => join_rows (fst p) first rest
    end
  end.

(** The loop of src/transition_crosscat_cpp.py:313-317, in place; no block is empty. *)
Fixpoint seat_blocks (v : cgpm) (rowids : list Z) (blocks : list (list nat)) : samp (cgpm * out unit) :=
  match blocks with
  | [] => Ret (v, Ok tt)
  | b :: rest =>
    match oseq (map (fun i => match nth_error rowids i with Some r => Ok r | None => Err KeyError end) b) with
    | Err e => Ret (v, Err e)
    | Ok [] => Ret (v, Err IndexError)
    | Ok (r0 :: rs) =>
      let! p := set_rowid_component v r0 None in
      match snd p with
      | Err e => Ret (fst p, Err e)
      | Ok _ =>
        let! q := join_rows (fst p) r0 rs in
        match snd q with
        | Err e => Ret (fst q, Err e)
        | Ok _ => seat_blocks (fst q) rowids rest
        end
      end
    end
  end.

(** The loop of src/transition_crosscat_cpp.py:303-317. *)
Fixpoint realise (order : list Z -> list Z) (c : cgpm) (outs rowids : list Z) (blocks : list (list nat * list Z)) : samp (out cgpm) :=
  match blocks with
  | [] => Ret (Ok c)
  | (b, row_assignments) :: rest =>
    match oseq (map (fun i => match nth_error outs i with Some o => Ok o | None => Err KeyError end) b) with
    | Err e => Ret (Err e)
    | Ok [] => Ret (Err IndexError)
    | Ok (o0 :: os) =>
      let! p := set_cgpm_view_assignment c o0 None in
      match snd p with
      | Err e => Ret (Err e)
      | Ok c1 =>
        let! q := join_columns c1 o0 os in
        match (do c2 <- q; do i <- get_cgpm_current_view_index c2 (o0 :: os); do v <- item (views_of c2) i; Ok (c2, i, v)) with
        | Err e => Ret (Err e)
        | Ok (c2, i, v) =>
          let! s := seat_blocks v rowids (partition_assignments_to_blocks order row_assignments) in
          match snd s with
          | Err e => Ret (Err e)
          | Ok _ => realise order (CProd (set_nth i (fst s) (views_of c2))) outs rowids rest
          end
        end
      end
    end
  end.

(** src/transition_crosscat_cpp.py:272-318 _get_crosscat_updated. Only the model returned is
    given; the one passed in shares objects with it. *)
Definition get_crosscat_updated (order : list Z -> list Z) (c : cgpm) (observations : dict Z (dict Z val)) (M : metas)
    (X_L : latents) (X_D : list (list Z)) : samp (out cgpm) :=
  let outs := get_distribution_outputs c in
  match
    (do bases <- get_bases c outs;
     do _ <- oassert (Nat.eqb (List.length (name_to_idx M)) (List.length outs));
     do _ <- oseq (map (fun p : nat * dist =>
       do m <- item (column_metadata M) (fst p);
       match snd p, m with
       | DNrm _, MNormal | DCat _, MSymbols _ _ => Ok tt
       | _, _ => Err AssertionError
       end) (enum_from 0 bases));
     do _ <- oassert (forallb (fun a => match X_D with a0 :: _ => Nat.eqb (List.length a0) (List.length a) | [] => true end) X_D);
     do _ <- oassert (Nat.eqb (List.length X_D) (List.length (view_states X_L)));
     do _ <- oassert (Nat.eqb (List.length (assignments X_L)) (List.length outs));
     do rowids <- observations_to_rowids_mapping observations;
     let blocks := partition_assignments_to_blocks order (assignments X_L) in
     do _ <- oassert (Nat.eqb (List.length blocks) (List.length X_D));
     Ok (rowids, blocks))
  with
  | Err e => Ret (Err e)
  | Ok (rowids, blocks) => realise order c outs rowids (combine blocks X_D)
  end.

(** ** transition_cpp *)

(** The arguments of the call of LE.analyze, src/transition_crosscat_cpp.py:387-399. *)
Record request := mkRequest {
  rq_M_c : metas; rq_T : list (list val); rq_X_L : latents; rq_X_D : list (list Z);
  rq_seed : Z; rq_kernels : list string; rq_steps : Z; rq_time : Qc; rq_cols : list nat; rq_rows : list nat }.

(** src/transition_crosscat_cpp.py:349-363 *)
Definition steps_and_time (N : option Z) (S : option Qc) : out (Z * Qc) :=
  match N, S with
  | Some n, None => Ok (n, qz (-1))
  | None, Some s => Ok (150000, s)
  | Some n, Some s => Ok (n, s)
  | None, None => Err AssertionError
  end.

(** src/transition_crosscat_cpp.py:331-385: what is done before the engine is called; nothing
    to do without observations. *)
Definition cpp_request (srt : list Qc -> list Qc) (scc : list (list Z) -> list (Z * list Z)) (c : cgpm) (N : option Z) (S : option Qc)
    (kernels : option (list string)) (rowids cols : option (list Z)) (Cd Ci : list (list Z)) (seed : option Z)
  : out (option (request * dict Z (dict Z val))) :=
  do st <- steps_and_time N S;
  do cs <- match cols with
           | None => Ok []
           | Some l => let outs := get_distribution_outputs c in
                       oseq (map (fun o => dget o (dict_zip outs (seq 0 (List.length outs)))) l)
           end;
  do observations <- get_crosscat_dataset c;
  match observations with
  | [] => Ok None
  | _ =>
    do rs <- match rowids with
             | None => Ok []
             | Some l => do m <- observations_to_rowids_mapping observations;
                         oseq (map (fun r => dget r (dict_zip m (seq 0 (List.length m)))) l)
             end;
    do M <- get_crosscat_M_c srt c observations;
    do T <- get_crosscat_T c M observations;
    do X_D <- get_crosscat_X_D c;
    do X_L <- get_crosscat_X_L scc c M X_D Cd Ci;
    Ok (Some (mkRequest M T X_L X_D (match seed with Some s => s | None => 1 end)
                        (match kernels with Some k => k | None => [] end) (fst st) (snd st) cs rs, observations))
  end.

(** src/transition_crosscat_cpp.py:331-402 transition_cpp; reporting progress is left out. *)
Definition transition_cpp (srt : list Qc -> list Qc) (order : list Z -> list Z) (scc : list (list Z) -> list (Z * list Z))
    (engine : request -> latents * list (list Z)) (c : cgpm) (N : option Z) (S : option Qc)
    (kernels : option (list string)) (rowids cols : option (list Z)) (Cd Ci : list (list Z)) (seed : option Z)
  : samp (out cgpm) :=
  match cpp_request srt scc c N S kernels rowids cols Cd Ci seed with
  | Err e => Ret (Err e)
  | Ok None => Ret (Ok c)
  | Ok (Some (rq, observations)) =>
      let (X_L, X_D) := engine rq in
      get_crosscat_updated order c observations (rq_M_c rq) X_L X_D
  end.
