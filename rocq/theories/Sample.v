(** Random structures, rendering of views as observe statements, and the import of models of
    the CGPM library: src/sample_crosscat.py, src/conversion.py.

    Simplifications: observe statements are the rows, assignments and values that are
    rendered, not their text (for the text of models see Dsl.v); clusters recorded by a row
    divider are ints (a divider that records NaN is left out). *)
From Coq Require Import List ZArith QArith Qcanon Reals Bool String.
From Verif Require Import Base Xr Samp Lgamma Prims Cgpm Trans.
Import ListNotations.
Local Open Scope Z_scope.

(** ** Random partitions *)

(** [probs = weights/float(sum(weights)); rng.choice(range(len(weights)), p=probs)]
    (src/sample_crosscat.py:66-67). A sum of zero gives NaN or infinite probabilities; numpy
    raises ValueError for those and for negative ones. *)
Definition choice (weights : list Qc) : samp (out nat) :=
  let s := qsum weights in
  let probs := map (fun w => w / s)%Qc weights in
  if eqb s 0%Qc then Ret (Err ValueError)
  else if existsb (fun p => qltb p 0%Qc) probs then Ret (Err ValueError)
  else Flip (map qr probs) (fun i => Ret (Ok i)).

(** [partition[assignment].append(customer)] (src/sample_crosscat.py:70) *)
Fixpoint append_at (i : nat) (c : Z) (l : list (list Z)) : list (list Z) :=
  match i, l with
  | _, [] => []
  | O, b :: l' => (b ++ [c]) :: l'
  | S i', b :: l' => b :: append_at i' c l'
  end.

(** One round of the loop of src/sample_crosscat.py:64-70. *)
Definition seat_customer (alpha : Qc) (partition : list (list Z)) (customer : Z) : samp (out (list (list Z))) :=
  let weights := map (fun b => qz (Z.of_nat (List.length b))) partition ++ [alpha] in
  sobind (choice weights) (fun assignment =>
    let partition' := if Nat.leb (List.length partition) assignment then partition ++ [[]] else partition in
    Ret (Ok (append_at assignment customer partition'))).

(** The loop of src/sample_crosscat.py:64-70 *)
Fixpoint seat_customers (alpha : Qc) (partition : list (list Z)) (customers : list Z) : samp (out (list (list Z))) :=
  match customers with
  | [] => Ret (Ok partition)
  | c :: customers' => sobind (seat_customer alpha partition c) (fun p => seat_customers alpha p customers')
  end.

(** src/sample_crosscat.py:61-71 generate_random_partition *)
Definition generate_random_partition (alpha : Qc) (N : nat) : samp (out (list (list Z))) :=
  seat_customers alpha [] (zrange N).

(** ** Observe statements *)

(** [next(observes[0].iterkeys())] and the assertion that follows it
    (src/sample_crosscat.py:313-314, 321-322) *)
Definition only_key (observes : list (dict Z Z)) : out Z :=
  match observes with
  | [] => Err IndexError
  | [] :: _ => Err StopIteration
  | ((output, _) :: _) :: _ =>
      do _ <- oassert (forallb (fun d => eqb (keys d) [output]) observes);
      Ok output
  end.

(** [{t: i for i, t in enumerate(tables)}] read at a table (src/sample_crosscat.py:317-318,
    src/conversion.py:36-37) *)
Fixpoint position_of (t : Z) (tables : list Z) (i : Z) : out Z :=
  match tables with
  | [] => Err KeyError
  | u :: tables' => if eqb t u then Ok i else position_of t tables' (i + 1)
  end.

(** src/sample_crosscat.py:312-318 reindex_crp_observes *)
Definition reindex_crp_observes (observes : list (dict Z Z)) : out (list (dict Z Z)) :=
  do _ <- only_key observes;
  do assignments <- oseq (map (fun d : dict Z Z => match d with e :: _ => Ok e | [] => Err IndexError end) observes);
  let tables := zsort (dedup (map snd assignments)) in
  oseq (map (fun e : Z * Z => do i <- position_of (snd e) tables 0; Ok [(fst e, i)]) assignments).

(** The loop of src/sample_crosscat.py:325-329: the dict of tables is made as it goes. *)
Definition rows_by_table (output : Z) (pairs : list (Z * dict Z Z)) : out (dict Z (list Z)) :=
  fold_left (fun acc p =>
      do d <- acc;
      do table <- dget output (snd p);
      Ok (dset table (match lookup table d with Some l => l | None => [] end ++ [fst p]) d))
    pairs (Ok []).

(** src/sample_crosscat.py:320-333 get_sorted_rowids *)
Definition get_sorted_rowids (rowids : list Z) (observes : list (dict Z Z)) : out (list Z) :=
  do output <- only_key observes;
  do _ <- oassert (Nat.eqb (List.length observes) (List.length rowids));
  do table_to_rowids <- rows_by_table output (combine rowids observes);
  omap (@List.concat Z) (oseq (map (fun t => dget t table_to_rowids) (zsort (keys table_to_rowids)))).

(** src/sample_crosscat.py:335-338 get_primitive_observes *)
Definition get_primitive_observes (d : dist) (r : Z) : row :=
  match lookup r (dist_data d) with Some x => [(dist_o d, x)] | None => [] end.

(** src/sample_crosscat.py:340-342 get_product_observes; only primitives have the attribute
    [data], only composites [cgpms]. *)
Definition get_product_observes (c : cgpm) (r : Z) : out row :=
  match c with
  | CProd cs =>
      omap mergedl (oseq (map (fun c' => match c' with
        | CDist d => Ok (get_primitive_observes d r)
        | _ => Err AttributeError
        end) cs))
  | _ => Err AttributeError
  end.

(** [product_observes[0]] of the nonempty ones, of which there must be exactly one
    (src/sample_crosscat.py:348-350) *)
Definition the_only (l : list row) : out row :=
  match filter (fun d => match d with [] => false | _ => true end) l with
  | [d] => Ok d
  | _ => Err AssertionError
  end.

(** src/sample_crosscat.py:344-350 get_components_observes; only a FlexibleArray
    has a dict of components. *)
Definition get_components_observes (arr : cgpm) (r : Z) : out row :=
  match arr with
  | CFlexArr _ _ cs _ => do l <- oseq (map (fun p : val * cgpm => get_product_observes (snd p) r) cs); the_only l
  | _ => Err AttributeError
  end.

(** The statement for the row divider, its cluster as an int
    (src/sample_crosscat.py:355-359). *)
Definition divider_observes (div : dist) (r : Z) : dict Z Z :=
  map (fun e : Z * val => (fst e, match snd e with VQ q => trunc q | VNan => 0 end)) (get_primitive_observes div r).

(** A statement with an int as a row (src/sample_crosscat.py:363-377). *)
Definition as_row (d : dict Z Z) : row := map (fun e : Z * Z => (fst e, vz (snd e))) d.

(** [rowid_to_index[rowid]] and indexing with it (src/sample_crosscat.py:362-366) *)
Definition at_index (l : list (dict Z Z)) (sorted_rowids : list Z) (r : Z) : out (dict Z Z) :=
  do i <- position_of r sorted_rowids 0;
  match nth_error l (Z.to_nat i) with Some d => Ok d | None => Err IndexError end.

(** src/sample_crosscat.py:352-377 get_view_observes. Row ids are all different, so the
    last [OrderedDict] keeps every pair. *)
Definition get_view_observes (view : cgpm) : out (dict Z row) :=
  match view with
  | CMix _ div arr _ =>
      do rowids <- get_rowids view;
      do observe_crp_reindex <- reindex_crp_observes (map (divider_observes div) rowids);
      do sorted_rowids <- get_sorted_rowids rowids observe_crp_reindex;
      do observe_crp_sorted <- oseq (map (at_index observe_crp_reindex sorted_rowids) sorted_rowids);
      do observe_components_sorted <- oseq (map (get_components_observes arr) sorted_rowids);
      Ok (map (fun t : Z * (dict Z Z * row) => (fst t, merged (as_row (fst (snd t))) (snd (snd t))))
            (combine sorted_rowids (combine observe_crp_sorted observe_components_sorted)))
  | _ => Err AttributeError
  end.

(** src/sample_crosscat.py:379-380 get_crosscat_observes *)
Definition get_crosscat_observes (views : list cgpm) : out (list (dict Z row)) := oseq (map get_view_observes views).

(** src/sample_crosscat.py:468-479 get_view_observes_crp_vs *)
Definition get_view_observes_crp_vs (view : cgpm) : out (list (Z * Z)) :=
  match view with
  | CMix _ div _ _ =>
      do rowids <- get_rowids view;
      match rowids with
      | [] => Ok []
      | _ =>
        do observe_crp_reindex <- reindex_crp_observes (map (divider_observes div) rowids);
        oseq (map (fun p : Z * dict Z Z => match values (snd p) with v :: _ => Ok (fst p, v) | [] => Err IndexError end)
                (combine rowids observe_crp_reindex))
      end
  | _ => Err AttributeError
  end.

(** src/sample_crosscat.py:481-494 get_view_observes_data_vs. The name [rowid] in the last
    expression is the variable of the list comprehension before it: in Python 2 it is left at
    the last row. Columns stand for their names. *)
Definition get_view_observes_data_vs (view : cgpm) : out (list (Z * Z * val)) :=
  match view with
  | CMix _ _ arr _ =>
      do rowids <- get_rowids view;
      match rowids with
      | [] => Ok []
      | r0 :: _ =>
        do observe_components <- oseq (map (get_components_observes arr) rowids);
        let rowid := last rowids r0 in
        Ok (flat_map (fun obs : row => map (fun e : Z * val => (rowid, fst e, snd e)) obs) observe_components)
      end
  | _ => Err AttributeError
  end.

(** ** Import of CGPM states *)

(** A column of a view of a CGPM state: the attributes read at src/conversion.py:29-32
    ([distargs] only matters for its entry 'k'). *)
Record dim := mkDim { dim_cctype : string; dim_output : Z; dim_hypers : hypers; dim_k : option Z }.

(** A view of a CGPM state: the attributes read at src/conversion.py:40-51. *)
Record cgpm_view := mkCgpmView { cv_dims : list dim; cv_crp : dim; cv_Zr : dict Z Z; cv_X : dict Z (dict Z val) }.

(** [hypers.get(k, v)] (src/crp.py:36, src/normal.py:43-46 and the like) *)
Definition hget (k : string) (v : Qc) (h : hypers) : Qc := match lookup k h with Some x => x | None => v end.

(** src/conversion.py:22-32 convert_dim_to_base_cgpm with its dict of classes; the
    constructors of src/categorical.py:24-41, src/crp.py:21-36, src/normal.py:22-49,
    src/poisson.py:22-42. *)
Definition convert_dim_to_base_cgpm (d : dim) : out dist :=
  let o := dim_output d in
  let h := dim_hypers d in
  if String.eqb (dim_cctype d) "categorical" then
    match dim_k d with Some k => Ok (DCat (cat_new o k (hget "alpha" 1%Qc h))) | None => Err KeyError end
  else if String.eqb (dim_cctype d) "crp" then Ok (DCrp (crp_new o (hget "alpha" 1%Qc h)))
  else if String.eqb (dim_cctype d) "normal" then
    omap DNrm (nrm_new o (hget "m" 0%Qc h) (hget "r" 1%Qc h) (hget "s" 1%Qc h) (hget "nu" 1%Qc h))
  else if String.eqb (dim_cctype d) "poisson" then
    omap DPoi (poi_new o (hget "a" 1%Qc h) (hget "b" 1%Qc h))
  else Err KeyError.

(** [sorted(l, key=lambda a: a[1])]: stable (src/conversion.py:38) *)
Fixpoint insert_by_table (e : Z * Z) (l : list (Z * Z)) : list (Z * Z) :=
  match l with
  | [] => [e]
  | f :: l' => if snd e <=? snd f then e :: l else f :: insert_by_table e l'
  end.
(** The rest of the sort (src/conversion.py:38). *)
Definition sort_by_table (l : list (Z * Z)) : list (Z * Z) := fold_right insert_by_table [] l.

(** src/conversion.py:34-38 rebase_cgpm_row_assignments; [order] is the order in which a set
    of ints is iterated over. *)
Definition rebase_cgpm_row_assignments (order : list Z -> list Z) (Zr : dict Z Z) : out (list (Z * Z)) :=
  let unique_tables := order (values Zr) in
  do tables_new <- oseq (map (fun e : Z * Z => do i <- position_of (snd e) unique_tables 0; Ok (fst e, i)) Zr);
  Ok (sort_by_table tables_new).

(** The loop of src/conversion.py:46-50 *)
Fixpoint import_rows (X : dict Z (dict Z val)) (label : Z) (cols : list Z) (m : cgpm) (l : list (Z * Z)) : samp (cgpm * out unit) :=
  match l with
  | [] => Ret (m, Ok tt)
  | (rowid, assignment) :: l' =>
    match oseq (map (fun c => do column <- dget c X; do x <- dget rowid column; Ok (c, x)) cols) with
    | Err e => Ret (m, Err e)
    | Ok obs_x =>
      let! p := observe m rowid (merged [(label, vz assignment)] obs_x) [] in
      match snd p with
      | Err e => Ret (fst p, Err e)
      | Ok _ => import_rows X label cols (fst p) l'
      end
    end
  end.

(** src/conversion.py:40-51 convert_view_to_rowmixture; what is constructed is dropped when an
    exception is raised. *)
Definition convert_view_to_rowmixture (order : list Z -> list Z) (view : cgpm_view) : samp (out cgpm) :=
  match (do cgpms <- oseq (map convert_dim_to_base_cgpm (cv_dims view));
         do base <- new_product (map CDist cgpms);
         do div <- convert_dim_to_base_cgpm (cv_crp view);
         do l <- rebase_cgpm_row_assignments order (cv_Zr view);
         Ok (base, div, l)) with
  | Err e => Ret (Err e)
  | Ok (base, div, l) =>
      let! p := import_rows (cv_X view) (dist_o div) (outputs base) (new_flexmix div base) l in
      Ret (match snd p with Ok _ => Ok (fst p) | Err e => Err e end)
  end.

(** The list of src/conversion.py:54 *)
Fixpoint convert_views (order : list Z -> list Z) (views : list cgpm_view) : samp (out (list cgpm)) :=
  match views with
  | [] => Ret (Ok [])
  | v :: views' =>
      sobind (convert_view_to_rowmixture order v) (fun m =>
      sobind (convert_views order views') (fun ms => Ret (Ok (m :: ms))))
  end.

(** src/conversion.py:53-55 convert_cgpm_state_to_cgpm2 *)
Definition convert_cgpm_state_to_cgpm2 (order : list Z -> list Z) (views : list cgpm_view) : samp (out cgpm) :=
  sobind (convert_views order views) (fun ms => Ret (new_product ms)).
