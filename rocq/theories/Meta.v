(** Metadata: what [to_metadata] writes and what [from_metadata] makes of it.

    Metadata is a Python value made of numbers, strings, lists (or tuples) and dicts with
    string keys. Objects are reloaded by [build_cgpm], which reads the class from the
    entry 'factory' and calls that class's [from_metadata].

    Simplifications: lists and tuples are identified; a metadata value of the wrong Python
    type makes the reader raise TypeError here, while the code would fail later; sharing
    of mutable parts between an object, its metadata and a reloaded object is the subject
    of Alias.v. *)
From Coq Require Import List ZArith QArith Qcanon Reals Bool String.
From Verif Require Import Base Xr Samp Lgamma Prims Cgpm.
Import ListNotations.
Local Open Scope Z_scope.
Local Open Scope string_scope.
Local Open Scope list_scope.

(** The values metadata is made of (as written by the [to_metadata] methods cited
    below): ints, floats, the float sum_log_fact_x of a Poisson, cells, strings, lists and
    tuples, dicts (src/crp.py:89-98). *)
Inductive meta :=
| MInt (z : Z)
| MNum (q : Qc)
| MReal (r : R)
| MCell (v : val)
| MStr (s : string)
| MList (l : list meta)
| MDict (d : list (string * meta)).

(** ** Writing *)

(** [metadata['factory'] = (module, class)] (src/crp.py:97 and the like) *)
Definition factory (modname attrname : string) : string * meta :=
  ("factory", MList [MStr modname; MStr attrname]).

(** [self.data.items()] and [rowid_to_index.items()] (src/crp.py:94,
    src/finite_array.py:57): a list of pairs. *)
Definition items {K V} (fk : K -> meta) (fv : V -> meta) (d : dict K V) : meta :=
  MList (map (fun p => MList [fk (fst p); fv (snd p)]) d).

(** The entries 'outputs' and 'inputs' of a primitive (src/crp.py:91-92 and the like). *)
Definition io (o : Z) : dict string meta :=
  [("outputs", MList [MInt o]); ("inputs", MList [])].

(** to_metadata of the primitives: src/crp.py:89-98, src/categorical.py:81-91,
    src/bernoulli.py:82-92, src/poisson.py:86-97, src/normal.py:92-105,
    src/normal_uc.py:86-98. The order of the entries plays no role. *)
Definition dist_to_meta (d : dist) : meta :=
  match d with
  | DCrp s => MDict (io (crp_o s) ++
      [("N", MInt (crp_N s)); ("data", items MInt MInt (crp_data s));
       ("counts", items MInt MInt (crp_counts s)); ("alpha", MNum (crp_alpha s));
       factory "cgpm2.crp" "CRP"])
  | DCat s => MDict (io (cat_o s) ++
      [("k", MInt (cat_k s)); ("N", MInt (cat_N s)); ("data", items MInt MCell (cat_data s));
       ("counts", MList (map MInt (cat_counts s))); ("alpha", MNum (cat_alpha s));
       factory "cgpm2.categorical" "Categorical"])
  | DBer s => MDict (io (ber_o s) ++
      [("data", items MInt MCell (ber_data s)); ("N", MInt (ber_N s));
       ("x_sum", MInt (ber_sum s)); ("alpha", MNum (ber_alpha s)); ("beta", MNum (ber_beta s));
       factory "cgpm2.bernoulli" "Bernoulli"])
  | DPoi s => MDict (io (poi_o s) ++
      [("N", MInt (poi_N s)); ("data", items MInt MCell (poi_data s));
       ("sum_x", MNum (poi_sum s)); ("sum_log_fact_x", MReal (poi_slf s));
       ("a", MNum (poi_a s)); ("b", MNum (poi_b s));
       factory "cgpm2.poisson" "Poisson"])
  | DNrm s => MDict (io (nrm_o s) ++
      [("N", MInt (nrm_N s)); ("data", items MInt MCell (nrm_data s));
       ("sum_x", MNum (nrm_sum s)); ("sum_x_sq", MNum (nrm_sumsq s));
       ("m", MNum (nrm_m s)); ("r", MNum (nrm_r s)); ("s", MNum (nrm_s s)); ("nu", MNum (nrm_nu s));
       factory "cgpm2.normal" "Normal"])
  | DNuc s => MDict (io (nuc_o s) ++
      [("data", items MInt MCell (nuc_data s));
       ("hypers", MDict (map (fun p => (fst p, MNum (snd p))) (nuc_hypers s)));
       ("N", MInt (nuc_N s)); ("sum_x", MNum (nuc_sum s)); ("sum_x_sq", MNum (nuc_sumsq s));
       ("mu", MNum (nuc_mu s)); ("var", MNum (nuc_var s));
       factory "cgpm2.normal_uc" "NormalUC"])
  end.

(** to_metadata of the composites: src/product.py:45-49, src/finite_array.py:53-59,
    src/flexible_array.py:56-64, src/finite_rowmix.py:200-207, src/flexible_rowmix.py:36-44 *)
Fixpoint to_meta (c : cgpm) : meta :=
  match c with
  | CDist d => dist_to_meta d
  | CProd cs => MDict [("cgpms", MList (map to_meta cs)); factory "cgpm2.product" "Product"]
  | CFinArr ix cs r2i => MDict
      [("cgpms", MList (map to_meta cs)); ("indexer", MInt ix);
       ("rowid_to_index", items MInt MCell r2i);
       factory "cgpm2.finite_array" "FiniteArray"]
  | CFlexArr ix base cs r2i => MDict
      [("cgpm_base", to_meta base); ("indexer", MInt ix);
       ("rowid_to_index", items MInt MCell r2i);
       ("cgpms", MList (map (fun p => let '(k, c') := p in MList [MCell k; to_meta c']) cs));
       factory "cgpm2.flexible_array" "FlexibleArray"]
  | CMix flex div arr r2c => MDict
      [("cgpm_row_divide", dist_to_meta div); ("cgpm_components_array", to_meta arr);
       ("rowid_to_component", items MInt MCell r2c);
       if flex then factory "cgpm2.flexible_rowmix" "FlexibleRowMixture"
       else factory "cgpm2.finite_rowmix" "FiniteRowMixture"]
  end.

(** ** Reading *)

(** [metadata[key]] (src/crp.py:102 and the like) *)
Definition field (key : string) (m : meta) : out meta :=
  match m with MDict d => dget key d | _ => Err TypeError end.

(** Reading an int, a float, a real, a cell, a string (no code in /repo: the code uses
    the values as they are) (e.g. src/crp.py:104). *)
Definition as_int (m : meta) : out Z := match m with MInt z => Ok z | _ => Err TypeError end.
(** A number (e.g. src/crp.py:106). *)
Definition as_num (m : meta) : out Qc := match m with MNum q => Ok q | _ => Err TypeError end.
(** A real (src/poisson.py:105). *)
Definition as_real (m : meta) : out R := match m with MReal r => Ok r | _ => Err TypeError end.
(** A cell (e.g. src/categorical.py:97). *)
Definition as_cell (m : meta) : out val := match m with MCell v => Ok v | _ => Err TypeError end.
(** A string (src/flexible_array.py:90-92). *)
Definition as_str (m : meta) : out string := match m with MStr s => Ok s | _ => Err TypeError end.

(** [[f(blob) for blob in m]] (src/product.py:53) *)
Definition as_list {A} (f : meta -> out A) (m : meta) : out (list A) :=
  match m with MList l => oseq (map f l) | _ => Err TypeError end.

(** [for k, v in m] (src/flexible_array.py:70): unpacking a pair. *)
Definition as_pair {K V} (fk : meta -> out K) (fv : meta -> out V) (m : meta) : out (K * V) :=
  match m with
  | MList [a; b] => do k <- fk a; do v <- fv b; Ok (k, v)
  | MList _ => Err ValueError
  | _ => Err TypeError
  end.

(** [dict(pairs)], [OrderedDict(pairs)] (src/crp.py:103, src/finite_array.py:65) and
    dict comprehensions (src/flexible_array.py:70): a later pair replaces an earlier one. *)
Definition dict_of {K V} `{EqDec K} (l : list (K * V)) : dict K V :=
  fold_left (fun d p => dset (fst p) (snd p) d) l [].

(** [OrderedDict(metadata[key])] (src/crp.py:103, 105). *)
Definition as_items {K V} `{EqDec K} (fk : meta -> out K) (fv : meta -> out V) (m : meta)
  : out (dict K V) :=
  omap dict_of (as_list (as_pair fk fv) m).

(** [cls(metadata['outputs'], metadata['inputs'], ...)] (src/crp.py:102): the constructors
    assert one output and no input (src/crp.py:24-25 and the like). *)
Definition read_io (m : meta) : out Z :=
  do outs <- field "outputs" m;
  do ins <- field "inputs" m;
  do outs <- as_list as_int outs;
  do ins <- as_list as_int ins;
  match outs, ins with [o], [] => Ok o | _, _ => Err AssertionError end.

(** src/crp.py:100-107 *)
Definition crp_from_meta (m : meta) : out crp :=
  do o <- read_io m;
  let s := crp_new o 1%Qc in
  do data <- field "data" m; do data <- as_items as_int as_int data;
  do N <- field "N" m; do N <- as_int N;
  do counts <- field "counts" m; do counts <- as_items as_int as_int counts;
  do alpha <- field "alpha" m; do alpha <- as_num alpha;
  Ok (mkCrp (crp_o s) data N counts alpha).

(** src/categorical.py:93-101 *)
Definition cat_from_meta (m : meta) : out cat :=
  do o <- read_io m;
  do k <- field "k" m; do k <- as_int k;
  let s := cat_new o k 1%Qc in
  do data <- field "data" m; do data <- as_items as_int as_cell data;
  do N <- field "N" m; do N <- as_int N;
  do counts <- field "counts" m; do counts <- as_list as_int counts;
  do alpha <- field "alpha" m; do alpha <- as_num alpha;
  Ok (mkCat (cat_o s) (cat_k s) data N counts alpha).

(** src/bernoulli.py:94-102 *)
Definition ber_from_meta (m : meta) : out ber :=
  do o <- read_io m;
  let s := ber_new o 1%Qc 1%Qc in
  do data <- field "data" m; do data <- as_items as_int as_cell data;
  do N <- field "N" m; do N <- as_int N;
  do x_sum <- field "x_sum" m; do x_sum <- as_int x_sum;
  do alpha <- field "alpha" m; do alpha <- as_num alpha;
  do beta <- field "beta" m; do beta <- as_num beta;
  Ok (mkBer (ber_o s) data N x_sum alpha beta).

(** src/poisson.py:99-108 *)
Definition poi_from_meta (m : meta) : out poi :=
  do o <- read_io m;
  do s <- poi_new o 1%Qc 1%Qc;
  do data <- field "data" m; do data <- as_items as_int as_cell data;
  do N <- field "N" m; do N <- as_int N;
  do sum_x <- field "sum_x" m; do sum_x <- as_num sum_x;
  do slf <- field "sum_log_fact_x" m; do slf <- as_real slf;
  do a <- field "a" m; do a <- as_num a;
  do b <- field "b" m; do b <- as_num b;
  Ok (mkPoi (poi_o s) data N sum_x slf a b).

(** src/normal.py:107-118 *)
Definition nrm_from_meta (m : meta) : out nrm :=
  do o <- read_io m;
  do s <- nrm_new o 1%Qc 1%Qc 1%Qc 1%Qc;
  do data <- field "data" m; do data <- as_items as_int as_cell data;
  do N <- field "N" m; do N <- as_int N;
  do sum_x <- field "sum_x" m; do sum_x <- as_num sum_x;
  do sum_x_sq <- field "sum_x_sq" m; do sum_x_sq <- as_num sum_x_sq;
  do m' <- field "m" m; do m' <- as_num m';
  do r <- field "r" m; do r <- as_num r;
  do s' <- field "s" m; do s' <- as_num s';
  do nu <- field "nu" m; do nu <- as_num nu;
  Ok (mkNrm (nrm_o s) data N sum_x sum_x_sq m' r s' nu).

(** src/normal_uc.py:100-110; the dict of hyperparameters is taken over as it is. *)
Definition nuc_from_meta (m : meta) : out nuc :=
  do o <- read_io m;
  do s <- nuc_new o [] 0%Qc 1%Qc;
  do data <- field "data" m; do data <- as_items as_int as_cell data;
  do hypers <- field "hypers" m;
  do hypers <- match hypers with
               | MDict d => oseq (map (fun p => do q <- as_num (snd p); Ok (fst p, q)) d)
               | _ => Err TypeError
               end;
  do N <- field "N" m; do N <- as_int N;
  do sum_x <- field "sum_x" m; do sum_x <- as_num sum_x;
  do sum_x_sq <- field "sum_x_sq" m; do sum_x_sq <- as_num sum_x_sq;
  do mu <- field "mu" m; do mu <- as_num mu;
  do var <- field "var" m; do var <- as_num var;
  Ok (mkNuc (nuc_o s) data N sum_x sum_x_sq mu var hypers).

(** [cgpm.cgpms], [cgpm.cgpm_base] of a reloaded array (src/finite_rowmix.py:214,
    src/flexible_rowmix.py:51): AttributeError on an object without the attribute; a dict
    or list where the constructor expects the other is a TypeError. *)
Definition array_cgpms (c : cgpm) : out (list cgpm) :=
  match c with
  | CFinArr _ cs _ => Ok cs
  | CProd cs => Ok cs
  | CFlexArr _ _ _ _ => Err TypeError
  | _ => Err AttributeError
  end.

(** [cgpm_components_array.cgpm_base] (src/flexible_rowmix.py:51). *)
Definition array_base (c : cgpm) : out cgpm :=
  match c with CFlexArr _ base _ _ => Ok base | _ => Err AttributeError end.

(** A row divider must be a primitive (simplification of Cgpm.v): only primitives have
    [support()] (src/finite_rowmix.py:27). *)
Definition as_divider (c : cgpm) : out dist :=
  match c with CDist d => Ok d | _ => Err AttributeError end.

(** cgpm.utils.general.build_cgpm (used at src/product.py:53 and the like; same as the
    explicit code of src/flexible_array.py:89-94): the class named by 'factory' builds the
    object. A class that is not among those of this model makes the import fail
    (AttributeError). [fuel] bounds the nesting depth.
    Composites: src/product.py:51-55, src/finite_array.py:61-66,
    src/flexible_array.py:66-72, src/finite_rowmix.py:209-217, src/flexible_rowmix.py:46-54 *)
Fixpoint from_meta (fuel : nat) (m : meta) : out cgpm :=
  match fuel with
  | O => Err OutOfFuel
  | S fuel =>
    do f <- field "factory" m;
    do f <- as_pair as_str as_str f;
    let is (modname attrname : string) := eqb (fst f) modname && eqb (snd f) attrname in
    if is "cgpm2.crp" "CRP" then omap (fun s => CDist (DCrp s)) (crp_from_meta m)
    else if is "cgpm2.categorical" "Categorical" then omap (fun s => CDist (DCat s)) (cat_from_meta m)
    else if is "cgpm2.bernoulli" "Bernoulli" then omap (fun s => CDist (DBer s)) (ber_from_meta m)
    else if is "cgpm2.poisson" "Poisson" then omap (fun s => CDist (DPoi s)) (poi_from_meta m)
    else if is "cgpm2.normal" "Normal" then omap (fun s => CDist (DNrm s)) (nrm_from_meta m)
    else if is "cgpm2.normal_uc" "NormalUC" then omap (fun s => CDist (DNuc s)) (nuc_from_meta m)
    else if is "cgpm2.product" "Product" then
      do blobs <- field "cgpms" m;
      do cs <- as_list (from_meta fuel) blobs;
      new_product cs
    else if is "cgpm2.finite_array" "FiniteArray" then
      do blobs <- field "cgpms" m;
      do cs <- as_list (from_meta fuel) blobs;
      do ix <- field "indexer" m; do ix <- as_int ix;
      do _ <- new_finarr cs ix;
      do r2i <- field "rowid_to_index" m; do r2i <- as_items as_int as_cell r2i;
      Ok (CFinArr ix cs r2i)
    else if is "cgpm2.flexible_array" "FlexibleArray" then
      do blob <- field "cgpm_base" m;
      do base <- from_meta fuel blob;
      do ix <- field "indexer" m; do ix <- as_int ix;
      do blobs <- field "cgpms" m;
      do cs <- as_items as_cell (from_meta fuel) blobs;
      do r2i <- field "rowid_to_index" m; do r2i <- as_items as_int as_cell r2i;
      Ok (CFlexArr ix base cs r2i)
    else if is "cgpm2.finite_rowmix" "FiniteRowMixture" then
      do blob <- field "cgpm_row_divide" m;
      do div <- from_meta fuel blob;
      do blob <- field "cgpm_components_array" m;
      do arr <- from_meta fuel blob;
      do cs <- array_cgpms arr;
      do div <- as_divider div;
      do _ <- new_finmix div cs;
      do r2c <- field "rowid_to_component" m; do r2c <- as_items as_int as_cell r2c;
      Ok (CMix false div arr r2c)
    else if is "cgpm2.flexible_rowmix" "FlexibleRowMixture" then
      do blob <- field "cgpm_row_divide" m;
      do div <- from_meta fuel blob;
      do blob <- field "cgpm_components_array" m;
      do arr <- from_meta fuel blob;
      do _ <- array_base arr;
      do div <- as_divider div;
      do r2c <- field "rowid_to_component" m; do r2c <- as_items as_int as_cell r2c;
      Ok (CMix true div arr r2c)
    else Err AttributeError
  end.

(** How deeply lists and dicts are nested
    (no code; bounds the recursion of src/product.py:53). *)
Fixpoint mdepth (m : meta) : nat :=
  match m with
  | MList l => S (fold_right (fun x n => Nat.max (mdepth x) n) O l)
  | MDict d => S (fold_right (fun p n => Nat.max (let '(_, x) := p in mdepth x) n) O d)
  | _ => 1%nat
  end.

(** build_cgpm(metadata, rng): the nesting of the metadata is fuel enough
    (src/product.py:53). *)
Definition build (m : meta) : out cgpm := from_meta (mdepth m) m.

(** walks.py:19-22 clone_cgpm, src/flexible_array.py:89-94 create_new_cgpm *)
Definition clone (c : cgpm) : out cgpm := build (to_meta c).
