(** Metadata of LinearRegression, RandomForest and Chain: what [to_metadata] writes and what
    [from_metadata] makes of it; hyperparameters of LinearRegression.

    Simplifications: as in Meta.v; the pickled classifier of a forest is the classifier
    itself (cPickle and base64 are taken to restore what they were given). *)
From Coq Require Import List ZArith QArith Qcanon Reals Bool String.
From Verif Require Import Base Xr Samp Lgamma Prims Cgpm Meta Regress Chain.
Import ListNotations.
Local Open Scope Z_scope.
Local Open Scope string_scope.
Local Open Scope list_scope.

(** ** Hyperparameters of a regression *)

(** src/linreg.py:149-150 get_hypers *)
Definition linreg_get_hypers (g : linreg) : dict string R := [("a", lr_a g); ("b", lr_b g)].

(** src/linreg.py:143-147 set_hypers *)
Definition linreg_set_hypers (g : linreg) (h : dict string R) : linreg * out unit :=
  match (do a <- dget "a" h; do _ <- oassert (if Rlt_dec 0 a then true else false);
         do b <- dget "b" h; do _ <- oassert (if Rlt_dec 0 b then true else false); Ok (a, b)) with
  | Ok (a, b) => (mkLinreg (lr_table g) a b (lr_mu g) (lr_V g), Ok tt)
  | Err e => (g, Err e)
  end.

(** ** Writing *)

(** What the metadata written here is made of: values of Meta.v (among them the metadata of
    the other models), None, a pickled classifier (src/forest.py:190-191), lists and dicts. *)
Inductive blob :=
| BPlain (m : meta)
| BNone
| BPickle (p : list val -> list xr)
| BList (l : list blob)
| BDict (d : list (string * blob)).

(** [metadata['factory']] (src/linreg.py:210, src/forest.py:192, src/chain.py:105) *)
Definition bfactory (modname attrname : string) : string * blob :=
  ("factory", BPlain (snd (factory modname attrname))).

(** A number or None (src/linreg.py:89, src/forest.py:68) *)
Definition optional {A} (f : A -> meta) (o : option A) : blob := match o with Some x => BPlain (f x) | None => BNone end.

(** The entries outputs, inputs, N, data, data_yraw, data_ydum (src/linreg.py:202-207,
    src/forest.py:181-188) *)
Definition table_to_meta (t : table) : list (string * blob) :=
  [("outputs", BPlain (MList [MInt (t_out t)])); ("inputs", BPlain (MList (map MInt (t_ins t))));
   ("N", BPlain (MInt (t_N t))); ("data", BPlain (items MInt MCell (t_data t)));
   ("data_yraw", BList (map (fun p => BList [BPlain (MInt (fst p)); BList (map (optional MCell) (snd p))]) (t_yraw t)));
   ("data_ydum", BPlain (items MInt (fun y => MList (map MCell y)) (t_ydum t)))].

(** distargs['levels'] (src/linreg.py:158-159, src/forest.py:142-143 get_distargs) *)
Definition levels_to_meta (t : table) : string * blob := ("levels", BList (map (optional MInt) (t_levels t))).

(** src/linreg.py:200-211 to_metadata *)
Definition linreg_to_meta (g : linreg) : blob :=
  BDict (table_to_meta (lr_table g) ++
    [("distargs", BDict [levels_to_meta (lr_table g)]);
     ("hypers", BDict (map (fun p => (fst p, BPlain (MReal (snd p)))) (linreg_get_hypers g)));
     bfactory "cgpm2.linreg" "LinearRegression"]).

(** src/forest.py:179-193 to_metadata *)
Definition forest_to_meta (f : forest) : blob :=
  BDict (table_to_meta (fo_table f) ++
    [("distargs", BDict [levels_to_meta (fo_table f); ("k", BPlain (MInt (fo_k f)))]);
     ("hypers", BDict []);
     ("class_to_index", BPlain (items MCell (fun i => MInt (Z.of_nat i)) (fo_classes f)));
     ("regressor", match fo_regressor f with None => BNone | Some p => BPickle p end);
     bfactory "cgpm2.forest" "RandomForest"]).

(** Method dispatch: to_metadata of a child of a Chain (src/chain.py:103) *)
Definition part_to_meta (m : part) : blob :=
  match m with PModel c => BPlain (to_meta c) | PLinreg g => linreg_to_meta g | PForest f => forest_to_meta f end.

(** ** Reading *)

(** [metadata[key]] (src/linreg.py:216-225) *)
Definition bfield (key : string) (b : blob) : out blob :=
  match b with BDict d => dget key d | BPlain m => omap BPlain (field key m) | _ => Err TypeError end.

(** A value of Meta.v (e.g. src/linreg.py:222) *)
Definition bplain (b : blob) : out meta := match b with BPlain m => Ok m | _ => Err TypeError end.

(** A list (e.g. src/linreg.py:224) *)
Definition blist {A} (f : blob -> out A) (b : blob) : out (list A) :=
  match b with BList l => oseq (map f l) | _ => Err TypeError end.

(** See [optional] (src/linreg.py:224) *)
Definition as_optional {A} (f : meta -> out A) (b : blob) : out (option A) :=
  match b with BNone => Ok None | BPlain m => omap Some (f m) | _ => Err TypeError end.

(** [OrderedDict(metadata['data_yraw'])] (src/linreg.py:224, src/forest.py:207) *)
Definition as_yraw (b : blob) : out (dict Z (list (option val))) :=
  omap dict_of (blist (fun q => match q with
    | BList [k; v] => do k <- bplain k; do k <- as_int k; do v <- blist (as_optional as_cell) v; Ok (k, v)
    | BList _ => Err ValueError
    | _ => Err TypeError
    end) b).

(** [metadata['distargs']['levels']] (src/linreg.py:219, 70-73; src/forest.py:201, 51-54) *)
Definition read_levels (b : blob) : out (list (option Z)) :=
  do d <- bfield "distargs" b; do l <- bfield "levels" d; blist (as_optional as_int) l.

(** A list of integers (src/linreg.py:216-217) *)
Definition read_ints (key : string) (b : blob) : out (list Z) :=
  do l <- bfield key b; do l <- bplain l; as_list as_int l.

(** src/linreg.py:222-225, src/forest.py:204-208: the table of the new object is replaced. *)
Definition read_table (b : blob) (t : table) : out table :=
  do N <- bfield "N" b; do N <- bplain N; do N <- as_int N;
  do data <- bfield "data" b; do data <- bplain data; do data <- as_items as_int as_cell data;
  do yraw <- bfield "data_yraw" b; do yraw <- as_yraw yraw;
  do ydum <- bfield "data_ydum" b; do ydum <- bplain ydum; do ydum <- as_items as_int (as_list as_cell) ydum;
  Ok (mkTable (t_out t) (t_ins t) (t_levels t) N data yraw ydum).

(** [hypers.get(key)] for a dict of metadata (src/linreg.py:80-81) *)
Definition read_hyper (key : string) (b : blob) : out (option R) :=
  match b with
  | BDict d =>
      match lookup key d with
      | None => Ok None
      | Some x => do x <- bplain x; do x <- as_real x; Ok (Some x)
      end
  | _ => Err AttributeError
  end.

(** src/linreg.py:213-226 from_metadata. The entry 'hypers' as written by to_metadata has a
    and b only; entries mu and V of a dict given by hand are not modelled. *)
Definition linreg_from_meta (b : blob) : out linreg :=
  do outs <- read_ints "outputs" b;
  do ins <- read_ints "inputs" b;
  do hypers <- bfield "hypers" b;
  do levels <- read_levels b;
  do ha <- read_hyper "a" hypers;
  do hb <- read_hyper "b" hypers;
  do g <- new_linreg outs ins levels ha hb None None;
  do t <- read_table b (lr_table g);
  Ok (mkLinreg t (lr_a g) (lr_b g) (lr_mu g) (lr_V g)).

(** src/forest.py:195-212 from_metadata *)
Definition forest_from_meta (b : blob) : out forest :=
  do outs <- read_ints "outputs" b;
  do ins <- read_ints "inputs" b;
  do _ <- bfield "hypers" b;
  do d <- bfield "distargs" b;
  do k <- bfield "k" d; do k <- bplain k; do k <- as_int k;
  do levels <- read_levels b;
  do f <- new_forest outs ins k levels;
  do t <- read_table b (fo_table f);
  do cl <- bfield "class_to_index" b; do cl <- bplain cl;
  do cl <- as_items as_cell (fun m => do z <- as_int m; Ok (Z.to_nat z)) cl;
  do r <- bfield "regressor" b;
  do r <- match r with BNone => Ok None | BPickle p => Ok (Some p) | _ => Err TypeError end;
  Ok (mkForest t (fo_k f) cl r).

(** cgpm.utils.general.build_cgpm (used at src/chain.py:110): the class named by 'factory'
    builds the object. *)
Definition build_part (b : blob) : out part :=
  do f <- bfield "factory" b;
  do f <- bplain f;
  do f <- as_pair as_str as_str f;
  let is (modname attrname : string) := eqb (fst f) modname && eqb (snd f) attrname in
  if is "cgpm2.linreg" "LinearRegression" then omap PLinreg (linreg_from_meta b)
  else if is "cgpm2.forest" "RandomForest" then omap PForest (forest_from_meta b)
  else do m <- bplain b; omap PModel (build m).

(** ** Chains *)

(** A child as Chain.v sees it (src/chain.py:38). *)
Definition part_node (m : part) : node :=
  match m with
  | PModel c => node_of c
  | PLinreg g => mkNode (part_outs m) (part_ins m) (linreg_logpdf g) (linreg_simulate g) (fun I => I)
  | PForest f => mkNode (part_outs m) (part_ins m) (forest_logpdf f) (forest_simulate f) (fun I => I)
  end.

(** A Chain with its children (src/chain.py:38-39); the other attributes are functions of
    these. *)
Record network := mkNetwork { nw_parts : list part; nw_accuracy : nat }.

(** src/chain.py:34-47 __init__ *)
Definition new_network (ms : list part) (accuracy : option nat) : out network :=
  do ch <- new_chain (map part_node ms) accuracy; Ok (mkNetwork ms (ch_accuracy ch)).

(** src/chain.py:101-106 to_metadata *)
Definition network_to_meta (nw : network) : blob :=
  BDict [("cgpms", BList (map part_to_meta (nw_parts nw))); ("accuracy", BPlain (MInt (Z.of_nat (nw_accuracy nw))));
         bfactory "cgpm2.chain" "Chain"].

(** src/chain.py:108-112 from_metadata *)
Definition network_from_meta (b : blob) : out network :=
  do blobs <- bfield "cgpms" b;
  do ms <- blist build_part blobs;
  do acc <- bfield "accuracy" b; do acc <- bplain acc; do acc <- as_int acc;
  new_network ms (Some (Z.to_nat acc)).

(** src/chain.py:77-96 logpdf of a Chain with its children *)
Definition network_logpdf (nw : network) (rid : option Z) (T C I : row) : samp (out xr) :=
  match new_chain (map part_node (nw_parts nw)) (Some (nw_accuracy nw)) with
  | Ok ch => chain_logpdf ch rid T C I
  | Err e => Ret (Err e)
  end.

(** src/chain.py:62-75 simulate of a Chain with its children *)
Definition network_simulate (nw : network) (rid : option Z) (ts : list Z) (C I : row) (N : option nat) : samp (out sres) :=
  match new_chain (map part_node (nw_parts nw)) (Some (nw_accuracy nw)) with
  | Ok ch => chain_simulate ch rid ts C I N
  | Err e => Ret (Err e)
  end.

(** logpdf_score of a child (src/chain.py:99). That of a forest answers None
    (src/forest.py:111-112), which the sum cannot add: TypeError. *)
Definition part_score (m : part) : out xr :=
  match m with PModel c => score c | PLinreg g => linreg_score g | PForest _ => Err TypeError end.

(** src/chain.py:98-99 logpdf_score *)
Definition network_score (nw : network) : out xr := omap xsum (oseq (map part_score (nw_parts nw))).
