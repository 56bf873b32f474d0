(** Metadata and sharing: which mutable Python objects a primitive, its metadata and an
    object reloaded from that metadata have in common.

    The heap holds the containers the primitives change in place: the OrderedDict of the
    data, the OrderedDict or array of counts, the 0-dimensional array that
    [np.array(metadata['x_sum'])] makes of an int, the dict of hyperparameters of
    NormalUC. Numbers are immutable: assigning an attribute affects one object only.

    Simplifications: the lists [outputs] and [inputs] are shared as well but no method
    changes them; the lists made by [data.items()] and [list(counts)] are new and nobody
    changes them, so metadata holds their contents; numpy's restriction on adding a float
    to an int array in place plays no role (x is converted with int()). *)
From Coq Require Import List ZArith QArith Qcanon Reals Bool String.
From Verif Require Import Base Xr Samp Lgamma Prims Cgpm SpecPrims Meta.
Import ListNotations.
Local Open Scope Z_scope.

(** Containers: OrderedDict of cells (src/categorical.py:37), OrderedDict of ints
    (src/crp.py:33,35), array of counts (src/categorical.py:39), 0-dimensional array
    (src/bernoulli.py:99), dict of hyperparameters (src/normal_uc.py:33). *)
Inductive cell :=
| HCells (d : dict Z val)
| HInts (d : dict Z Z)
| HArray (l : list Z)
| HZero (z : Z)
| HHypers (h : dict string Qc).

(** The heap; an address is a position (no counterpart in /repo: Python's memory)
    (the objects of src/crp.py:33-36). *)
Definition heap := list cell.
(** An address (the objects of src/crp.py:33-36). *)
Definition loc := nat.

(** [x_sum] of a Bernoulli: an int (src/bernoulli.py:37) or a 0-dimensional array
    (src/bernoulli.py:99). *)
Inductive num := NInt (z : Z) | NArr (l : loc).

(** The attributes of a primitive: src/crp.py:28-36, src/categorical.py:31-40,
    src/bernoulli.py:31-40, src/poisson.py:29-42, src/normal.py:30-49,
    src/normal_uc.py:31-43. Containers are held by address. *)
Inductive obj :=
| OCrp (o : Z) (data : loc) (N : Z) (counts : loc) (alpha : Qc)
| OCat (o k : Z) (data : loc) (N : Z) (counts : loc) (alpha : Qc)
| OBer (o : Z) (data : loc) (N : Z) (x_sum : num) (alpha beta : Qc)
| OPoi (o : Z) (data : loc) (N : Z) (sum_x : Qc) (slf : R) (a b : Qc)
| ONrm (o : Z) (data : loc) (N : Z) (sum_x sum_x_sq m r s nu : Qc)
| ONuc (o : Z) (data : loc) (N : Z) (sum_x sum_x_sq mu var : Qc) (hypers : loc).

(** What to_metadata returns: src/crp.py:89-98, src/categorical.py:81-91,
    src/bernoulli.py:82-92, src/poisson.py:86-97, src/normal.py:92-105,
    src/normal_uc.py:86-98. [items()] and [list()] are new lists; [x_sum] and [hypers]
    are the very objects of the model. *)
Inductive snap :=
| SCrp (o : Z) (data : list (Z * Z)) (N : Z) (counts : list (Z * Z)) (alpha : Qc)
| SCat (o k : Z) (data : list (Z * val)) (N : Z) (counts : list Z) (alpha : Qc)
| SBer (o : Z) (data : list (Z * val)) (N : Z) (x_sum : num) (alpha beta : Qc)
| SPoi (o : Z) (data : list (Z * val)) (N : Z) (sum_x : Qc) (slf : R) (a b : Qc)
| SNrm (o : Z) (data : list (Z * val)) (N : Z) (sum_x sum_x_sq m r s nu : Qc)
| SNuc (o : Z) (data : list (Z * val)) (N : Z) (sum_x sum_x_sq mu var : Qc) (hypers : loc).

(** Reading a container (an attribute access in the code) (src/categorical.py:51). *)
Definition get_cells (h : heap) (l : loc) : option (dict Z val) :=
  match nth_error h l with Some (HCells d) => Some d | _ => None end.
(** Reading an OrderedDict of ints (src/crp.py:45). *)
Definition get_ints (h : heap) (l : loc) : option (dict Z Z) :=
  match nth_error h l with Some (HInts d) => Some d | _ => None end.
(** Reading an array of counts (src/categorical.py:50). *)
Definition get_array (h : heap) (l : loc) : option (list Z) :=
  match nth_error h l with Some (HArray d) => Some d | _ => None end.
(** Reading a dict of hyperparameters (src/normal_uc.py:117-124). *)
Definition get_hypers (h : heap) (l : loc) : option (dict string Qc) :=
  match nth_error h l with Some (HHypers d) => Some d | _ => None end.
(** Reading x_sum (src/bernoulli.py:51). *)
Definition get_num (h : heap) (n : num) : option Z :=
  match n with
  | NInt z => Some z
  | NArr l => match nth_error h l with Some (HZero z) => Some z | _ => None end
  end.

(** The state an object is in: the primitive of Prims.v with the same attributes
    (no code; reads the attributes of e.g. src/crp.py:28-36). *)
Definition denote (h : heap) (o : obj) : option dist :=
  match o with
  | OCrp o data N counts alpha =>
      match get_ints h data, get_ints h counts with
      | Some d, Some c => Some (DCrp (mkCrp o d N c alpha)) | _, _ => None end
  | OCat o k data N counts alpha =>
      match get_cells h data, get_array h counts with
      | Some d, Some c => Some (DCat (mkCat o k d N c alpha)) | _, _ => None end
  | OBer o data N x_sum alpha beta =>
      match get_cells h data, get_num h x_sum with
      | Some d, Some s => Some (DBer (mkBer o d N s alpha beta)) | _, _ => None end
  | OPoi o data N sum_x slf a b =>
      match get_cells h data with Some d => Some (DPoi (mkPoi o d N sum_x slf a b)) | _ => None end
  | ONrm o data N sum_x sum_x_sq m r s nu =>
      match get_cells h data with Some d => Some (DNrm (mkNrm o d N sum_x sum_x_sq m r s nu)) | _ => None end
  | ONuc o data N sum_x sum_x_sq mu var hypers =>
      match get_cells h data, get_hypers h hypers with
      | Some d, Some hy => Some (DNuc (mkNuc o d N sum_x sum_x_sq mu var hy)) | _, _ => None end
  end.

(** Writing a container in place (src/crp.py:46, src/categorical.py:50). *)
Definition put (h : heap) (l : loc) (c : cell) : heap := set_nth l c h.

(** [self.x_sum += x] (src/bernoulli.py:51,59): an int is replaced, an array is changed
    in place. *)
Definition put_num (h : heap) (n : num) (z : Z) : heap * num :=
  match n with NInt _ => (h, NInt z) | NArr l => (put h l (HZero z), NArr l) end.

(** A method brings the object to the state [d]: containers are changed in place
    ([self.data[rowid] = x], [self.counts[x] += 1], [self.hypers['m'] = ...],
    src/normal_uc.py:117-124), numbers are assigned. *)
Definition store (h : heap) (o : obj) (d : dist) : heap * obj :=
  match o, d with
  | OCrp _ data _ counts _, DCrp s =>
      (put (put h data (HInts (crp_data s))) counts (HInts (crp_counts s)),
       OCrp (crp_o s) data (crp_N s) counts (crp_alpha s))
  | OCat _ _ data _ counts _, DCat s =>
      (put (put h data (HCells (cat_data s))) counts (HArray (cat_counts s)),
       OCat (cat_o s) (cat_k s) data (cat_N s) counts (cat_alpha s))
  | OBer _ data _ x_sum _ _, DBer s =>
      let (h', n) := put_num (put h data (HCells (ber_data s))) x_sum (ber_sum s) in
      (h', OBer (ber_o s) data (ber_N s) n (ber_alpha s) (ber_beta s))
  | OPoi _ data _ _ _ _ _, DPoi s =>
      (put h data (HCells (poi_data s)),
       OPoi (poi_o s) data (poi_N s) (poi_sum s) (poi_slf s) (poi_a s) (poi_b s))
  | ONrm _ data _ _ _ _ _ _ _, DNrm s =>
      (put h data (HCells (nrm_data s)),
       ONrm (nrm_o s) data (nrm_N s) (nrm_sum s) (nrm_sumsq s) (nrm_m s) (nrm_r s) (nrm_s s) (nrm_nu s))
  | ONuc _ data _ _ _ _ _ hypers, DNuc s =>
      (put (put h data (HCells (nuc_data s))) hypers (HHypers (nuc_hypers s)),
       ONuc (nuc_o s) data (nuc_N s) (nuc_sum s) (nuc_sumsq s) (nuc_mu s) (nuc_var s) hypers)
  | _, _ => (h, o)
  end.

(** observe, unobserve, set_hypers, set_params of the classes cited in Prims.v, on an
    object in memory (e.g. src/crp.py:38-55). *)
Definition invoke (h : heap) (o : obj) (c : call) : heap * obj :=
  match denote h o with Some d => store h o (after d c) | None => (h, o) end.

(** The constructors (lines cited at [obj]): new containers (src/crp.py:21-36 and the like). *)
Definition create (h : heap) (d : dist) : heap * obj :=
  let l := List.length h in
  match d with
  | DCrp s => (h ++ [HInts (crp_data s); HInts (crp_counts s)],
               OCrp (crp_o s) l (crp_N s) (S l) (crp_alpha s))
  | DCat s => (h ++ [HCells (cat_data s); HArray (cat_counts s)],
               OCat (cat_o s) (cat_k s) l (cat_N s) (S l) (cat_alpha s))
  | DBer s => (h ++ [HCells (ber_data s)],
               OBer (ber_o s) l (ber_N s) (NInt (ber_sum s)) (ber_alpha s) (ber_beta s))
  | DPoi s => (h ++ [HCells (poi_data s)],
               OPoi (poi_o s) l (poi_N s) (poi_sum s) (poi_slf s) (poi_a s) (poi_b s))
  | DNrm s => (h ++ [HCells (nrm_data s)],
               ONrm (nrm_o s) l (nrm_N s) (nrm_sum s) (nrm_sumsq s) (nrm_m s) (nrm_r s) (nrm_s s) (nrm_nu s))
  | DNuc s => (h ++ [HCells (nuc_data s); HHypers (nuc_hypers s)],
               ONuc (nuc_o s) l (nuc_N s) (nuc_sum s) (nuc_sumsq s) (nuc_mu s) (nuc_var s) (S l))
  end.

(** to_metadata (lines cited at [snap]) (src/crp.py:89-98 and the like) *)
Definition snapshot (h : heap) (o : obj) : option snap :=
  match o with
  | OCrp o data N counts alpha =>
      match get_ints h data, get_ints h counts with
      | Some d, Some c => Some (SCrp o d N c alpha) | _, _ => None end
  | OCat o k data N counts alpha =>
      match get_cells h data, get_array h counts with
      | Some d, Some c => Some (SCat o k d N c alpha) | _, _ => None end
  | OBer o data N x_sum alpha beta =>
      match get_cells h data with Some d => Some (SBer o d N x_sum alpha beta) | _ => None end
  | OPoi o data N sum_x slf a b =>
      match get_cells h data with Some d => Some (SPoi o d N sum_x slf a b) | _ => None end
  | ONrm o data N sum_x sum_x_sq m r s nu =>
      match get_cells h data with Some d => Some (SNrm o d N sum_x sum_x_sq m r s nu) | _ => None end
  | ONuc o data N sum_x sum_x_sq mu var hypers =>
      match get_cells h data with Some d => Some (SNuc o d N sum_x sum_x_sq mu var hypers) | _ => None end
  end.

(** from_metadata: src/crp.py:100-107, src/categorical.py:93-101,
    src/bernoulli.py:94-102 ([np.array] copies), src/poisson.py:99-108,
    src/normal.py:107-118, src/normal_uc.py:100-110 (the dict is taken over) *)
Definition load (h : heap) (s : snap) : option (heap * obj) :=
  let l := List.length h in
  match s with
  | SCrp o data N counts alpha =>
      Some (h ++ [HInts (dict_of data); HInts (dict_of counts)], OCrp o l N (S l) alpha)
  | SCat o k data N counts alpha =>
      Some (h ++ [HCells (dict_of data); HArray counts], OCat o k l N (S l) alpha)
  | SBer o data N x_sum alpha beta =>
      match get_num h x_sum with
      | Some z => Some (h ++ [HCells (dict_of data); HZero z], OBer o l N (NArr (S l)) alpha beta)
      | None => None
      end
  | SPoi o data N sum_x slf a b => Some (h ++ [HCells (dict_of data)], OPoi o l N sum_x slf a b)
  | SNrm o data N sum_x sum_x_sq m r s nu =>
      Some (h ++ [HCells (dict_of data)], ONrm o l N sum_x sum_x_sq m r s nu)
  | SNuc o data N sum_x sum_x_sq mu var hypers =>
      Some (h ++ [HCells (dict_of data)], ONuc o l N sum_x sum_x_sq mu var hypers)
  end.

(** A program's objects and the metadata it has kept (no counterpart in /repo)
    (a user of src/icgpm.py). *)
Record world := mkWorld { w_heap : heap; w_objs : list obj; w_snaps : list snap }.

(** What a program does: make an object, call a method of the [i]-th object, take its
    metadata, build an object from the [j]-th metadata (src/icgpm.py:38-171). *)
Inductive op :=
| New (d : dist)
| Call (i : nat) (c : call)
| Snap (i : nat)
| Load (j : nat).

(** One step of a program; positions that do not exist are ignored (src/icgpm.py:38-171). *)
Definition step (w : world) (p : op) : world :=
  let 'mkWorld h os ss := w in
  match p with
  | New d => let (h', o) := create h d in mkWorld h' (os ++ [o]) ss
  | Call i c =>
      match nth_error os i with
      | Some o => let (h', o') := invoke h o c in mkWorld h' (set_nth i o' os) ss
      | None => w
      end
  | Snap i =>
      match nth_error os i with
      | Some o => match snapshot h o with Some s => mkWorld h os (ss ++ [s]) | None => w end
      | None => w
      end
  | Load j =>
      match nth_error ss j with
      | Some s => match load h s with Some (h', o) => mkWorld h' (os ++ [o]) ss | None => w end
      | None => w
      end
  end.

(** A program run from the start (a user of src/icgpm.py). *)
Definition run_world (ps : list op) : world := fold_left step ps (mkWorld [] [] []).
