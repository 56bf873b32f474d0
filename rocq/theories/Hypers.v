(** Inference of hyperparameters: src/transition_hypers.py. *)
From Coq Require Import List ZArith QArith Qcanon Qround Reals Bool String.
From Verif Require Import Base Xr Samp Lgamma Prims Cgpm.
Import ListNotations.
Local Open Scope Z_scope.

(** The grids of the hyperparameters, a dict of lists (src/transition_hypers.py:15). *)
Definition grids := dict string (list Qc).

(** [type(cgpm) is type(cgpms[0])], src/transition_hypers.py:18 *)
Definition same_class (d d' : dist) : bool :=
  match d, d' with
  | DCrp _, DCrp _ | DCat _, DCat _ | DBer _, DBer _ | DPoi _, DPoi _ | DNrm _, DNrm _ | DNuc _, DNuc _ => true
  | _, _ => false
  end.

(** src/transition_hypers.py:18-19: the assertion on the classes, then [cgpms[0]], which
    raises if there is none. The assertion on line 17 holds for everything in [dist]. *)
Definition first_of (ds : list dist) : out dist :=
  match ds with
  | [] => Err IndexError
  | d :: _ => do _ <- oassert (forallb (fun d' => same_class d' d) ds); Ok d
  end.

(** The loop of src/transition_hypers.py:29-31; [logp] is what has been added up so far. *)
Fixpoint set_and_score (ds : list dist) (h : hypers) (logp : xr) : list dist * out xr :=
  match ds with
  | [] => ([], Ok logp)
  | d :: rest =>
    match dist_set_hypers d h with
    | (d', Err e) => (d' :: rest, Err e)
    | (d', Ok _) =>
      match dist_score d' with
      | Err e => (d' :: rest, Err e)
      | Ok s => let (rest', r) := set_and_score rest h (xadd logp s) in (d' :: rest', r)
      end
    end
  end.

(** The loop of src/transition_hypers.py:25-32 over the grid of hyperparameter [k]. What it
    leaves in [hyperparams[k]] is overwritten on line 35. *)
Fixpoint score_grid (ds : list dist) (h : hypers) (k : string) (grid : list Qc) : list dist * out (list xr) :=
  match grid with
  | [] => (ds, Ok [])
  | g :: grid' =>
    match set_and_score ds (dset k g h) (Fin 0) with
    | (ds', Err e) => (ds', Err e)
    | (ds', Ok logp) => let (ds'', r) := score_grid ds' h k grid' in (ds'', omap (cons logp) r)
    end
  end.

(** The loop of src/transition_hypers.py:22-35; the components are returned as they are
    afterwards, with [hyperparams]. *)
Fixpoint sweep_hypers (ds : list dist) (h : hypers) (names : list string) (gs : grids) : samp (list dist * out hypers) :=
  match names with
  | [] => Ret (ds, Ok h)
  | k :: names' =>
    match dget k gs with
    | Err e => Ret (ds, Err e)
    | Ok grid =>
      match score_grid ds h k grid with
      | (ds', Err e) => Ret (ds', Err e)
      | (ds', Ok logps) =>
        let! i := log_pflip logps in
        match i with
        | Err e => Ret (ds', Err e)
        | Ok i => sweep_hypers ds' (dset k (nth i grid 0%Qc) h) names' gs
        end
      end
    end
  end.

(** The loop of src/transition_hypers.py:37-38 *)
Fixpoint set_all_hypers (ds : list dist) (h : hypers) : list dist * out unit :=
  match ds with
  | [] => ([], Ok tt)
  | d :: rest =>
    match dist_set_hypers d h with
    | (d', Err e) => (d' :: rest, Err e)
    | (d', Ok _) => let (rest', r) := set_all_hypers rest h in (d' :: rest', r)
    end
  end.

(** src/transition_hypers.py:22-39, the order of the hyperparameters being given. *)
Definition transition_hypers_in_order (ds : list dist) (h : hypers) (gs : grids) (names : list string)
  : samp (list dist * out hypers) :=
  let! p := sweep_hypers ds h names gs in
  match snd p with
  | Err e => Ret (fst p, Err e)
  | Ok h' => let (ds', r) := set_all_hypers (fst p) h' in Ret (ds', omap (fun _ => h') r)
  end.

(** src/transition_hypers.py:15-39 transition_hypers; the components are returned as they are
    afterwards, with the result. *)
Definition transition_hypers (ds : list dist) (gs : grids) : samp (list dist * out hypers) :=
  match first_of ds with
  | Err e => Ret (ds, Err e)
  | Ok d0 =>
    let h := dist_get_hypers d0 in
    DrawPerm (List.length h) (fun l => transition_hypers_in_order ds h gs (map (fun i => nth i (keys h) ""%string) l))
  end.

(** [itertools.product( *lists)], src/transition_hypers.py:46 *)
Fixpoint product_of {A} (lists : list (list A)) : list (list A) :=
  match lists with
  | [] => [[]]
  | l :: rest => flat_map (fun a => map (cons a) (product_of rest)) l
  end.

(** The loop of src/transition_hypers.py:48-54 over the cells, [names] being the keys of the
    grids. *)
Fixpoint score_cells (ds : list dist) (names : list string) (cells : list (list Qc)) : list dist * out (list xr) :=
  match cells with
  | [] => (ds, Ok [])
  | c :: cells' =>
    match set_and_score ds (combine names c) (Fin 0) with
    | (ds', Err e) => (ds', Err e)
    | (ds', Ok logp) => let (ds'', r) := score_cells ds' names cells' in (ds'', omap (cons logp) r)
    end
  end.

(** src/transition_hypers.py:41-59 transition_hypers_full. Only the first of the three results
    is kept: the others are the cells and their scores. With no components the two assertions
    hold and every cell scores 0. *)
Definition transition_hypers_full (ds : list dist) (gs : grids) : samp (list dist * out hypers) :=
  match ds, first_of ds with
  | _ :: _, Err e => Ret (ds, Err e)
  | _, _ =>
    let names := keys gs in
    let cells := product_of (map snd gs) in
    match score_cells ds names cells with
    | (ds', Err e) => Ret (ds', Err e)
    | (ds', Ok logps) =>
      let! i := log_pflip logps in
      match i with
      | Err e => Ret (ds', Err e)
      | Ok i =>
        let selected := combine names (nth i cells []) in
        let (ds'', r) := set_all_hypers ds' selected in Ret (ds'', omap (fun _ => selected) r)
      end
    end
  end.

(** src/transition_hypers.py:68-75 set_hypers: the given values replace those of each
    component in turn. *)
Fixpoint update_all_hypers (ds : list dist) (h : hypers) : list dist * out unit :=
  match ds with
  | [] => ([], Ok tt)
  | d :: rest =>
    match dist_set_hypers d (fold_left (fun acc kv => dset (fst kv) (snd kv) acc) h (dist_get_hypers d)) with
    | (d', Err e) => (d' :: rest, Err e)
    | (d', Ok _) => let (rest', r) := update_all_hypers rest h in (d' :: rest', r)
    end
  end.

(** src/transition_hypers.py:68-75 set_hypers, with its assertions. *)
Definition set_hypers (ds : list dist) (h : hypers) : list dist * out unit :=
  match ds, first_of ds with
  | _ :: _, Err e => (ds, Err e)
  | _, _ => update_all_hypers ds h
  end.

(** ** Grids *)

(** [float(n)] for a length, src/categorical.py:131 *)
Definition nq (n : nat) : Qc := qz (Z.of_nat n).

(** numpy.linspace(a, b, n), src/normal.py:155, src/poisson.py:138 *)
Definition linspace (a b : Qc) (n : nat) : list Qc :=
  match n with
  | O => []
  | S O => [a]
  | S m => map (fun i => (a + nq i * ((b - a) / nq m))%Qc) (seq 0 n)
  end.

(** numpy.round, to the nearest integer, halves to the even one (src/poisson.py:138) *)
Definition round_even (q : Qc) : Qc :=
  let f := Qfloor q in
  let r := (q - qz f)%Qc in
  let half := Q2Qc (1 # 2) in
  let up := qltb half r || (negb (qltb r half) && Z.odd f) in
  qz (if up then f + 1 else f).

(** numpy.unique of a list in order, as on src/poisson.py:138 *)
Fixpoint unique (l : list Qc) : list Qc :=
  match l with
  | [] => []
  | x :: l' => x :: filter (fun y => negb (if Qc_eq_dec y x then true else false)) (unique l')
  end.

(** numpy.mean and numpy.var, src/normal.py:153 *)
Definition mean (X : list Qc) : Qc := (fold_right Qcplus 0%Qc X / nq (List.length X))%Qc.
(** numpy.var (src/normal.py:153). *)
Definition var (X : list Qc) : Qc := mean (map (fun x => ((x - mean X) * (x - mean X))%Qc) X).

(** [min(X)] and [max(X)], src/normal.py:151-152 *)
Definition least (X : list Qc) : Qc := fold_right (fun a b => if qltb b a then b else a) (hd 0%Qc X) X.
(** [max(X)] (src/normal.py:152). *)
Definition greatest (X : list Qc) : Qc := fold_right (fun a b => if qltb a b then b else a) (hd 0%Qc X) X.

(** [len(X) if len(X) > 0 else n], src/crp.py:176, src/normal.py:150 *)
Definition len_or (X : list Qc) (n : nat) : Qc := match X with [] => nq n | _ => nq (List.length X) end.

(** construct_hyper_grids: src/crp.py:174-178, src/categorical.py:128-132,
    src/bernoulli.py:131-136, src/poisson.py:135-140, src/normal.py:147-159,
    src/normal_uc.py:144-145. [logspace] stands for cgpm.utils.general.log_linspace, whose
    values are not rational; the theorems hold for any such function. *)
Definition construct_hyper_grids (logspace : Qc -> Qc -> nat -> list Qc) (d : dist) (X : list Qc) (n : nat) : grids :=
  match d with
  | DCrp _ => [("alpha", logspace (/ len_or X 5)%Qc (len_or X 5) n)]
  | DCat _ => [("alpha", logspace (/ len_or X 2)%Qc (len_or X 2) n)]
  | DBer _ => [("alpha", logspace (/ len_or X 2)%Qc (len_or X 2) n); ("beta", logspace (/ len_or X 2)%Qc (len_or X 2) n)]
  | DPoi _ =>
      [("a", unique (map round_even (linspace 1%Qc (len_or X 2) n)));
       ("b", logspace (Q2Qc (1 # 10)) (len_or X 2) n)]
  | DNrm _ =>
      let N := len_or X 5 in
      let minX := match X with [] => 0%Qc | _ => least X end in
      let maxX := match X with [] => 1%Qc | _ => greatest X end in
      let ssqdev := match X with [] => 1%Qc | _ => (var X * N + 1)%Qc end in
      [("m", linspace minX (maxX + nq 5)%Qc n); ("r", logspace (/ N)%Qc N n);
       ("s", logspace (ssqdev / nq 100)%Qc ssqdev n); ("nu", logspace 1%Qc N n)]
  | DNuc _ => []
  end%string.

(** src/transition_hypers.py:61-66 transition_hyper_grids *)
Definition transition_hyper_grids (logspace : Qc -> Qc -> nat -> list Qc) (ds : list dist) (n : nat) : out grids :=
  do d0 <- first_of ds;
  let X := flat_map (fun d => flat_map (fun p : Z * val => match snd p with VQ q => [q] | VNan => [] end) (dist_data d)) ds in
  Ok (construct_hyper_grids logspace d0 X n).
