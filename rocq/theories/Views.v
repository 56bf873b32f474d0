(** Reassigning columns to views: src/transition_views.py.

    A CrossCat model is a Product of flexible row mixtures (src/transition_crosscat.py:66-74).
    A proposal to move columns into an existing view shares objects with that view, so
    building it can change the view; the functions below return the view, or the CrossCat
    model, as it is afterwards next to their result.

    Simplification: only views that are flexible row mixtures share anything here; the
    proposal of a view of another class is taken to be independent of it. *)
From Coq Require Import List ZArith QArith Qcanon Reals Bool String.
From Verif Require Import Base Xr Samp Lgamma Prims Cgpm Trans Meta Walks.
Import ListNotations.
Local Open Scope Z_scope.

(** [crosscat.cgpms] (src/product.py:24); anything but a Product is refused by
    validate_crosscat (src/transition_crosscat.py:67). *)
Definition views_of (c : cgpm) : list cgpm := match c with CProd vs => vs | _ => [] end.

(** src/transition_views.py:21-28 get_dataset *)
Definition get_dataset (c : cgpm) (o : Z) : out (list (Z * row)) :=
  do ds <- get_cgpms_by_output_index c o;
  Ok (flat_map (fun d => map (fun p : Z * val => let (r, x) := p in (r, [(dist_o d, x)])) (dist_data d)) ds).

(** src/transition_views.py:30-34 get_cgpm_base ([empty_cgpms[0]] of an empty list raises) *)
Definition get_cgpm_base (c : cgpm) (o : Z) : out dist :=
  do ds <- get_cgpms_by_output_index c o;
  match filter (fun d => match dist_data d with [] => true | _ => false end) ds with
  | [] => Err IndexError
  | d :: _ => Ok d
  end.

(** src/transition_views.py:36-39 get_cgpm_data_logp *)
Definition get_cgpm_data_logp (v : cgpm) (o : Z) : out xr :=
  do ds <- get_cgpms_by_output_index v o;
  omap xsum (oseq (map dist_score ds)).

(** [enumerate] (src/transition_views.py:42) *)
Fixpoint enum_from {A} (i : nat) (l : list A) : list (nat * A) :=
  match l with [] => [] | a :: l' => (i, a) :: enum_from (S i) l' end.

(** src/transition_views.py:41-45 get_cgpm_current_view_index *)
Definition get_cgpm_current_view_index (c : cgpm) (outs : list Z) : out nat :=
  let idx := flat_map (fun o => map fst (filter (fun p => memb o (outputs (snd p))) (enum_from 0 (views_of c)))) outs in
  match idx with
  | [] => Err IndexError
  | i :: _ => do _ <- oassert (forallb (Nat.eqb i) idx); Ok i
  end.

(** The loop of src/transition_views.py:49-51 and 62-64 over one dataset: an exception
    leaves the model as it was reached. *)
Fixpoint observe_rows (c : cgpm) (l : list (Z * row)) : samp (cgpm * out unit) :=
  match l with
  | [] => Ret (c, Ok tt)
  | (r, obs) :: l' =>
    let! p := observe c r obs [] in
    match snd p with
    | Err e => Ret (fst p, Err e)
    | Ok _ => observe_rows (fst p) l'
    end
  end.

(** [reduce(add_cgpm, cgpm_base_list, view)], src/transition_views.py:48 *)
Definition add_all (bases : list dist) (v : cgpm) : out cgpm :=
  fold_left (fun acc d => do v' <- acc; add_cgpm v' (CDist d)) bases (Ok v).

(** [reduce(remove_cgpm, outputs, view)], src/transition_views.py:110 *)
Definition remove_all (outs : list Z) (v : cgpm) : out cgpm :=
  fold_left (fun acc o => do v' <- acc; remove_cgpm v' o) outs (Ok v).

(** The view [v] once the proposal made from it by add_cgpm has become [p]. The two share
    the row divider and rowid_to_component (src/walks.py:107, 113), the rowid_to_index of the
    arrays (src/walks.py:104) and, in each component there was, the columns there were
    (src/walks.py:95, 100-101: a new list, whose first items are the old objects). *)
Definition live (v p : cgpm) : cgpm :=
  match v, p with
  | CMix true _ (CFlexArr ix base cs _) _, CMix _ div' (CFlexArr _ _ cs' r2i') r2c' =>
      CMix true div' (CFlexArr ix base
        (map (fun e : val * cgpm => let (k, c) := e in
                (k, match c, lookup k cs' with
                    | CProd l, Some (CProd l') => CProd (firstn (List.length l) l')
                    | _, _ => c
                    end)) cs) r2i') r2c'
  | _, _ => v
  end.

(** src/transition_views.py:47-52 get_cgpm_view_proposal_existing_one; the first component is
    the view afterwards. *)
Definition proposal_existing_one (v : cgpm) (bases : list dist) (datasets : list (list (Z * row)))
  : samp (cgpm * out cgpm) :=
  match add_all bases v with
  | Err e => Ret (v, Err e)
  | Ok p =>
    let! r := observe_rows p (List.concat datasets) in
    Ret (live v (fst r), do _ <- snd r; Ok (fst r))
  end.

(** src/transition_views.py:54-65 get_cgpm_view_proposal_singleton_one: the label of the new
    row divider (concentration 1, src/crp.py:35) is drawn from 0 .. 2^32 - 2. *)
Definition proposal_singleton_one (bases : list dist) (datasets : list (list (Z * row))) : samp (out cgpm) :=
  DrawInt 0 (2 ^ 32 - 1) (fun label =>
    match new_product (map CDist bases) with
    | Err e => Ret (Err e)
    | Ok base =>
      let! r := observe_rows (new_flexmix (DCrp (crp_new label 1%Qc)) base) (List.concat datasets) in
      Ret (do _ <- snd r; Ok (fst r))
    end).

(** The list comprehension of src/transition_views.py:71-75; [i is not view_current] compares
    two ints by identity. The views are returned as they are afterwards. *)
Fixpoint proposals_existing (i cur : nat) (vs : list cgpm) (bases : list dist) (datasets : list (list (Z * row)))
  : samp (list cgpm * out (list cgpm)) :=
  match vs with
  | [] => Ret ([], Ok [])
  | v :: vs' =>
    let! r := (if int_is (Z.of_nat i) (Z.of_nat cur) then Ret (v, Ok v) else proposal_existing_one v bases datasets) in
    match snd r with
    | Err e => Ret (fst r :: vs', Err e)
    | Ok p =>
      let! r' := proposals_existing (S i) cur vs' bases datasets in
      Ret (fst r :: fst r', omap (cons p) (snd r'))
    end
  end.

(** src/transition_views.py:67-75 get_cgpm_view_proposals_existing *)
Definition get_cgpm_view_proposals_existing (c : cgpm) (outs : list Z) : samp (cgpm * out (list cgpm)) :=
  match (do cur <- get_cgpm_current_view_index c outs;
         do bases <- oseq (map (get_cgpm_base c) outs);
         do datasets <- oseq (map (get_dataset c) outs);
         Ok (cur, bases, datasets)) with
  | Err e => Ret (c, Err e)
  | Ok (cur, bases, datasets) =>
    let! r := proposals_existing 0 cur (views_of c) bases datasets in
    Ret (CProd (fst r), snd r)
  end.

(** src/transition_views.py:77-84 get_cgpm_view_proposals_singleton *)
Definition get_cgpm_view_proposals_singleton (c : cgpm) (outs : list Z) (aux : nat) : samp (out (list cgpm)) :=
  match (do bases <- oseq (map (get_cgpm_base c) outs);
         do datasets <- oseq (map (get_dataset c) outs);
         Ok (bases, datasets)) with
  | Err e => Ret (Err e)
  | Ok (bases, datasets) => srepeat aux (proposal_singleton_one bases datasets)
  end.

(** src/transition_views.py:86-90 get_cgpm_view_proposals *)
Definition get_cgpm_view_proposals (c : cgpm) (outs : list Z) (aux : nat) : samp (cgpm * out (list cgpm)) :=
  let! r := get_cgpm_view_proposals_existing c outs in
  match snd r with
  | Err e => Ret (fst r, Err e)
  | Ok existing =>
    let! s := get_cgpm_view_proposals_singleton (fst r) outs aux in
    Ret (fst r, do singleton <- s; Ok (existing ++ singleton))
  end.

(** [v.outputs[0]] (src/transition_views.py:111) *)
Definition first_output (v : cgpm) : out Z :=
  match outputs v with [] => Err IndexError | o :: _ => Ok o end.

(** [crosscat.cgpms[i]], [view_proposals[i]] (src/transition_views.py:101-104) *)
Definition item {A} (l : list A) (i : nat) : out A :=
  match nth_error l i with Some a => Ok a | None => Err IndexError end.

(** src/transition_views.py:101-123: what happens once proposal [i] has been sampled. *)
Definition take_proposal (c : cgpm) (outs : list Z) (props : list cgpm) (cur i : nat) : out cgpm :=
  let num_views := List.length (views_of c) in
  do view_current <- item (views_of c) cur;
  do view_sampled <- item props i;
  if Nat.eqb cur i then Ok c
  else
    do view_current' <- remove_all outs view_current;
    do label <- first_output view_current;
    do c1 <- remove_cgpm c label;
    do c2 <- (if Nat.ltb 1 (List.length (outputs view_current')) then add_cgpm c1 view_current' else Ok c1);
    if Nat.leb num_views i then add_cgpm c2 view_sampled
    else
      do original <- item (views_of c) i;
      do l0 <- first_output original;
      do l1 <- first_output view_sampled;
      do _ <- oassert (l0 =? l1);
      do c3 <- remove_cgpm c2 l0;
      add_cgpm c3 view_sampled.

(** src/transition_views.py:92-123 transition_cgpm_view_assigments; the first component is
    the CrossCat model passed in, as it is afterwards. *)
Definition transition_cgpm_view_assigments (c : cgpm) (outs : list Z) (aux : nat) : samp (cgpm * out cgpm) :=
  let! r := get_cgpm_view_proposals c outs aux in
  match snd r with
  | Err e => Ret (fst r, Err e)
  | Ok props =>
    match (do lps <- oseq (map (fun v => omap xsum (oseq (map (get_cgpm_data_logp v) outs))) props);
           do cur <- get_cgpm_current_view_index (fst r) outs;
           Ok (lps, cur)) with
    | Err e => Ret (fst r, Err e)
    | Ok (lps, cur) =>
      let! i := log_pflip lps in
      Ret (fst r, do i <- i; take_proposal (fst r) outs props cur i)
    end
  end.

(** src/transition_views.py:132-153 set_cgpm_view_assignment_existing *)
Definition set_assignment_existing (c : cgpm) (o0 o1 : Z) : samp (cgpm * out cgpm) :=
  match (do i0 <- get_cgpm_current_view_index c [o0];
         do i1 <- get_cgpm_current_view_index c [o1];
         Ok (i0, i1)) with
  | Err e => Ret (c, Err e)
  | Ok (i0, i1) =>
    if Nat.eqb i0 i1 then Ret (c, Ok c)
    else
      match (do view0 <- item (views_of c) i0;
             do view0' <- remove_cgpm view0 o0;
             do view1 <- item (views_of c) i1;
             do base <- get_cgpm_base c o0;
             do dataset <- get_dataset c o0;
             Ok (view0, view0', view1, base, dataset)) with
      | Err e => Ret (c, Err e)
      | Ok (view0, view0', view1, base, dataset) =>
        let! r := proposal_existing_one view1 [base] [dataset] in
        let c1 := CProd (set_nth i1 (fst r) (views_of c)) in
        Ret (c1,
          do view1' <- snd r;
          do l0 <- first_output view0;
          do c2 <- remove_cgpm c1 l0;
          do c3 <- (if Nat.ltb 1 (List.length (outputs view0')) then add_cgpm c2 view0' else Ok c2);
          do l1 <- first_output view1;
          do c4 <- remove_cgpm c3 l1;
          add_cgpm c4 view1')
      end
  end.

(** src/transition_views.py:155-171 set_cgpm_view_assignment_singleton *)
Definition set_assignment_singleton (c : cgpm) (o0 : Z) : samp (cgpm * out cgpm) :=
  match (do i0 <- get_cgpm_current_view_index c [o0];
         do view0 <- item (views_of c) i0;
         do view0' <- remove_cgpm view0 o0;
         do base <- get_cgpm_base c o0;
         do dataset <- get_dataset c o0;
         Ok (view0, view0', base, dataset)) with
  | Err e => Ret (c, Err e)
  | Ok (view0, view0', base, dataset) =>
    let! r := proposal_singleton_one [base] [dataset] in
    Ret (c,
      do single <- r;
      do l0 <- first_output view0;
      do c2 <- remove_cgpm c l0;
      do c3 <- (if Nat.ltb 1 (List.length (outputs view0')) then add_cgpm c2 view0' else Ok c2);
      add_cgpm c3 single)
  end.

(** src/transition_views.py:125-130 set_cgpm_view_assignment *)
Definition set_cgpm_view_assignment (c : cgpm) (o0 : Z) (o1 : option Z) : samp (cgpm * out cgpm) :=
  match o1 with
  | Some o1 => set_assignment_existing c o0 o1
  | None => set_assignment_singleton c o0
  end.

(** src/transition_crosscat.py:35-38 get_distribution_outputs *)
Definition get_distribution_outputs (c : cgpm) : list Z := flat_map (fun v => tl (outputs v)) (views_of c).

(** The loop of src/transition_crosscat.py:164-166, [aux] being 1 by default
    (src/transition_views.py:92); the first component is [self.crosscat] afterwards. *)
Fixpoint reassign_each (c : cgpm) (outs : list Z) : samp (cgpm * out unit) :=
  match outs with
  | [] => Ret (c, Ok tt)
  | o :: rest =>
    let! p := transition_cgpm_view_assigments c [o] 1 in
    match snd p with
    | Ok c' => reassign_each c' rest
    | Err e => Ret (fst p, Err e)
    end
  end.

(** src/transition_crosscat.py:161-166 GibbsCrossCat.transition_view_assignments; [constrained]
    says whether the object was given dependence constraints Cd or Ci, and the second
    argument is [self.crosscat]. No [outputs] and an empty list are alike. *)
Definition transition_view_assignments (constrained : bool) (c : cgpm) (outs : option (list Z)) : samp (cgpm * out unit) :=
  if constrained then Ret (c, Err AssertionError)
  else reassign_each c (match outs with None | Some [] => get_distribution_outputs c | Some l => l end).

(** src/transition_crosscat.py:217-219 GibbsCrossCat.set_view_assignment *)
Definition set_view_assignment (constrained : bool) (c : cgpm) (o0 : Z) (o1 : option Z) : samp (cgpm * out unit) :=
  if constrained then Ret (c, Err AssertionError)
  else let! p := set_cgpm_view_assignment c o0 o1 in
       match snd p with Ok c' => Ret (c', Ok tt) | Err e => Ret (fst p, Err e) end.
