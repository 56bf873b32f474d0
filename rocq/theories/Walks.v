(** Walking over composite models: finding, removing and adding columns. src/walks.py.

    Simplifications: the tree has no Chain (Chain.v), so the branches for Chain are left
    out; objects shared between the argument and the result are not told apart from copies
    (Views.v models the sharing); the order of [dict.values()] is that of insertion. *)
From Coq Require Import List ZArith QArith Qcanon Reals Bool String.
From Verif Require Import Base Xr Samp Lgamma Prims Cgpm Meta.
Import ListNotations.
Local Open Scope Z_scope.

(** src/walks.py:24-45 get_cgpms_by_output_index. In a Product exactly one child must have
    the column; in a FlexibleArray the base comes last. *)
Fixpoint get_cgpms_by_output_index (c : cgpm) (o : Z) : out (list dist) :=
  match c with
  | CDist d => Ok (if dist_o d =? o then [d] else [])
  | CProd cs =>
      match filter (fun p => memb o (fst p)) (map (fun c' => (outputs c', get_cgpms_by_output_index c' o)) cs) with
      | [(_, r)] => r
      | _ => Err AssertionError
      end
  | CFinArr _ cs _ => omap (@List.concat dist) (oseq (map (fun c' => get_cgpms_by_output_index c' o) cs))
  | CFlexArr _ base cs _ =>
      omap (@List.concat dist)
        (oseq (map (fun p => let '(_, c') := p in get_cgpms_by_output_index c' o) cs ++ [get_cgpms_by_output_index base o]))
  | CMix _ div arr _ => if dist_o div =? o then Ok [div] else get_cgpms_by_output_index arr o
  end.

(** src/walks.py:47-90 remove_cgpm. The constructors called on the new children check them
    again; a FiniteRowMixture starts with an empty rowid_to_component (lines 79-88). *)
Fixpoint remove_cgpm (c : cgpm) (o : Z) : out cgpm :=
  match c with
  | CDist _ => Err AssertionError
  | CProd cs =>
      let cs' := filter (fun c' => negb (memb o (outputs c'))) cs in
      do _ <- oassert (Nat.eqb (List.length cs') (List.length cs) || Nat.eqb (S (List.length cs')) (List.length cs));
      new_product cs'
  | CFlexArr ix base cs r2i =>
      do base' <- remove_cgpm base o;
      do cs' <- oseq (map (fun p => let '(k, c') := p in do c2 <- remove_cgpm c' o; Ok (k, c2)) cs);
      Ok (CFlexArr ix base' cs' r2i)
  | CFinArr ix cs r2i =>
      do cs' <- oseq (map (fun c' => remove_cgpm c' o) cs);
      do _ <- new_finarr cs' ix;
      Ok (CFinArr ix cs' r2i)
  | CMix true div arr r2c =>
      do _ <- oassert (negb (o =? dist_o div));
      do arr' <- remove_cgpm arr o;
      do _ <- array_base arr';
      Ok (CMix true div arr' r2c)
  | CMix false div arr r2c =>
      do _ <- oassert (negb (o =? dist_o div));
      do arr' <- remove_cgpm arr o;
      do cs' <- array_cgpms arr';
      do _ <- new_finmix div cs';
      Ok (CMix false div arr' [])
  end.

(** src/walks.py:92-132 add_cgpm. The base of a FlexibleArray gets the new model itself, the
    components get clones; as above a FiniteRowMixture starts with an empty
    rowid_to_component (lines 122-130). *)
Fixpoint add_cgpm (c new : cgpm) : out cgpm :=
  match c with
  | CDist _ => Err AssertionError
  | CProd cs => new_product (cs ++ [new])
  | CFlexArr ix base cs r2i =>
      do base' <- add_cgpm base new;
      do cs' <- oseq (map (fun p => let '(k, c') := p in
                  do n <- clone new; do c2 <- add_cgpm c' n; Ok (k, c2)) cs);
      Ok (CFlexArr ix base' cs' r2i)
  | CFinArr ix cs r2i =>
      do cs' <- oseq (map (fun c' => do n <- clone new; add_cgpm c' n) cs);
      do _ <- new_finarr cs' ix;
      Ok (CFinArr ix cs' r2i)
  | CMix true div arr r2c =>
      do arr' <- add_cgpm arr new;
      do _ <- array_base arr';
      Ok (CMix true div arr' r2c)
  | CMix false div arr r2c =>
      do arr' <- add_cgpm arr new;
      do cs' <- array_cgpms arr';
      do _ <- new_finmix div cs';
      Ok (CMix false div arr' [])
  end.
