(** Model of the row transitions, src/transition_rows.py. *)
From Coq Require Import List ZArith QArith Qcanon Reals Bool String.
From Verif Require Import Base Xr Samp Lgamma Prims Cgpm.
Import ListNotations.
Local Open Scope Z_scope.

(** src/transition_rows.py:12-24 transition_rows. [isinstance] fails for anything but a row
    mixture. Queries do not change the model here: the components they instantiate are read
    as the base (see DESIGN.md). *)
Definition transition_rows (c : cgpm) (rid : Z) : samp (cgpm * out unit) :=
  match c with
  | CMix _ div0 _ _ =>
    match unobserve c rid with
    | (c1, Err e) => Ret (c1, Err e)
    | (c1, Ok (obs, ins)) =>
      match c1 with
      | CMix _ div _ _ =>
        let ix := dist_o div in
        match (do zs <- dist_support div;
               do ws <- oseq (map (fun z => logpdf c1 None (dset ix (vz z) obs) [] ins) zs);
               Ok (zs, ws)) with
        | Err e => Ret (c1, Err e)
        | Ok (zs, ws) =>
          let! i := log_pflip ws in
          match i with
          | Err e => Ret (c1, Err e)
          | Ok i => observe c1 rid (dset ix (vz (nth i zs 0)) obs) ins
          end
        end
      | _ => Ret (c1, Err AttributeError)
      end
    end
  | _ => Ret (c, Err AssertionError)
  end.

(** src/transition_rows.py:26-30 get_rowids *)
Definition get_rowids (c : cgpm) : out (list Z) :=
  match c with
  | CMix _ div _ _ => Ok (keys (dist_data div))
  | _ => Err AttributeError
  end.

(** CPython's [is] on two ints computed separately: they are one object when equal and in
    the small-int cache, -5..256 (src/transition_rows.py:35, src/transition_views.py:73). Two
    equal larger ints are taken to be different objects. *)
Definition int_is (a b : Z) : bool := (a =? b) && (-5 <=? a) && (a <=? 256).

(** src/transition_rows.py:32-45 set_rowid_component. *)
Definition set_rowid_component (c : cgpm) (rid0 : Z) (rid1 : option Z) : samp (cgpm * out unit) :=
  match c with
  | CMix flex div0 _ _ =>
    match rid1 with
    | None =>
      if flex then
        match unobserve c rid0 with
        | (c1, Err e) => Ret (c1, Err e)
        | (CMix f1 div a1 m1 as c1, Ok (obs, ins)) =>
          match dist_support div with
          | Err e => Ret (c1, Err e)
          | Ok zs => observe c1 rid0 (dset (dist_o div) (vz (last zs 0)) obs) ins
          end
        | (c1, Ok _) => Ret (c1, Err AttributeError)
        end
      else Ret (c, Err AssertionError)
    | Some r1 =>
      if int_is rid0 r1 then Ret (c, Ok tt)
      else
        match lookup r1 (dist_data div0) with
        | None => Ret (c, Err KeyError)
        | Some z =>
          match unobserve c rid0 with
          | (c1, Err e) => Ret (c1, Err e)
          | (c1, Ok (obs, ins)) => observe c1 rid0 (dset (dist_o div0) z obs) ins
          end
        end
    end
  | _ => Ret (c, Err AssertionError)
  end.
