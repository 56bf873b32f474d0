(** Specification of the composite models, independent of how they answer queries:
    the density they stand for, the shapes of models considered, histories of calls. *)
From Coq Require Import List ZArith QArith Qcanon Reals Bool String.
From Verif Require Import Base Xr Samp Lgamma Prims Cgpm SpecPrims.
Import ListNotations.
Local Open Scope Z_scope.

(** ** Densities *)

(** Density of a cell under a primitive. A missing cell is neutral, except that Bernoulli
    and Poisson give it density 0 (see C10) and a table cannot be missing. *)
Definition cell_density (d : dist) (x : val) : R :=
  match x with
  | VQ q => prim_density d q
  | VNan => match d with DCat _ | DNrm _ | DNuc _ => 1 | _ => 0 end
  end%R.

(** [dens c S]: the joint density, in linear domain, of the cells [S] of a new row.
    Columns outside [S] are marginalised. Columns of a product are independent; an array
    is the component its index names; a mixture sums over the clusters the density of
    the cluster times that of the cells in it, or takes the cluster [S] names. *)
Fixpoint dens (c : cgpm) (S : row) : R :=
  match c with
  | CDist d => match lookup (dist_o d) S with None => 1 | Some x => cell_density d x end
  | CProd cs => rprod (map (fun c' => dens c' S) cs)
  | CFinArr ix cs _ =>
      match lookup ix S with
      | Some (VQ q) =>
          if is_int q && (0 <=? trunc q)%Z
          then nth (Z.to_nat (trunc q)) (map (fun c' => dens c' S) cs) 0 else 0
      | _ => 0
      end
  | CFlexArr ix base cs _ =>
      match lookup ix S with
      | Some z =>
          match lookup z (map (fun p => let '(k, c') := p in (k, dens c' S)) cs) with
          | Some r => r
          | None => dens base S
          end
      | None => 0
      end
  | CMix _ div arr _ =>
      match lookup (dist_o div) S with
      | Some z => cell_density div z * dens arr S
      | None =>
          match dist_support div with
          | Ok sup =>
              rsum (map (fun z => cell_density div (vz z) * dens arr ((dist_o div, vz z) :: S)) sup)
          | Err _ => 0
          end
      end
  end%R.

(** ** Shapes *)

(** [P] holds of every member of the list. *)
Definition each {A} (P : A -> Prop) : list A -> Prop :=
  fix go l := match l with [] => True | x :: l' => P x /\ go l' end.

(** A primitive, or a Product of primitives. *)
Inductive flat : cgpm -> Prop :=
| flat_prim : forall d, flat (CDist d)
| flat_prod : forall ds, flat (CProd (map CDist ds)).

(** The components of an array, including the base of a flexible one. *)
Definition components (arr : cgpm) : list cgpm :=
  match arr with
  | CFinArr _ cs _ => cs
  | CFlexArr _ base cs _ => base :: values cs
  | _ => []
  end.

(** The component that serves cluster [z]: the [z]-th of a finite array; of a flexible
    array the one instantiated for [z], or else a copy of the base. *)
Definition component (arr : cgpm) (z : Z) : option cgpm :=
  match arr with
  | CFinArr _ cs _ => if 0 <=? z then nth_error cs (Z.to_nat z) else None
  | CFlexArr _ base cs _ => Some (match lookup (vz z) cs with Some c => c | None => base end)
  | _ => None
  end.

(** The primitives of a flat model. *)
Definition leaves (c : cgpm) : list dist :=
  match c with
  | CDist d => [d]
  | CProd cs => flat_map (fun c' => match c' with CDist d => [d] | _ => [] end) cs
  | _ => []
  end.

(** A row mixture over (Products of) primitives: what CrossCat calls a view. *)
Definition view (c : cgpm) : Prop :=
  exists flex div arr r2c, c = CMix flex div arr r2c /\ forall c', In c' (components arr) -> flat c'.

(** A Product of views and primitives: what CrossCat calls a state. *)
Definition state (c : cgpm) : Prop :=
  exists cs, c = CProd cs /\ forall c', In c' cs -> view c' \/ exists d, c' = CDist d.

(** ** Queries *)

(** The cells of a row in the given columns. *)
Definition cells_of (cols : list Z) (S : row) : row :=
  filter (fun p => existsb (Z.eqb (fst p)) cols) S.

(** No part of the model has the row on record. *)
Fixpoint unknown (c : cgpm) (rid : option Z) : Prop :=
  match c with
  | CDist d => unrecorded rid (dist_data d)
  | CProd cs => each (fun c' => unknown c' rid) cs
  | CFinArr _ cs _ => each (fun c' => unknown c' rid) cs
  | CFlexArr _ base cs _ => unknown base rid /\ each (fun p => let '(_, c') := p in unknown c' rid) cs
  | CMix _ div arr r2c =>
      unrecorded rid (dist_data div) /\ unrecorded rid r2c /\ unknown arr rid
  end.

(** The cluster labels among the cells are labels: integers, and for a finite mixture
    among its components; tables of a CRP column are not missing. *)
Fixpoint labelled (c : cgpm) (S : row) : Prop :=
  match c with
  | CDist (DCrp s) => lookup (crp_o s) S <> Some VNan
  | CDist _ => True
  | CProd cs => each (fun c' => labelled c' S) cs
  | CFinArr _ cs _ => each (fun c' => labelled c' S) cs
  | CFlexArr _ base cs _ => labelled base S /\ each (fun p => let '(_, c') := p in labelled c' S) cs
  | CMix flex div arr _ =>
      (forall x, lookup (dist_o div) S = Some x ->
         exists z, x = vz z /\ (flex = true \/ exists K, dist_support div = Ok K /\ In z K)) /\
      labelled arr S
  end.

(** Two rows mention different columns, each column once. *)
Definition disjoint_rows (T C : row) : Prop := NoDup (keys (T ++ C)).

(** ** Histories *)

(** One primitive somewhere inside the model has its hyperparameters or parameters set
    (the call may raise). *)
Inductive retuned : cgpm -> cgpm -> Prop :=
| rt_hypers : forall d h, retuned (CDist d) (CDist (fst (dist_set_hypers d h)))
| rt_params : forall d p, retuned (CDist d) (CDist (fst (dist_set_params d p)))
| rt_prod : forall l c c' r, retuned c c' -> retuned (CProd (l ++ c :: r)) (CProd (l ++ c' :: r))
| rt_fin : forall ix l c c' r m, retuned c c' ->
    retuned (CFinArr ix (l ++ c :: r) m) (CFinArr ix (l ++ c' :: r) m)
| rt_base : forall ix c c' cs m, retuned c c' -> retuned (CFlexArr ix c cs m) (CFlexArr ix c' cs m)
| rt_flex : forall ix b l k c c' r m, retuned c c' ->
    retuned (CFlexArr ix b (l ++ (k, c) :: r) m) (CFlexArr ix b (l ++ (k, c') :: r) m)
| rt_div : forall f d d' arr m, retuned (CDist d) (CDist d') ->
    retuned (CMix f d arr m) (CMix f d' arr m)
| rt_arr : forall f d arr arr' m, retuned arr arr' -> retuned (CMix f d arr m) (CMix f d arr' m).

(** A state some user can bring about: build models with the constructors (components of
    a mixture having the same outputs, which the code takes for granted; a finite mixture
    needs a divider with a fixed support), and call observe, unobserve, set_hypers and
    set_params, successfully or not, with any random outcome. *)
Inductive creachable : cgpm -> Prop :=
| cr_prim : forall d, reachable d -> creachable (CDist d)
| cr_product : forall cs c,
    (forall c', In c' cs -> creachable c') -> new_product cs = Ok c -> creachable c
| cr_finite : forall div cs c,
    reachable div -> kind_of div <> KTable ->
    (forall c', In c' cs -> creachable c') ->
    (forall c', In c' cs -> outputs c' = outputs (hd c' cs) /\ ~ In (dist_o div) (outputs c')) ->
    new_finmix div cs = Ok c -> creachable c
| cr_flexible : forall div base K,
    reachable div -> dist_support div = Ok K -> creachable base ->
    ~ In (dist_o div) (outputs base) -> creachable (new_flexmix div base)
| cr_observe : forall c rid obs ins c' res,
    creachable c -> possible (observe c rid obs ins) (fun r => r = (c', res)) -> creachable c'
| cr_unobserve : forall c rid c' res,
    creachable c -> unobserve c rid = (c', res) -> creachable c'
| cr_retuned : forall c c', creachable c -> retuned c c' -> creachable c'.

(** Every component of a mixture that is itself a mixture (or contains one) gives the
    cells positive density: see C16 for what happens otherwise. *)
Fixpoint solid (c : cgpm) (S : row) : Prop :=
  match c with
  | CDist _ => True
  | CProd cs => each (fun c' => solid c' S) cs
  | CFinArr _ cs _ => each (fun c' => (flat c' \/ (0 < dens c' S)%R) /\ solid c' S) cs
  | CFlexArr _ base cs _ =>
      ((flat base \/ (0 < dens base S)%R) /\ solid base S) /\
      each (fun p => let '(_, c') := p in (flat c' \/ (0 < dens c' S)%R) /\ solid c' S) cs
  | CMix _ _ arr _ => solid arr S
  end.

(** Every cell is a value its column could take in every component, and a named cluster
    is in the support: a sufficient condition for positive density. *)
Fixpoint plausible (c : cgpm) (S : row) : Prop :=
  match c with
  | CDist d => forall x, lookup (dist_o d) S = Some x ->
      match x, kind_of d with
      | VQ _, _ => in_domain (kind_of d) (dist_data d) x
      | VNan, KCategory _ => True
      | VNan, KReal _ => True
      | VNan, _ => False
      end
  | CProd cs => each (fun c' => plausible c' S) cs
  | CFinArr _ cs _ => each (fun c' => plausible c' S) cs
  | CFlexArr _ base cs _ => plausible base S /\ each (fun p => let '(_, c') := p in plausible c' S) cs
  | CMix _ div arr _ =>
      (forall x, lookup (dist_o div) S = Some x ->
         exists z K, x = vz z /\ dist_support div = Ok K /\ In z K) /\
      plausible arr S
  end.
