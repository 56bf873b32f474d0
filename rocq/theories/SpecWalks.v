(** Specification of adding and removing columns: all primitives of a model, and models that
    also have had columns added and removed. *)
From Coq Require Import List ZArith QArith Qcanon Reals Bool String.
From Verif Require Import Base Xr Samp Lgamma Prims Cgpm SpecPrims SpecComp Walks.
Import ListNotations.
Local Open Scope Z_scope.

(** Every primitive anywhere in the model, with its data and hyperparameters; that of a base
    after those of the components. *)
Fixpoint prims (c : cgpm) : list dist :=
  match c with
  | CDist d => [d]
  | CProd cs => flat_map prims cs
  | CFinArr _ cs _ => flat_map prims cs
  | CFlexArr _ base cs _ => flat_map (fun p => let '(_, c') := p in prims c') cs ++ prims base
  | CMix _ div arr _ => div :: prims arr
  end.

(** The primitives modelling column [v]. *)
Definition modelling (c : cgpm) (v : Z) : list dist := filter (fun d => dist_o d =? v) (prims c).

(** The columns without those in [D]. *)
Definition without (D : list Z) (l : list Z) : list Z := filter (fun v => negb (existsb (Z.eqb v) D)) l.

(** None of the columns [D] is mentioned. *)
Definition avoids (D : list Z) (S : row) : Prop := forall k, In k D -> ~ In k (keys S).

(** Below the mixtures there are Products; in each of them the child that has column [o], if
    there is one, has exactly the columns [D]; [D] is the same everywhere. *)
Fixpoint cuts (o : Z) (D : list Z) (c : cgpm) : Prop :=
  match c with
  | CDist _ => False
  | CProd cs => each (fun c' =>
      (In o (outputs c') -> outputs c' = D) /\
      (~ In o (outputs c') -> forall v, In v (outputs c') -> ~ In v D)) cs
  | CFinArr _ cs _ => each (cuts o D) cs
  | CFlexArr _ base cs _ => cuts o D base /\ each (fun p => let '(_, c') := p in cuts o D c') cs
  | CMix _ div arr _ => (o <> dist_o div /\ ~ In (dist_o div) D) /\ cuts o D arr
  end.

(** Below the mixtures there are Products, so that columns can be added. *)
Fixpoint open (c : cgpm) : Prop :=
  match c with
  | CDist _ => False
  | CProd _ => True
  | CFinArr _ cs _ => each open cs
  | CFlexArr _ base cs _ => open base /\ each (fun p => let '(_, c') := p in open c') cs
  | CMix _ _ arr _ => open arr
  end.

(** There is no finite mixture above these Products. *)
Fixpoint steady (c : cgpm) : Prop :=
  match c with
  | CDist _ => True
  | CProd _ => True
  | CFinArr _ cs _ => each steady cs
  | CFlexArr _ base cs _ => steady base /\ each (fun p => let '(_, c') := p in steady c') cs
  | CMix flex _ arr _ => flex = true /\ steady arr
  end.

(** The finite mixtures above these Products with no row assigned; nothing else changed. *)
Fixpoint forget (c : cgpm) : cgpm :=
  match c with
  | CFinArr ix cs r2i => CFinArr ix (map forget cs) r2i
  | CFlexArr ix base cs r2i => CFlexArr ix (forget base) (map (fun p => let '(k, c') := p in (k, forget c')) cs) r2i
  | CMix true div arr r2c => CMix true div (forget arr) r2c
  | CMix false div arr _ => CMix false div (forget arr) []
  | _ => c
  end.

(** A state some user can bring about with the calls of [creachable] and by adding and
    removing columns (added columns being new, and components having the same children, which
    the code takes for granted). *)
Inductive grown : cgpm -> Prop :=
| gr_prim : forall d, reachable d -> grown (CDist d)
| gr_product : forall cs c,
    (forall c', In c' cs -> grown c') -> new_product cs = Ok c -> grown c
| gr_finite : forall div cs c,
    reachable div -> kind_of div <> KTable ->
    (forall c', In c' cs -> grown c') ->
    (forall c', In c' cs -> outputs c' = outputs (hd c' cs) /\ ~ In (dist_o div) (outputs c')) ->
    new_finmix div cs = Ok c -> grown c
| gr_flexible : forall div base K,
    reachable div -> dist_support div = Ok K -> grown base ->
    ~ In (dist_o div) (outputs base) -> grown (new_flexmix div base)
| gr_observe : forall c rid obs ins c' res,
    grown c -> possible (observe c rid obs ins) (fun r => r = (c', res)) -> grown c'
| gr_unobserve : forall c rid c' res,
    grown c -> unobserve c rid = (c', res) -> grown c'
| gr_retuned : forall c c', grown c -> retuned c c' -> grown c'
| gr_remove : forall c o D c', grown c -> cuts o D c -> remove_cgpm c o = Ok c' -> grown c'
| gr_add : forall c new c', grown c -> grown new -> NoDup (outputs c ++ outputs new) ->
    add_cgpm c new = Ok c' -> grown c'.
