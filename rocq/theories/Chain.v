(** Chain: a network of models in which some inputs of one are outputs of others, queried by
    importance sampling. src/chain.py.

    Product inherits observe, unobserve and logpdf_score from Chain; those are in Cgpm.v.

    Simplifications: the children are seen through their methods, which are taken to leave
    the children unchanged (C23); accuracy is a natural number; sets are lists of first
    occurrences. *)
From Coq Require Import List ZArith QArith Qcanon Reals Bool String.
From Verif Require Import Base Xr Samp Lgamma Prims Cgpm.
Import ListNotations.
Local Open Scope Z_scope.

(** A child as Chain sees it: outputs, inputs, logpdf, simulate (src/icgpm.py), and what a
    call of logpdf leaves of the dictionary of inputs it is given: the arrays pop the
    indexer (src/finite_array.py:31, src/flexible_array.py:34). *)
Record node := mkNode {
  n_outs : list Z;
  n_ins : list Z;
  n_logpdf : logpdf_m;
  n_simulate : simulate_m;
  n_left : row -> row
}.

(** src/finite_array.py:31 and src/flexible_array.py:34 [inputs.pop(self.indexer)]; the same
    dictionary is handed to the component. The other models build new dictionaries. *)
Fixpoint left_over (c : cgpm) (I : row) : row :=
  match c with
  | CFinArr ix cs _ =>
      match lookup ix I with
      | None => I
      | Some i =>
          match py_index cs i with
          | Err _ => ddel ix I
          | Ok n => nth n (map left_over cs) (fun J => J) (ddel ix I)
          end
      end
  | CFlexArr ix base cs _ =>
      match lookup ix I with
      | None => I
      | Some i =>
          match lookup i (map (fun p => let '(k, c') := p in (k, left_over c')) cs) with
          | Some f => f (ddel ix I)
          | None => left_over base (ddel ix I)
          end
      end
  | _ => I
  end.

(** A model as a child of a Chain (src/chain.py:38). *)
Definition node_of (c : cgpm) : node :=
  mkNode (outputs c) (inputs c) (logpdf c) (simulate c) (left_over c).

(** src/chain.py:34-47: cgpms, accuracy, topo. The other attributes are functions of these. *)
Record chain := mkChain {
  ch_nodes : list node;
  ch_accuracy : nat;
  ch_topo : list nat
}.

(** ** cgpm.network.helpers *)

(** retrieve_variable_to_cgpm (src/chain.py:44): the index of the child with output [v]. *)
Fixpoint owner_from (i : nat) (ns : list node) (v : Z) : option nat :=
  match ns with
  | [] => None
  | n :: ns' => if memb v (n_outs n) then Some i else owner_from (S i) ns' v
  end.
(** retrieve_variable_to_cgpm (src/chain.py:44). *)
Definition owner (ns : list node) (v : Z) : option nat := owner_from 0 ns v.

(** retrieve_adjacency_list (src/chain.py:45): the children on whose outputs a child depends. *)
Definition parents (ns : list node) (n : node) : list nat :=
  dedup (flat_map (fun v => match owner ns v with Some i => [i] | None => [] end) (n_ins n)).
(** retrieve_adjacency_list (src/chain.py:45): the parents of every child. *)
Definition adjacency (ns : list node) : dict nat (list nat) :=
  combine (seq 0 (List.length ns)) (map (parents ns) ns).

(** retrieve_extraneous_inputs (src/chain.py:46): the inputs no child outputs. *)
Definition extraneous (ns : list node) : list Z :=
  filter (fun v => match owner ns v with None => true | Some _ => false end) (flat_map n_ins ns).

(** topological_sort (src/chain.py:47): repeatedly take the nodes all of whose parents have
    been taken; ValueError when none can be taken. One pass over the remaining nodes sees
    the removals made earlier in the pass. *)
Fixpoint topo_pass (todo rest : dict nat (list nat)) : list nat * dict nat (list nat) :=
  match todo with
  | [] => ([], rest)
  | (i, ps) :: todo' =>
      if forallb (fun p => negb (dmem p rest)) ps
      then let (taken, rest') := topo_pass todo' (ddel i rest) in (i :: taken, rest')
      else topo_pass todo' rest
  end.
(** topological_sort (src/chain.py:47): passes until nothing is left. *)
Fixpoint topological_sort (fuel : nat) (g : dict nat (list nat)) : out (list nat) :=
  match g with
  | [] => Ok []
  | _ =>
    match fuel with
    | O => Err OutOfFuel
    | S fuel' =>
      match topo_pass g g with
      | ([], _) => Err ValueError
      | (taken, rest) => do l <- topological_sort fuel' rest; Ok (taken ++ l)
      end
    end
  end.

(** retrieve_required_inputs (src/chain.py:123-124): the inputs needed to simulate the
    targets and weigh the constraints that are neither given nor exogenous. *)
Definition required_step (ns : list node) (C : row) (req : list Z) (l : nat) : list Z :=
  match nth_error ns l with
  | None => req
  | Some n =>
      if existsb (fun v => memb v req || dmem v C) (n_outs n) then req ++ n_ins n else req
  end.
(** retrieve_required_inputs (src/chain.py:123-124). *)
Definition required (ns : list node) (topo : list nat) (ts : list Z) (C : row) : list Z :=
  filter (fun v => negb (memb v ts) && negb (dmem v C) && negb (memb v (extraneous ns)))
    (dedup (fold_left (required_step ns C) (rev topo) ts)).

(** validate_cgpms (src/chain.py:36): no output twice. *)
Definition validate_chain (ns : list node) : out unit :=
  let outs := flat_map n_outs ns in
  oassert (Nat.eqb (List.length outs) (List.length (dedup outs))).

(** src/chain.py:34-47 Chain.__init__ (no child is itself a Chain, so flattening does
    nothing). *)
Definition new_chain (ns : list node) (accuracy : option nat) : out chain :=
  do _ <- validate_chain ns;
  do topo <- topological_sort (List.length ns) (adjacency ns);
  Ok (mkChain ns (match accuracy with None | Some O => 1%nat | Some a => a end) topo).

(** ** Queries *)

(** src/chain.py:136-159 invoke_cgpm. [S] is what has been sampled or given so far. *)
Definition invoke (rid : option Z) (n : node) (ts : list Z) (S I : row) : samp (out (row * xr)) :=
  let J := merged (interd (n_ins n) I) (interd (n_ins n) S) in
  let C := interd (n_outs n) S in
  let tc := interl (n_outs n) ts in
  match (match C, tc with
         | [], [] => Ok tt
         | _, _ => oassert (forallb (fun i => dmem i J) (n_ins n))
         end) with
  | Err e => Ret (Err e)
  | Ok _ =>
    match (match C with [] => Ok (Fin 0%R) | _ => n_logpdf n rid C [] J end) with
    | Err e => Ret (Err e)
    | Ok w =>
      match tc with
      | [] => Ret (Ok ([], w))
      | _ =>
        let J' := match C with [] => J | _ => n_left n J end in
        sobind (n_simulate n rid tc C J' None) (fun s =>
          Ret (match s with SOne d => Ok (d, w) | SMany _ => Err TypeError end))
      end
    end
  end.

(** src/chain.py:128-132: the loop over the levels. *)
Fixpoint levels (ns : list node) (rid : option Z) (ts : list Z) (I : row) (topo : list nat)
  (S : row) (w : xr) : samp (out (row * xr)) :=
  match topo with
  | [] => Ret (Ok (S, w))
  | l :: topo' =>
    match nth_error ns l with
    | None => Ret (Err IndexError)
    | Some n =>
      sobind (invoke rid n ts S I) (fun r =>
        levels ns rid ts I topo' (merged S (fst r)) (xadd w (snd r)))
    end
  end.

(** Equality of two lists as sets (src/chain.py:133). *)
Definition same_set (a b : list Z) : bool :=
  forallb (fun x => memb x b) a && forallb (fun x => memb x a) b.

(** src/chain.py:122-134 weighted_sample *)
Definition weighted_sample (ch : chain) (rid : option Z) (ts : list Z) (C I : row)
  : samp (out (row * xr)) :=
  let all := ts ++ required (ch_nodes ch) (ch_topo ch) ts C in
  sobind (levels (ch_nodes ch) rid all I (ch_topo ch) C (Fin 0%R)) (fun r =>
    Ret (do _ <- oassert (same_set (keys (fst r)) (keys C ++ all)); Ok r)).

(** [math.isinf] (src/chain.py:72, 92) *)
Definition is_inf (x : xr) : bool := match x with NInf | PInf => true | _ => false end.

(** [{q: d[q] for q in targets}] (src/chain.py:75) *)
Definition select (ts : list Z) (d : row) : out row :=
  do l <- oseq (map (fun q => do x <- dget q d; Ok (q, x)) ts);
  Ok (fold_left (fun d' kv => dset (fst kv) (snd kv) d') l []).

(** src/chain.py:62-75 Chain.simulate, one sample. *)
Definition chain_simulate1 (ch : chain) (rid : option Z) (ts : list Z) (C I : row) : samp (out row) :=
  sobind (srepeat (ch_accuracy ch) (weighted_sample ch rid ts C I)) (fun rs =>
    if forallb is_inf (map snd rs) then Ret (Err ValueError)
    else sobind (if Nat.eqb (ch_accuracy ch) 1 then Ret (Ok 0%nat) else log_pflip (map snd rs)) (fun i =>
      Ret (match nth_error rs i with
           | None => Err IndexError
           | Some r => select ts (fst r)
           end))).

(** src/chain.py:62 the decorator simulate_many. *)
Definition chain_simulate (ch : chain) : simulate_m :=
  fun rid ts C I N => simulate_many (chain_simulate1 ch rid ts C I) N.

(** src/chain.py:77-96 Chain.logpdf *)
Definition chain_logpdf (ch : chain) (rid : option Z) (T C I : row) : samp (out xr) :=
  sobind (srepeat (ch_accuracy ch) (weighted_sample ch rid [] (merged T C) I)) (fun joint =>
  sobind (match C with
          | [] => Ret (Ok [Fin 0%R])
          | _ => sobind (srepeat (ch_accuracy ch) (weighted_sample ch rid [] C I)) (fun rs =>
                   Ret (Ok (map snd rs)))
          end) (fun marginal =>
    if forallb is_inf marginal then Ret (Err ValueError)
    else Ret (Ok (xsub (logmeanexp (map snd joint)) (logmeanexp marginal))))).
