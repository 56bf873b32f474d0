(** C32: what a Chain answers. *)
From Coq Require Import List ZArith QArith Qcanon Reals Bool String Permutation Lia Lra.
From Verif Require Import Base Xr Samp Lgamma Prims Cgpm Lib SpecPrims PrimsInv PrimsDens PropPrims
  SpecComp CompInv CompDens CompThm DemoComp SpecSim SimShape Chain SpecChain ChainThm ChainLaw
  SpecWalks WalksThm.
Import ListNotations.
Local Open Scope Z_scope.

(** ** Order *)

(** Chain() visits every child once, and after the children whose outputs it has as inputs. *)
Theorem C32_topological_order : forall ns acc ch, new_chain ns acc = Ok ch ->
  Permutation (seq 0 (List.length ns)) (ch_topo ch) /\
  forall l1 i l2 n v j m, ch_topo ch = l1 ++ i :: l2 -> nth_error ns i = Some n -> In v (n_ins n) ->
    nth_error ns j = Some m -> In v (n_outs m) -> In j l1.
Proof.
  intros ns acc ch CH. destruct (new_chain_inv _ _ _ CH) as (_ & _ & ND & PM & BF). split; [exact PM|].
  intros l1 i l2 n v j m E En Hv Em Ho. exact (parent_before ns (ch_topo ch) ND PM BF l1 i l2 n v j m E En Hv Em Ho).
Qed.
Print Assumptions C32_topological_order.

(** ** Parents given *)

(** When every child with a cell in the query is told all its inputs, the answer of logpdf
    does not depend on the random generator nor on the accuracy: it is the sum along the
    network of what the children answer for their own cells, less the same sum for the
    constraints. When the latter is infinite logpdf raises ValueError. *)
Theorem C32_parents_given : forall ns acc ch rid T C I ws vs, new_chain ns acc = Ok ch ->
  disjoint_rows T C -> disjoint_rows I (T ++ C) -> exogenous ns I ->
  determined ns (T ++ C) I -> determined ns C I ->
  Forall2 (fun n x => local n rid (T ++ C) I = Ok x) ns ws ->
  Forall2 (fun n x => local n rid C I = Ok x) ns vs ->
  (C = [] -> chain_logpdf ch rid T C I = Ret (Ok (xsum ws))) /\
  (C <> [] -> infinite (xsum vs) -> chain_logpdf ch rid T C I = Ret (Err ValueError)) /\
  (C <> [] -> ~ infinite (xsum vs) -> chain_logpdf ch rid T C I = Ret (Ok (xsub (xsum ws) (xsum vs)))).
Proof.
  intros ns acc ch rid T C I0 ws vs CH DJ DI EX DT DC FW FV.
  rewrite (logpdf_given ns acc ch rid T C I0 ws vs CH DJ DI EX DT DC FW FV).
  split; [intros ->; reflexivity|]. split; intros NE X; (destruct C as [|p C]; [congruence|]).
  - destruct X as [-> | ->]; reflexivity.
  - unfold infinite in X. destruct (xsum vs); try reflexivity; exfalso; apply X; auto.
Qed.
Print Assumptions C32_parents_given.

(** ** Children without inputs *)

(** A Chain of models without inputs answers, for every accuracy and every random outcome,
    the density of the Product of the same models; when the constraints have density zero
    it raises ValueError (a Product does not: C19). *)
Theorem C32_input_free_logpdf : forall cs acc ch rid T C,
  (forall c, In c cs -> grown c /\ unknown c rid /\ labelled c (T ++ C)) ->
  new_chain (map node_of cs) acc = Ok ch -> disjoint_rows T C ->
  ((0 < dens (CProd cs) C)%R ->
     chain_logpdf ch rid T C [] = Ret (Ok (xlog (dens (CProd cs) (T ++ C) / dens (CProd cs) C)))) /\
  (dens (CProd cs) C = 0%R -> chain_logpdf ch rid T C [] = Ret (Err ValueError)).
Proof.
  intros cs acc ch rid T C H CH DJ. rewrite (logpdf_free cs acc ch rid T C); auto.
  - split; intros X; (destruct (Rlt_dec 0 (dens (CProd cs) C)); [|]); try reflexivity; lra.
  - intros c Hc. destruct (H c Hc) as (RE & U & L). auto using grown_wf.
Qed.
Print Assumptions C32_input_free_logpdf.

(** So it agrees with the Product: the sum of the children's conditional densities. *)
Theorem C32_input_free_sum : forall cs acc ch rid T C,
  (forall c, In c cs -> grown c) -> grown (CProd cs) -> unknown (CProd cs) rid ->
  labelled (CProd cs) (T ++ C) -> new_chain (map node_of cs) acc = Ok ch -> disjoint_rows T C -> T <> [] ->
  (forall k, In k (keys (T ++ C)) -> In k (outputs (CProd cs))) -> solid (CProd cs) C ->
  (0 < dens (CProd cs) C)%R ->
  chain_logpdf ch rid T C [] = Ret (logpdf (CProd cs) rid T C []).
Proof.
  intros cs acc ch rid T C H RE U LB CH DJ NE K SD P. rewrite (model_density (CProd cs) rid T C); auto using grown_wf.
  apply (proj1 (C32_input_free_logpdf cs acc ch rid T C (fun c Hc =>
    conj (H c Hc) (conj (proj1 (each_In _ _) U c Hc) (proj1 (each_In _ _) LB c Hc))) CH DJ) P).
Qed.
Print Assumptions C32_input_free_sum.

(** simulate raises ValueError exactly when the constraints have density zero, for every
    accuracy and every random outcome; otherwise it returns a row with exactly the targets,
    each possible for its model given the constraints. *)
Theorem C32_input_free_simulate : forall cs acc ch rid ts C,
  (forall c, In c cs -> grown c /\ unknown c rid /\ labelled c C /\ solid c C) ->
  new_chain (map node_of cs) acc = Ok ch -> NoDup (keys C) -> NoDup ts ->
  (forall k, In k ts -> In k (flat_map outputs cs) /\ ~ In k (keys C)) ->
  (dens (CProd cs) C = 0%R -> always (chain_simulate1 ch rid ts C []) (fun r => r = Err ValueError)) /\
  (dens (CProd cs) C <> 0%R -> always (chain_simulate1 ch rid ts C []) (fun r =>
     exists s, r = Ok s /\ keys s = ts /\ sample_ok (CProd cs) rid C s)).
Proof.
  intros cs acc ch rid ts C H CH NC NT SUB.
  assert (G := simulate_free cs acc ch rid ts C ltac:(intros c Hc; destruct (H c Hc) as (RE & X); auto using grown_wf)
    CH NC NT (fun k Hk => proj2 (SUB k Hk)) (fun k Hk => proj1 (SUB k Hk))).
  split; intros X; revert G; apply always_imp; intros [s|e].
  - intros [P _]. lra.
  - intros [-> _]. reflexivity.
  - intros [_ Q]. eauto.
  - intros [_ Q]. contradiction.
Qed.
Print Assumptions C32_input_free_simulate.

(** ** Children with inputs *)

(** A FlexibleArray cannot be both constrained and sampled: its logpdf removes the indexer
    from the dictionary that its simulate is given next. *)
Theorem C32_array_refuted : forall rid ts S ix base cs r2i w z,
  inputs base = [] -> NoDup (keys S) -> lookup ix S = Some z ->
  interd (outputs base) S <> [] -> interl (outputs base) ts <> [] ->
  logpdf (CFlexArr ix base cs r2i) rid (interd (outputs base) S) [] [(ix, z)] = Ok w ->
  (forall k c, In (k, c) cs -> creachable c) -> creachable base ->
  invoke rid (node_of (CFlexArr ix base cs r2i)) ts S [] = Ret (Err KeyError).
Proof. exact array_keyerror. Qed.
Print Assumptions C32_array_refuted.

(** ** Parents not given *)

(** The parents not given are sampled: in a network of children that draw their one column
    from the density they report, the mean of the density logpdf answers is the marginal
    density of the query, for every accuracy; and logpdf always answers. *)
Theorem C32_unbiased_logpdf : forall ns dom rid acc ch T I, new_chain ns acc = Ok ch ->
  (forall n, In n ns -> lawful dom rid n) -> supplied ns dom I -> possible_row ns dom T ->
  finite_choices (chain_logpdf ch rid T [] I) /\
  always (chain_logpdf ch rid T [] I) (fun r => exists w, r = Ok w) /\
  expect (chain_logpdf ch rid T [] I) (fun r => match r with Ok w => xexp w | Err _ => 0%R end)
  = marginal ns dom rid T I.
Proof.
  intros ns dom rid acc ch T I0 CH LW (EX & NI & DI & SP) F. apply (logpdf_mean ns dom rid I0 LW EX NI DI) with (acc := acc); auto.
  intros i Hi. apply extraneous_In in Hi. destruct Hi as [H1 H2]. apply in_flat_map in H1. destruct H1 as (n & Hn & Hi).
  destruct (SP n i Hn Hi); [contradiction|assumption].
Qed.
Print Assumptions C32_unbiased_logpdf.

(** simulate without constraints draws the targets from the joint law of the network, for
    every accuracy: the mean of any function of the sample is its sum over all rows, each
    with its joint density. *)
Theorem C32_simulate_law : forall ns dom rid acc ch ts I, new_chain ns acc = Ok ch ->
  (forall n, In n ns -> lawful dom rid n) -> supplied ns dom I -> NoDup ts ->
  (forall k, In k ts -> In k (flat_map n_outs ns)) ->
  finite_choices (chain_simulate1 ch rid ts [] I) /\
  always (chain_simulate1 ch rid ts [] I) (fun r => exists s, r = Ok s /\ keys s = ts) /\
  forall g, expect (chain_simulate1 ch rid ts [] I) g = total ns dom rid [] I (fun T => g (Ok (asked ts T))).
Proof.
  intros ns dom rid acc ch ts I0 CH LW (EX & NI & DI & SP) NT SUB.
  assert (EXT : forall i, In i (extraneous ns) -> In i (keys I0)).
  { intros i Hi. apply extraneous_In in Hi. destruct Hi as [H1 H2]. apply in_flat_map in H1. destruct H1 as (n & Hn & Hi).
    destruct (SP n i Hn Hi); [contradiction|assumption]. }
  assert (G := fun g => simulate_mean ns dom rid I0 LW EX NI DI EXT acc ch ts g CH NT SUB).
  split; [apply (G (fun _ => 0%R))|]. split; [apply (G (fun _ => 0%R))|]. intros g. apply (G g).
Qed.
Print Assumptions C32_simulate_law.

(** The primitives with finitely many values are such children, for rows they have not
    recorded. *)
Theorem C32_lawful_primitive : forall dom rid d K, reachable d -> dist_support d = Ok K ->
  unrecorded rid (dist_data d) -> dom (dist_o d) = map vz K -> lawful dom rid (node_of (CDist d)).
Proof.
  intros dom rid d K RE SU U DM. apply (prim_lawful dom rid d K); [|exact DM].
  split; [apply reachable_dinv; exact RE|auto].
Qed.
Print Assumptions C32_lawful_primitive.

(** So are FlexibleArrays of such primitives, whose parent is the model of the indexer. *)
Theorem C32_lawful_array : forall dom rid ix b cs r2i K, ix <> dist_o b ->
  (forall d, d = b \/ (exists k, In (k, CDist d) cs) ->
     reachable d /\ dist_o d = dist_o b /\ dist_support d = Ok K /\ unrecorded rid (dist_data d)) ->
  (forall k c, In (k, c) cs -> exists d, c = CDist d) -> dom (dist_o b) = map vz K ->
  lawful dom rid (node_of (CFlexArr ix (CDist b) cs r2i)).
Proof.
  intros dom rid ix b cs r2i K NE H HC DM. apply (array_lawful dom rid ix (dist_o b) K b cs r2i NE); auto.
  - destruct (H b (or_introl eq_refl)) as (RE & O & SU & U). split; [apply reachable_dinv; exact RE|auto].
  - intros k c Hc. destruct (HC k c Hc) as (d & ->). exists d. split; [reflexivity|].
    destruct (H d (or_intror (ex_intro _ k Hc))) as (RE & O & SU & U). split; [apply reachable_dinv; exact RE|auto].
Qed.
Print Assumptions C32_lawful_array.

(** ** Worked case *)

Definition bare_array : cgpm := CFlexArr 9 demo_base [] [].
Definition demo_chain : list cgpm := [demo_view; CDist ber8].

Lemma got : forall {A} (m : out A), match m with Ok _ => true | Err _ => false end = true -> exists a, m = Ok a.
Proof. intros A [a|e] H; [eauto|discriminate]. Qed.

Lemma half_dens : dens (CProd demo_chain) [(8, vz 1)] <> 0%R.
Proof.
  assert (W : wf (CProd demo_chain)).
  { apply creachable_wf. apply (cr_product demo_chain); [|reflexivity].
    intros c [<-|[<-|[]]]; [apply demo_view_reachable|constructor; apply ber8_reachable]. }
  assert (PL : plausible (CProd demo_chain) [(8, vz 1)]) by (apply plausibleb_ok; vm_compute; reflexivity).
  destruct (plausible_good _ W _ PL) as (P & _). lra.
Qed.

(** A Chain of the worked view and a Bernoulli column, accuracy 3: column 1 given column 8;
    and the same Chain given an impossible value of column 8. *)
Example C32_case : exists ch, new_chain (map node_of demo_chain) (Some 3%nat) = Ok ch /\
  chain_logpdf ch None [(1, vz 2)] [(8, vz 1)] [] = Ret (logpdf (CProd demo_chain) None [(1, vz 2)] [(8, vz 1)] []) /\
  always (chain_simulate1 ch None [1; 2] [(8, vz 1)] []) (fun r => exists s, r = Ok s /\ keys s = [1; 2]) /\
  always (chain_simulate1 ch None [1; 2] [(8, vz 5)] []) (fun r => r = Err ValueError).
Proof.
  assert (RC : forall c, In c demo_chain -> grown c).
  { intros c [<-|[<-|[]]]; [exact (creachable_grown _ (proj1 demo_view_reachable))|].
    apply creachable_grown. constructor. apply ber8_reachable. }
  assert (RE : grown (CProd demo_chain)) by (apply (gr_product _ _ RC); reflexivity).
  assert (W := grown_wf _ RE).
  destruct (got (new_chain (map node_of demo_chain) (Some 3%nat))) as (ch & CH); [vm_compute; reflexivity|].
  exists ch. split; [exact CH|].
  assert (U : unknown (CProd demo_chain) None) by (cbn; tauto).
  assert (SD : forall C, solid (CProd demo_chain) C).
  { intros C. apply solid_state; [exact W|]. eexists. split; [reflexivity|].
    intros c [<-|[<-|[]]]; [left; apply demo_view_reachable|right; eauto]. }
  assert (LB : forall S, lookup 9 S = None -> labelled (CProd demo_chain) S).
  { intros S L9. cbn. rewrite L9. intuition discriminate. }
  assert (H0 : forall S, lookup 9 S = None -> forall c, In c demo_chain ->
     grown c /\ unknown c None /\ labelled c S /\ solid c S).
  { intros S L9 c Hc. split; [apply RC; exact Hc|]. split; [apply (proj1 (each_In _ _) U c Hc)|].
    split; [apply (proj1 (each_In _ _) (LB S L9) c Hc)|apply (proj1 (each_In _ _) (SD S) c Hc)]. }
  split; [|split].
  - apply (C32_input_free_sum _ (Some 3%nat)); auto.
    + unfold disjoint_rows. cbn. repeat constructor; cbn; intuition lia.
    + discriminate.
    + intros k Hk. vm_compute in Hk |- *. tauto.
    + assert (X := half_dens). assert (Y := dens_nonneg _ W [(8, vz 1)]). lra.
  - refine (always_imp _ _ _ _ (proj2 (C32_input_free_simulate _ _ ch None [1; 2] [(8, vz 1)] (H0 [(8, vz 1)] eq_refl) CH _ _ _) half_dens)).
    + intros r (s & -> & K & _). eauto.
    + cbn. repeat constructor; cbn; intuition lia.
    + repeat constructor; cbn; intuition lia.
    + intros k Hk. vm_compute in Hk |- *. intuition congruence.
  - apply (proj1 (C32_input_free_simulate _ _ ch None [1; 2] [(8, vz 5)] (H0 [(8, vz 5)] eq_refl) CH
      ltac:(cbn; repeat constructor; cbn; intuition lia) ltac:(repeat constructor; cbn; intuition lia)
      ltac:(intros k Hk; vm_compute in Hk |- *; intuition congruence))).
    cbn [dens map]. apply rprod_zero. right. left. cbn. reflexivity.
Qed.

(** A Chain of a CRP and an array whose components have two columns: sampling one column
    given the other raises KeyError. *)
Example C32_array_case : exists ch, new_chain (map node_of [CDist crp9; bare_array]) None = Ok ch /\
  chain_simulate1 ch None [2] [(9, vz 0); (1, vz 2)] [] = Ret (Err KeyError) /\
  invoke None (node_of bare_array) [2] [(9, vz 0); (1, vz 2)] [] = Ret (Err KeyError).
Proof. eexists. split; [reflexivity|]. split; vm_compute; reflexivity. Qed.

(** A mixture written as a Chain: a CRP over clusters and an array of categoricals. Whatever
    the accuracy, the mean density of a value of column 1 is its density summed over the
    clusters. *)
Definition mixture_chain : list cgpm := [CDist crp9; CFlexArr 9 (CDist cat1) [] []].
Definition mixture_dom (k : Z) : list val :=
  match dist_support (if Z.eqb k 9 then crp9 else cat1) with Ok K => map vz K | Err _ => [] end.

Example C32_marginal_case : forall acc, exists ch, new_chain (map node_of mixture_chain) acc = Ok ch /\
  expect (chain_logpdf ch None [(1, vz 2)] [] []) (fun r => match r with Ok w => xexp w | Err _ => 0%R end)
  = marginal (map node_of mixture_chain) mixture_dom None [(1, vz 2)] [] /\
  hidden (map node_of mixture_chain) [(1, vz 2)] = [9].
Proof.
  intros acc. assert (NC : exists ch, new_chain (map node_of mixture_chain) acc = Ok ch).
  { apply got. destruct acc as [[|n]|]; vm_compute; reflexivity. }
  destruct NC as (ch & CH). exists ch. split; [exact CH|]. split; [|vm_compute; reflexivity].
  apply (C32_unbiased_logpdf (map node_of mixture_chain) mixture_dom None acc ch [(1, vz 2)] [] CH).
  - intros n [<-|[<-|[]]].
    + apply (C32_lawful_primitive mixture_dom None crp9 [0]); [apply crp9_reachable|vm_compute; reflexivity|exact I|vm_compute; reflexivity].
    + apply (C32_lawful_array mixture_dom None 9 cat1 [] [] [0; 1; 2]); [discriminate| |intros k c []|vm_compute; reflexivity].
      intros d [->|(k & [])]. split; [apply cat1_reachable|]. split; [reflexivity|]. split; [vm_compute; reflexivity|exact I].
  - split; [intros i []|]. split; [constructor|]. split; [intros k x []|].
    intros n i [<-|[<-|[]]] Hi; cbn in Hi; [destruct Hi|]. destruct Hi as [<-|[]]. left. cbn. auto.
  - split; [repeat constructor; intros []|]. split; [intros k [<-|[]]; cbn; auto|].
    intros k x [E|[]]. injection E as <- <-. vm_compute. auto.
Qed.
