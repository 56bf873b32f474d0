(** Proofs about Chain. *)
From Coq Require Import List ZArith QArith Qcanon Reals Bool String Permutation Lia Lra.
From Verif Require Import Base Xr Samp Lgamma Prims Cgpm Lib SpecPrims PrimsInv PrimsDens PrimsThm2
  SpecComp CompInv CompDens CompThm SpecSim SimShape SimLaw SimTotal Chain SpecChain.
Import ListNotations.
Local Open Scope Z_scope.

(** ** The topological order *)

Lemma perm_ddel : forall {K V} `{EqDec K} (d : dict K V) k, In k (keys d) -> Permutation (keys d) (k :: keys (ddel k d)).
Proof.
  induction d as [|[a v] d IH]; intros k Hk; [destruct Hk|]. cbn [ddel]. destruct (eq_dec k a) as [->|N]; [reflexivity|].
  destruct Hk as [Hk|Hk]; [cbn in Hk; congruence|]. cbn [keys map fst]. rewrite perm_swap. constructor. apply IH. exact Hk.
Qed.

Definition before (g : dict nat (list nat)) (l : list nat) : Prop :=
  forall l1 i l2, l = l1 ++ i :: l2 -> forall ps p, lookup i g = Some ps -> In p ps -> In p l1 \/ ~ In p (keys g).

Lemma topo_pass_spec : forall todo rest taken rest', NoDup (keys todo) -> NoDup (keys rest) ->
  (forall i ps, In (i, ps) todo -> lookup i rest = Some ps) ->
  topo_pass todo rest = (taken, rest') ->
  Permutation (keys rest) (taken ++ keys rest') /\ NoDup (keys rest') /\
  (forall i ps, lookup i rest' = Some ps -> lookup i rest = Some ps) /\
  (forall l1 i l2, taken = l1 ++ i :: l2 -> forall ps p, lookup i rest = Some ps -> In p ps -> In p l1 \/ ~ In p (keys rest)).
Proof.
  induction todo as [|[i ps] todo IH]; intros rest taken rest' NT NR SUB E; cbn [topo_pass] in E.
  - injection E as <- <-. split; [reflexivity|]. split; [exact NR|]. split; [auto|].
    intros l1 i l2 X. destruct l1; discriminate.
  - inversion NT as [|? ? NI NT']; subst.
    destruct (forallb (fun p => negb (dmem p rest)) ps) eqn:F.
    + destruct (topo_pass todo (ddel i rest)) as [tk rs] eqn:E'. injection E as <- <-.
      assert (Li : lookup i rest = Some ps) by (apply SUB; now left).
      destruct (IH (ddel i rest) tk rs NT') as (P & N' & S' & B); auto.
      { apply NoDup_keys_ddel; exact NR. }
      { intros j qs Hj. rewrite lookup_ddel_neq; [apply SUB; now right|]. intros ->. apply NI. apply (in_map fst) in Hj. exact Hj. }
      split; [|split; [exact N'|split]].
      * rewrite (perm_ddel rest i) by (eapply lookup_Some_keys; eauto). cbn. constructor. exact P.
      * intros j qs Hj. specialize (S' j qs Hj). destruct (eq_dec j i) as [->|NE]; [|rewrite lookup_ddel_neq in S'; auto].
        rewrite lookup_ddel_eq in S' by exact NR. discriminate.
      * intros l1 j l2 X qs p Lj Hp. rewrite forallb_forall in F. destruct l1 as [|a l1]; cbn in X; injection X as -> X.
        -- right. rewrite Li in Lj. injection Lj as <-. specialize (F p Hp). apply negb_true_iff in F.
           intros H. apply dmem_true in H. congruence.
        -- assert (NE : j <> a).
           { intros ->. assert (Hin : In a (keys (ddel a rest))).
             { apply (Permutation_in _ (Permutation_sym P)). subst tk. rewrite !in_app_iff. left. right. now left. }
             destruct (lookup_keys _ _ Hin) as [y Ly]. rewrite lookup_ddel_eq in Ly by exact NR. discriminate. }
           rewrite <- (lookup_ddel_neq rest j a) in Lj by auto.
           destruct (B l1 j l2 X qs p Lj Hp) as [H|H]; [left; now right|].
           destruct (Nat.eq_dec p a) as [->|NP]; [left; now left|]. right. intros Hk. apply H.
           destruct (lookup_keys _ _ Hk) as [y Ly]. apply (lookup_Some_keys _ _ y). rewrite lookup_ddel_neq; auto.
    + apply (IH rest); auto. intros j qs Hj. apply SUB. now right.
Qed.

Lemma topological_sort_spec : forall fuel g l, NoDup (keys g) -> topological_sort fuel g = Ok l ->
  Permutation (keys g) l /\ before g l.
Proof.
  induction fuel as [|fuel IH]; intros g l ND E; destruct g as [|e g]; try discriminate;
    try (injection E as <-; split; [reflexivity|intros l1 i l2 X; destruct l1; discriminate]).
  cbn [topological_sort] in E. set (G := e :: g) in *. destruct (topo_pass G G) as [taken rest] eqn:TP.
  destruct (topo_pass_spec G G taken rest ND ND) as (P & N' & S' & B); auto.
  { intros i ps H. apply In_lookup; auto. }
  destruct taken as [|t taken]; [discriminate|]. destruct (topological_sort fuel rest) as [l'|] eqn:E'; [|discriminate].
  cbn [obind] in E. injection E as <-. destruct (IH rest l' N' E') as (P' & B'). split.
  - rewrite P, P'. reflexivity.
  - intros l1 i l2 X ps p Li Hp.
    change (t :: taken ++ l') with ((t :: taken) ++ l') in X. remember (t :: taken) as tk.
    assert (Q : (exists m, l2 = m ++ l' /\ tk = l1 ++ i :: m) \/ (exists m, l1 = tk ++ m /\ l' = m ++ i :: l2)).
    { clear - X. revert l1 X. induction tk as [|a tk IH]; intros l1 X; cbn in X.
      - right. exists l1. auto.
      - destruct l1 as [|b l1]; cbn in X; injection X as -> X.
        + left. exists tk. auto.
        + destruct (IH l1 X) as [(m & -> & ->)|(m & -> & ->)]; [left|right]; exists m; auto. }
    destruct Q as [(m & -> & Q)|(m & -> & Q)].
    + apply (B l1 i m Q ps p Li Hp).
    + assert (Hi : In i (keys rest)).
      { apply (Permutation_in _ (Permutation_sym P')). rewrite Q. apply in_or_app. right. now left. }
      destruct (lookup_keys _ _ Hi) as [qs Lq]. assert (qs = ps) by (apply S' in Lq; congruence). subst qs.
      destruct (B' m i l2 Q ps p Lq Hp) as [H|H]; [left; apply in_or_app; now right|].
      destruct (in_dec Nat.eq_dec p (keys G)) as [Hk|]; [|right; auto]. left. apply in_or_app. left.
      apply (Permutation_in _ P) in Hk. apply in_app_or in Hk. destruct Hk; [auto|contradiction].
Qed.

Lemma topo_fuel : forall fuel g, NoDup (keys g) -> (List.length g <= fuel)%nat -> topological_sort fuel g <> Err OutOfFuel.
Proof.
  induction fuel as [|fuel IH]; intros g ND L; destruct g as [|e g]; cbn [topological_sort]; try discriminate.
  - cbn in L. lia.
  - set (G := e :: g) in *. destruct (topo_pass G G) as [taken rest] eqn:TP.
    destruct (topo_pass_spec G G taken rest ND ND) as (P & N' & _); auto.
    { intros i ps H. apply In_lookup; auto. }
    destruct taken as [|t taken]; [discriminate|]. apply Permutation_length in P. unfold keys in P. rewrite app_length, !map_length in P.
    cbn [List.length] in P. specialize (IH rest N' ltac:(lia)).
    destruct (topological_sort fuel rest) as [l|e']; cbn [obind]; congruence.
Qed.

Lemma keys_adjacency : forall ns, keys (adjacency ns) = seq 0 (List.length ns).
Proof.
  intros ns. unfold adjacency, keys.
  assert (G : forall (a : list nat) (b : list (list nat)), List.length a = List.length b -> map fst (combine a b) = a).
  { induction a as [|x a IH]; intros [|y b] E; try discriminate; [reflexivity|]. cbn. f_equal. apply IH. cbn in E. lia. }
  apply G. rewrite seq_length, map_length. reflexivity.
Qed.

Lemma new_chain_inv : forall ns a ch, new_chain ns a = Ok ch ->
  ch_nodes ch = ns /\ (0 < ch_accuracy ch)%nat /\ NoDup (flat_map n_outs ns) /\
  Permutation (seq 0 (List.length ns)) (ch_topo ch) /\ before (adjacency ns) (ch_topo ch).
Proof.
  intros ns a ch E. unfold new_chain in E. apply obind_ok in E. destruct E as (u & V & E).
  apply obind_ok in E. destruct E as (topo & T & E). injection E as <-. cbn [ch_nodes ch_accuracy ch_topo].
  assert (ND : NoDup (keys (adjacency ns))) by (rewrite keys_adjacency; apply seq_NoDup).
  destruct (topological_sort_spec _ _ _ ND T) as [P B]. rewrite keys_adjacency in P.
  split; [reflexivity|]. split; [destruct a as [[|]|]; lia|]. split; [|auto].
  unfold validate_chain in V. apply oassert_ok in V. apply Nat.eqb_eq in V. apply dedup_length_NoDup. symmetry. exact V.
Qed.

(** ** Parents all given *)

Lemma owner_from_None : forall ns i v, owner_from i ns v = None <-> ~ In v (flat_map n_outs ns).
Proof.
  induction ns as [|n ns IH]; intros i v; cbn [owner_from flat_map]; [tauto|]. rewrite in_app_iff.
  destruct (memb v (n_outs n)) eqn:M.
  - apply memb_In in M. split; [discriminate|tauto].
  - apply memb_false in M. rewrite IH. tauto.
Qed.

Lemma extraneous_In : forall ns v, In v (extraneous ns) <-> In v (flat_map n_ins ns) /\ ~ In v (flat_map n_outs ns).
Proof.
  intros ns v. unfold extraneous. rewrite filter_In. rewrite <- (owner_from_None ns 0). unfold owner.
  destruct (owner_from 0 ns v); intuition congruence.
Qed.

Lemma cells_nonempty : forall l (S : row), cells_of l S <> [] <-> exists k, In k l /\ In k (keys S).
Proof.
  intros l S. rewrite cells_of_interd. split.
  - intros H. destruct (interd l S) as [|[k x] r] eqn:E; [congruence|]. exists k.
    assert (I1 : In (k, x) (interd l S)) by (rewrite E; now left). apply In_interd in I1. destruct I1 as [I1 I2].
    split; [exact I2|]. apply (in_map fst) in I1. exact I1.
  - intros (k & Hl & Hk) E. assert (X : In k (keys (interd l S))) by (apply In_keys_interd; auto). rewrite E in X. destruct X.
Qed.

Lemma required_none : forall ns topo S I, exogenous ns I -> determined ns S I -> required ns topo [] S = [].
Proof.
  intros ns topo S I0 EX DT. unfold required.
  assert (G : forall l req, (forall v, In v req -> In v (keys S) \/ In v (extraneous ns)) ->
     forall v, In v (fold_left (required_step ns S) l req) -> In v (keys S) \/ In v (extraneous ns)).
  { induction l as [|i l IH]; intros req H; [exact H|]. cbn [fold_left]. apply IH. unfold required_step.
    destruct (nth_error ns i) as [n|] eqn:En; [|exact H]. apply nth_error_In in En.
    destruct (existsb _ (n_outs n)) eqn:B; [|exact H]. intros v Hv. apply in_app_or in Hv. destruct Hv as [Hv|Hv]; [auto|].
    apply existsb_exists in B. destruct B as (o & Ho & B).
    assert (OS : In o (keys S)).
    { apply orb_true_iff in B. destruct B as [B|B].
      - apply memb_In in B. destruct (H o B) as [|X]; [auto|]. apply extraneous_In in X. exfalso. apply X.
        apply in_flat_map. eauto.
      - apply dmem_true in B. exact B. }
    assert (V := DT n En (proj2 (cells_nonempty _ _) (ex_intro _ o (conj Ho OS))) v Hv).
    unfold keys in V. rewrite map_app in V. apply in_app_or in V. destruct V as [V|V]; [right|left; exact V].
    apply extraneous_In. split; [apply in_flat_map; eauto|]. apply EX. exact V. }
  specialize (G (rev topo) [] ltac:(intros v [])).
  destruct (filter _ _) as [|v r] eqn:E; [reflexivity|]. exfalso.
  assert (X : In v (v :: r)) by now left. rewrite <- E in X. apply filter_In in X. destruct X as [X1 X2].
  apply (proj1 (dedup_In _ _)) in X1. apply andb_true_iff in X2. destruct X2 as [X2 X3]. apply andb_true_iff in X2. destruct X2 as [_ X2].
  apply negb_true_iff in X2, X3. apply memb_false in X3. destruct (G v X1) as [H|H]; [|contradiction].
  apply dmem_true in H. congruence.
Qed.

Lemma interl_nil : forall l, interl l [] = [].
Proof. reflexivity. Qed.

Lemma inputs_given : forall n (S I : row), disjoint_rows I S ->
  merged (interd (n_ins n) I) (interd (n_ins n) S) = cells_of (n_ins n) (I ++ S).
Proof.
  intros n S I0 DJ. destruct (disjoint_parts _ _ DJ) as (NI & NS & X). rewrite cells_of_interd, interd_app.
  apply merged_disj; try (apply NoDup_keys_interd; assumption).
  intros k H1 H2. apply keys_interd_sub in H1. apply keys_interd_sub in H2. apply (X k); auto.
Qed.

Lemma invoke_given : forall ns rid n S I x, In n ns -> disjoint_rows I S -> determined ns S I ->
  local n rid S I = Ok x -> invoke rid n [] S I = Ret (Ok ([], x)).
Proof.
  intros ns rid n S I0 x Hn DJ DT L. unfold invoke. rewrite (inputs_given n S I0 DJ), interl_nil.
  unfold local in L. specialize (DT n Hn). rewrite cells_of_interd in L, DT.
  destruct (interd (n_outs n) S) as [|p r]; [injection L as <-; reflexivity|].
  assert (A : oassert (forallb (fun i => dmem i (cells_of (n_ins n) (I0 ++ S))) (n_ins n)) = Ok tt).
  { unfold oassert. replace (forallb _ _) with true; [reflexivity|]. symmetry. apply forallb_forall. intros i Hi.
    apply dmem_true. rewrite cells_of_interd. apply In_keys_interd. split; [|exact Hi]. apply DT; [discriminate|exact Hi]. }
  rewrite A, L. reflexivity.
Qed.

Lemma levels_given : forall ns rid S I topo ws w, disjoint_rows I S -> determined ns S I -> NoDup (keys S) ->
  Forall2 (fun l x => exists n, nth_error ns l = Some n /\ local n rid S I = Ok x) topo ws ->
  levels ns rid [] I topo S w = Ret (Ok (S, xadd w (xsum ws))).
Proof.
  intros ns rid S I0 topo ws w DJ DT NS F. revert w. induction F as [|l x topo ws (n & En & L) F IH]; intros w.
  - cbn. rewrite xadd_0_r. reflexivity.
  - cbn [levels]. rewrite En. rewrite (invoke_given ns rid n S I0 x) by eauto using nth_error_In.
    cbn [sobind sbind fst snd]. rewrite merged_nil_r by exact NS. rewrite IH, xsum_cons, xadd_assoc. reflexivity.
Qed.

Lemma xadd_comm : forall a b, xadd a b = xadd b a.
Proof. intros [] []; cbn; try reflexivity. f_equal. ring. Qed.

Lemma xsum_perm : forall l l', Permutation l l' -> xsum l = xsum l'.
Proof.
  induction 1 as [|x l l' P IH|x y l|l l' l'' P1 IH1 P2 IH2]; [reflexivity| | |congruence].
  - cbn. unfold xsum in IH. rewrite IH. reflexivity.
  - cbn. rewrite <- !xadd_assoc. f_equal. apply xadd_comm.
Qed.

(** The answers of the children listed in the order of the levels. *)
Lemma in_order : forall {A B} (P : B -> A -> Prop) (ns : list B) (ws : list A) topo, Forall2 P ns ws ->
  Permutation (seq 0 (List.length ns)) topo ->
  exists ws', Permutation ws ws' /\ Forall2 (fun l x => exists n, nth_error ns l = Some n /\ P n x) topo ws'.
Proof.
  intros A B P ns ws topo F PM.
  assert (G : Forall2 (fun l x => exists n, nth_error ns l = Some n /\ P n x) (seq 0 (List.length ns)) ws).
  { clear topo PM. assert (H : forall pre, Forall2 (fun l x => exists n, nth_error (pre ++ ns) l = Some n /\ P n x)
                                      (seq (List.length pre) (List.length ns)) ws).
    { induction F as [|n x ns ws Pn F IH]; intros pre; [constructor|]. cbn [List.length seq]. constructor.
      - exists n. rewrite nth_error_app2, Nat.sub_diag by lia. auto.
      - specialize (IH (pre ++ [n])). rewrite app_length in IH. cbn [List.length] in IH.
        rewrite Nat.add_1_r in IH. rewrite <- app_assoc in IH. exact IH. }
    apply (H []). }
  clear F. revert ws G. induction PM as [|a l l' PM IH|a b l|l l' l'' P1 IH1 P2 IH2]; intros ws G.
  - inversion G; subst. exists []. auto.
  - inversion G as [|? x ? ws' Ha G']; subst. destruct (IH ws' G') as (w2 & Q & G2). exists (x :: w2). auto.
  - inversion G as [|? x ? ws' Ha G']; subst. inversion G' as [|? y ? ws2 Hb G2]; subst.
    exists (y :: x :: ws2). split; [apply perm_swap|auto].
  - destruct (IH1 ws G) as (w1 & Q1 & G1). destruct (IH2 w1 G1) as (w2 & Q2 & G2). exists w2.
    split; [etransitivity; eauto|auto].
Qed.

Lemma same_set_refl : forall l, same_set l l = true.
Proof.
  intros l. unfold same_set. apply andb_true_iff. split; apply forallb_forall; intros x Hx; apply memb_In; exact Hx.
Qed.

Lemma weigh_given : forall ns a ch rid S I ws, new_chain ns a = Ok ch -> disjoint_rows I S ->
  exogenous ns I -> determined ns S I -> Forall2 (fun n x => local n rid S I = Ok x) ns ws ->
  weighted_sample ch rid [] S I = Ret (Ok (S, xsum ws)).
Proof.
  intros ns a ch rid S I0 ws CH DJ EX DT F. destruct (new_chain_inv _ _ _ CH) as (EN & _ & _ & PM & _).
  destruct (disjoint_parts _ _ DJ) as (_ & NS & _).
  unfold weighted_sample. rewrite EN, (required_none ns _ S I0 EX DT). cbn [app].
  destruct (in_order _ ns ws _ F PM) as (ws' & PW & F').
  rewrite (levels_given ns rid S I0 _ ws' _ DJ DT NS F'). cbn [sobind sbind fst snd].
  rewrite app_nil_r, same_set_refl. cbn [oassert obind]. rewrite xadd_0_l, (xsum_perm _ _ PW). reflexivity.
Qed.

Lemma srepeat_ret : forall {A} n (a : A), srepeat n (Ret (Ok a)) = Ret (Ok (repeat a n)).
Proof. intros A n a. induction n as [|n IH]; [reflexivity|]. cbn [srepeat sobind sbind]. rewrite IH. reflexivity. Qed.

Lemma map_repeat : forall {A B} (f : A -> B) a n, map f (repeat a n) = repeat (f a) n.
Proof. intros. induction n; cbn; congruence. Qed.

Lemma logmeanexp_repeat : forall x n, (0 < n)%nat -> logmeanexp (repeat x n) = x.
Proof.
  intros x n P. unfold logmeanexp, logsumexp. rewrite repeat_length.
  assert (EB : forall p : xr -> bool, existsb p (repeat x n) = p x).
  { intros p. destruct n; [lia|]. cbn. destruct (p x) eqn:E; [reflexivity|]. cbn. clear P. induction n; cbn; [reflexivity|]. rewrite E. auto. }
  rewrite !EB. destruct x as [r| | |]; try reflexivity. cbn [is_fin xsub xneg xadd]. f_equal.
  rewrite map_repeat. assert (Q : rsum (repeat (xexp (Fin r)) n) = (INR n * exp r)%R).
  { clear. induction n as [|n IH]; [cbn; lra|]. rewrite S_INR. cbn [repeat]. change (rsum (?a :: ?l)) with (a + rsum l)%R.
    rewrite IH. cbn [xexp]. ring. }
  rewrite Q, ln_mult, ln_exp; [lra|apply lt_0_INR; lia|apply exp_pos].
Qed.

Lemma forallb_repeat : forall {A} (p : A -> bool) a n, (0 < n)%nat -> forallb p (repeat a n) = p a.
Proof.
  intros A p a n P. destruct n; [lia|]. clear P. cbn [repeat forallb]. induction n as [|n IH]; [apply andb_true_r|].
  cbn [repeat forallb]. rewrite IH. destruct (p a); reflexivity.
Qed.

Lemma NoDup_both : forall {A} (l l' : list A), NoDup l -> NoDup l' -> (forall x, In x l -> ~ In x l') -> NoDup (l ++ l').
Proof.
  induction l as [|x l IH]; intros l' N1 N2 D; [exact N2|]. inversion N1; subst. cbn [app]. constructor.
  - intros H. apply in_app_or in H. destruct H as [H|H]; [auto|]. apply (D x); [now left|exact H].
  - apply IH; auto. intros y Hy. apply D. now right.
Qed.

Lemma logpdf_given : forall ns acc ch rid T C I ws vs, new_chain ns acc = Ok ch ->
  disjoint_rows T C -> disjoint_rows I (T ++ C) -> exogenous ns I ->
  determined ns (T ++ C) I -> determined ns C I ->
  Forall2 (fun n x => local n rid (T ++ C) I = Ok x) ns ws ->
  Forall2 (fun n x => local n rid C I = Ok x) ns vs ->
  chain_logpdf ch rid T C I =
  Ret (match C with
       | [] => Ok (xsum ws)
       | _ => if is_inf (xsum vs) then Err ValueError else Ok (xsub (xsum ws) (xsum vs))
       end).
Proof.
  intros ns acc ch rid T C I0 ws vs CH DJ DI EX DT DC FW FV.
  destruct (new_chain_inv _ _ _ CH) as (_ & PA & _ & _ & _). destruct (disjoint_parts _ _ DJ) as (NT & NC & X).
  assert (DIC : disjoint_rows I0 C).
  { destruct (disjoint_parts _ _ DI) as (N1 & _ & D). unfold disjoint_rows, keys. rewrite map_app.
    apply NoDup_both; [exact N1|exact NC|]. intros k H1 H2. apply (D k H1). unfold keys. rewrite map_app.
    apply in_or_app. right. exact H2. }
  unfold chain_logpdf. rewrite (merged_disj T C NT NC) by (intros k H1 H2; apply (X k); auto).
  rewrite (weigh_given ns acc ch rid (T ++ C) I0 ws), srepeat_ret by auto. cbn [sobind sbind]. rewrite map_repeat. cbn [snd].
  rewrite (logmeanexp_repeat _ _ PA). destruct C as [|p C'].
  - cbn [sobind sbind forallb is_inf andb]. change [Fin 0] with (repeat (Fin 0) 1). rewrite logmeanexp_repeat by lia.
    destruct (xsum ws); cbn [xsub xadd xneg]; try reflexivity. do 3 f_equal. ring.
  - rewrite (weigh_given ns acc ch rid (p :: C') I0 vs), srepeat_ret by auto. cbn [sobind sbind]. rewrite map_repeat. cbn [snd].
    rewrite forallb_repeat by exact PA. rewrite (logmeanexp_repeat _ _ PA). destruct (is_inf (xsum vs)); reflexivity.
Qed.

(** ** Children without inputs *)

Lemma Rdiv_one : forall r, (r / 1)%R = r.
Proof. intros r. field. Qed.

Lemma left_over_wf : forall c I, wf c -> left_over c I = I.
Proof. intros c I W. destruct W; reflexivity. Qed.

Lemma local_free : forall c rid S, wf c -> unknown c rid -> labelled c S -> NoDup (keys S) ->
  local (node_of c) rid S [] = Ok (xlog (dens c S)).
Proof.
  intros c rid S W U LB NS. unfold local, node_of. cbn [n_outs n_ins n_logpdf]. rewrite (wf_inputs c W), cells_of_interd.
  change (cells_of [] ([] ++ S)) with (filter (fun _ : Z * val => false) S).
  replace (filter (fun _ : Z * val => false) S) with (@nil (Z * val)) by (clear; induction S; auto).
  assert (A := wf_answers c W rid (interd (outputs c) S) [] U). rewrite app_nil_r in A.
  assert (A' := A (labelled_interd _ _ _ LB)). clear A.
  assert (DJ : disjoint_rows (interd (outputs c) S) []).
  { unfold disjoint_rows. rewrite app_nil_r, keys_interd. apply NoDup_filter. exact NS. }
  assert (D1 : dens c [] = 1%R) by (apply dens_none; auto).
  specialize (A' DJ (solid_nil c W) ltac:(rewrite D1; lra)). rewrite D1, Rdiv_one, dens_interd in A' by exact W.
  unfold logpdf_one in A'. cbn [interd filter] in A'.
  replace (interd (outputs c) (interd (outputs c) S)) with (interd (outputs c) S) in A'.
  2:{ symmetry. apply all_in. intros k Hk. apply In_keys_interd in Hk. apply Hk. }
  destruct (interd (outputs c) S); [|exact A']. exact A'.
Qed.

Lemma free_determined : forall cs S, (forall c, In c cs -> wf c) -> determined (map node_of cs) S [].
Proof.
  intros cs S W n Hn _ i Hi. apply in_map_iff in Hn. destruct Hn as (c & <- & Hc). cbn in Hi.
  rewrite (wf_inputs c (W c Hc)) in Hi. destruct Hi.
Qed.

Lemma free_locals : forall cs rid S, (forall c, In c cs -> wf c /\ unknown c rid /\ labelled c S) -> NoDup (keys S) ->
  Forall2 (fun n x => local n rid S [] = Ok x) (map node_of cs) (map xlog (map (fun c => dens c S) cs)).
Proof.
  intros cs rid S H NS. induction cs as [|c cs IH]; [constructor|]. cbn [map]. constructor.
  - destruct (H c (or_introl eq_refl)) as (W & U & LB). apply local_free; auto.
  - apply IH. intros c' Hc. apply H. now right.
Qed.

Lemma is_inf_xlog : forall p, is_inf (xlog p) = negb (if Rlt_dec 0 p then true else false).
Proof. intros p. unfold xlog. destruct (Rlt_dec 0 p); reflexivity. Qed.

Lemma logpdf_free : forall cs acc ch rid T C, (forall c, In c cs -> wf c /\ unknown c rid /\ labelled c (T ++ C)) ->
  new_chain (map node_of cs) acc = Ok ch -> disjoint_rows T C ->
  chain_logpdf ch rid T C [] =
  Ret (if Rlt_dec 0 (dens (CProd cs) C) then Ok (xlog (dens (CProd cs) (T ++ C) / dens (CProd cs) C)) else Err ValueError).
Proof.
  intros cs acc ch rid T C H CH DJ. destruct (disjoint_parts _ _ DJ) as (NT & NC & X).
  assert (NN : forall S p, In p (map (fun c => dens c S) cs) -> (0 <= p)%R).
  { intros S p Hp. apply in_map_iff in Hp. destruct Hp as (c & <- & Hc). apply dens_nonneg. apply H. exact Hc. }
  assert (LC : forall c, In c cs -> labelled c C).
  { intros c Hc. apply (labelled_split c T C DJ). apply H. exact Hc. }
  rewrite (logpdf_given (map node_of cs) acc ch rid T C [] (map xlog (map (fun c => dens c (T ++ C)) cs))
    (map xlog (map (fun c => dens c C) cs)) CH DJ).
  - rewrite !xsum_xlog by apply NN. cbn [dens]. rewrite is_inf_xlog.
    destruct C as [|p C'].
    + replace (rprod (map (fun c => dens c []) cs)) with 1%R.
      2:{ symmetry. apply rprod_ones. intros q Hq. apply in_map_iff in Hq. destruct Hq as (c & <- & Hc). apply dens_none; auto. apply H. exact Hc. }
      rewrite Rdiv_one. destruct (Rlt_dec 0 1); [reflexivity|lra].
    + destruct (Rlt_dec 0 (rprod (map (fun c => dens c (p :: C')) cs))) as [P|P]; [|reflexivity]. cbn [negb].
      rewrite xlog_sub; [reflexivity| |exact P]. apply rprod_nonneg. apply NN.
  - exact DJ.
  - intros i [].
  - apply free_determined. intros c Hc. apply H. exact Hc.
  - apply free_determined. intros c Hc. apply H. exact Hc.
  - apply free_locals; auto.
  - apply free_locals; auto. intros c Hc. destruct (H c Hc) as (A & B & _). auto.
Qed.

Lemma outs_disj : forall {A} (f : A -> list Z) cs i j a b k, NoDup (flat_map f cs) -> nth_error cs i = Some a -> nth_error cs j = Some b ->
  i <> j -> In k (f a) -> ~ In k (f b).
Proof.
  intros A f cs. induction cs as [|c cs IH]; intros i j a b k ND E1 E2 N Ha Hb; [destruct i; discriminate|].
  cbn [flat_map] in ND. assert (ND2 := proj2 (NoDup_app_parts _ _ ND)). destruct i as [|i], j as [|j]; cbn [nth_error] in E1, E2.
  - congruence.
  - injection E1 as <-. apply (NoDup_app_disj _ _ ND k Ha). apply in_flat_map. exists b. eauto using nth_error_In.
  - injection E2 as <-. apply (NoDup_app_disj _ _ ND k Hb). apply in_flat_map. exists a. eauto using nth_error_In.
  - apply (IH i j a b k); auto.
Qed.

(** What the levels yield when no child has inputs. *)
Definition swept (cs : list cgpm) (rid : option Z) (ts : list Z) (C : row) (S : row) (w : xr) (r : out (row * xr)) : Prop :=
  match r with
  | Err e => e = ValueError /\ exists c, In c cs /\ dens c C = 0%R
  | Ok (S', w') => w' = xadd w (xsum (map (fun c => xlog (dens c C)) cs)) /\
      exists ds, S' = S ++ List.concat ds /\ Forall2 (piece ts rid C) cs ds
  end.

Lemma levels_free : forall cs rid ts C, (forall c, In c cs -> wf c /\ unknown c rid /\ labelled c C /\ solid c C) ->
  NoDup (flat_map outputs cs) -> NoDup (keys C) -> NoDup ts -> (forall k, In k ts -> ~ In k (keys C)) ->
  forall topo cs', Forall2 (fun l c => nth_error cs l = Some c) topo cs' -> NoDup topo ->
  forall D w, NoDup (keys (C ++ D)) -> (forall l c k, In l topo -> nth_error cs l = Some c -> In k (outputs c) -> ~ In k (keys D)) ->
  always (levels (map node_of cs) rid ts [] topo (C ++ D) w) (swept cs' rid ts C (C ++ D) w).
Proof.
  intros cs rid ts C H ND NC NT DJ topo cs' F. induction F as [|l c topo cs' En F IH]; intros NTo D w NS FR.
  - cbn [levels always swept]. split; [rewrite xadd_0_r; reflexivity|]. exists []. cbn [List.concat]. rewrite app_nil_r. auto.
  - inversion NTo as [|? ? Nl NTo']; subst. destruct (H c (nth_error_In _ _ En)) as (W & U & LB & SD).
    cbn [levels]. rewrite nth_error_map, En. cbn [option_map].
    assert (CS : interd (outputs c) (C ++ D) = interd (outputs c) C).
    { rewrite interd_app. replace (interd (outputs c) D) with (@nil (Z * val)); [apply app_nil_r|].
      symmetry. rewrite <- cells_of_interd. destruct (cells_of (outputs c) D) eqn:E; [reflexivity|]. exfalso.
      assert (X : cells_of (outputs c) D <> []) by congruence. apply cells_nonempty in X. destruct X as (k & K1 & K2).
      apply (FR l c k); auto. now left. }
    assert (INV : always (invoke rid (node_of c) ts (C ++ D) []) (fun r => match r with
       | Err e => e = ValueError /\ dens c C = 0%R
       | Ok (d, w') => w' = xlog (dens c C) /\ Permutation (keys d) (interl (outputs c) ts) /\
                 (d = [] \/ sample_ok c rid (cells_of (outputs c) C) d) end)).
    { unfold invoke, node_of. cbn [n_outs n_ins n_logpdf n_simulate n_left]. rewrite (wf_inputs c W), CS.
      assert (J0 : merged (interd [] []) (interd [] (C ++ D)) = []).
      { replace (interd [] (C ++ D)) with (@nil (Z * val)) by (rewrite <- cells_of_interd; unfold cells_of; clear; induction (C ++ D); auto). reflexivity. }
      rewrite J0. cbn [forallb oassert].
      assert (L := local_free c rid C W U LB NC). unfold local, node_of in L. cbn [n_outs n_ins n_logpdf] in L.
      rewrite (wf_inputs c W), cells_of_interd in L. change (cells_of [] ([] ++ C)) with (filter (fun _ : Z * val => false) C) in L.
      replace (filter (fun _ : Z * val => false) C) with (@nil (Z * val)) in L by (clear; induction C; auto).
      assert (E1 : match interd (outputs c) C with [] => Ok (Fin 0%R) | _ => logpdf c rid (interd (outputs c) C) [] [] end = Ok (xlog (dens c C))).
      { destruct (interd (outputs c) C); exact L. }
      replace (match interd (outputs c) C with [] => match interl (outputs c) ts with [] => Ok tt | _ => Ok tt end | _ => Ok tt end) with (Ok tt).
      2:{ destruct (interd (outputs c) C), (interl (outputs c) ts); reflexivity. }
      rewrite E1. rewrite (left_over_wf c [] W).
      assert (J1 : forall (l x : row), match l with [] => x | _ :: _ => x end = x) by (intros [|]; reflexivity).
      destruct (interl (outputs c) ts) as [|t0 tc] eqn:ET; [cbn; auto|]. rewrite <- ET, J1. clear E1 L J0.
      assert (NTc : NoDup (interl (outputs c) ts)) by (apply NoDup_filter; exact NT).
      assert (SUB : forall k, In k (interl (outputs c) ts) -> In k (outputs c) /\ In k ts).
      { intros k Hk. apply filter_In in Hk. destruct Hk as [K1 K2]. apply memb_In in K2. auto. }
      apply always_bind.
      assert (Q := wf_quiet c W rid (interl (outputs c) ts) (interd (outputs c) C) None U (labelled_interd _ _ _ LB)).
      rewrite dens_interd in Q by exact W.
      assert (NI : NoDup (keys (interd (outputs c) C))) by (rewrite keys_interd; apply NoDup_filter; exact NC).
      specialize (Q NI NTc).
      assert (SH := simulate_shape c W rid (interl (outputs c) ts) (interd (outputs c) C) None NTc (fun k Hk => proj1 (SUB k Hk)) ltac:(discriminate) (unknown_uc _ _ _ U)).
      refine (always_imp _ _ _ _ (always_and _ _ _ (Q _ _ _ _ _) SH)).
      - intros [s|e]; cbn [fails if_ok always]; [|tauto]. intros [_ H2]. destruct s as [d|ds]; [|destruct H2].
        destruct H2 as [P1 P2]. split; [reflexivity|]. split; [exact P1|]. right. rewrite cells_of_interd. exact P2.
      - intros k Hk. destruct (SUB k Hk) as [K1 K2]. split; [exact K1|]. intros X. apply keys_interd_sub in X. apply (DJ k); auto.
      - rewrite ET. discriminate.
      - intros k Hk. apply In_keys_interd in Hk. apply Hk.
      - apply (solid_ext c W C); [|exact SD]. intros k Hk. rewrite lookup_interd. apply memb_In in Hk. rewrite Hk. reflexivity.
      - discriminate. }
    apply always_bind. revert INV. apply always_imp. intros [[d w']|e].
    2:{ intros [-> Z0]. cbn. split; [reflexivity|]. exists c. split; [now left|exact Z0]. }
    intros (-> & PD & SO). cbn [fst snd].
    assert (KD : forall k, In k (keys d) -> In k (outputs c) /\ In k ts).
    { intros k Hk. apply (Permutation_in _ PD) in Hk. apply filter_In in Hk. destruct Hk as [K1 K2]. apply memb_In in K2. auto. }
    assert (NDd : NoDup (keys d)).
    { apply (Permutation_NoDup (Permutation_sym PD)). apply NoDup_filter. exact NT. }
    assert (FRd : forall k, In k (keys d) -> ~ In k (keys (C ++ D))).
    { intros k Hk X. destruct (KD k Hk) as [K1 K2]. unfold keys in X. rewrite map_app in X. apply in_app_or in X. destruct X as [X|X].
      - apply (DJ k); auto.
      - apply (FR l c k); auto. now left. }
    rewrite merged_disj by auto. rewrite <- app_assoc.
    generalize (IH NTo' (D ++ d) (xadd w (xlog (dens c C)))). rewrite app_assoc. intros G.
    assert (N2 : NoDup (keys ((C ++ D) ++ d))).
    { unfold keys. rewrite map_app. apply NoDup_both; auto. intros k K1 K2. apply (FRd k K2 K1). }
    specialize (G N2). refine (always_imp _ _ _ _ (G _)).
    + intros [[S' w']|e]; cbn [swept]; [|intros (-> & c' & X & Z0); split; [reflexivity|exists c'; split; [now right|exact Z0]]].
      intros (-> & ds & -> & F2). split; [cbn [map]; rewrite xsum_cons, xadd_assoc; reflexivity|]. exists (d :: ds).
      split; [cbn [List.concat]; rewrite <- !app_assoc; reflexivity|]. constructor; [|exact F2]. split; [exact PD|]. destruct SO as [-> |SO]; [left; reflexivity|right; exact SO].
    + intros l' c' k Hl' En' Hk X. unfold keys in X. rewrite map_app in X. apply in_app_or in X. destruct X as [X|X].
      * apply (FR l' c' k); auto. now right.
      * destruct (KD k X) as [K1 _]. apply (outs_disj outputs cs l l' c c' k); auto. intros ->. contradiction.
Qed.

Lemma required_free : forall ns topo ts C, (forall n, In n ns -> n_ins n = []) -> required ns topo ts C = [].
Proof.
  intros ns topo ts C H. unfold required.
  assert (G : forall l req, fold_left (required_step ns C) l req = req).
  { induction l as [|i l IH]; intros req; [reflexivity|]. cbn [fold_left]. rewrite IH. unfold required_step.
    destruct (nth_error ns i) as [n|] eqn:En; [|reflexivity]. rewrite (H n (nth_error_In _ _ En)), app_nil_r. destruct (existsb _ _); reflexivity. }
  rewrite G. destruct (filter _ (dedup ts)) as [|v r] eqn:E; [reflexivity|]. exfalso.
  assert (X : In v (v :: r)) by now left. rewrite <- E in X. apply filter_In in X. destruct X as [X1 X2].
  apply (proj1 (dedup_In _ _)) in X1. apply andb_true_iff in X2. destruct X2 as [X2 _]. apply andb_true_iff in X2. destruct X2 as [X2 _].
  apply negb_true_iff in X2. apply memb_false in X2. contradiction.
Qed.

Lemma select_ok : forall ts (d : row), NoDup ts -> (forall k, In k ts -> In k (keys d)) ->
  exists s, select ts d = Ok s /\ keys s = ts /\ forall k, In k ts -> lookup k s = lookup k d.
Proof.
  intros ts d NT SUB. unfold select.
  assert (E : exists l, oseq (map (fun q => do x <- dget q d; Ok (q, x)) ts) = Ok l /\ keys l = ts /\ forall k, In k ts -> lookup k l = lookup k d).
  { induction ts as [|t ts IH]; [exists []; split; [reflexivity|split; [reflexivity|intros k []]]|]. inversion NT; subst. destruct IH as (l & E & K & L); [assumption| |].
    { intros k Hk. apply SUB. now right. }
    destruct (lookup_keys d t (SUB t (or_introl eq_refl))) as (x & Lx). cbn [map oseq]. unfold dget at 1. rewrite Lx. cbn [obind].
    rewrite E. cbn [obind]. exists ((t, x) :: l). split; [reflexivity|]. split; [cbn; f_equal; exact K|].
    intros k Hk. cbn [lookup]. destruct (eq_dec k t) as [->|N]; [auto|]. apply L. destruct Hk; [congruence|auto]. }
  destruct E as (l & E & K & L). rewrite E. cbn [obind]. exists l. split; [|auto]. f_equal.
  rewrite <- (app_nil_l l) at 2. apply (fold_dset_fresh l []); [rewrite K; exact NT|intros k _ []].
Qed.

Lemma same_set_intro : forall a b, (forall k, In k a <-> In k b) -> same_set a b = true.
Proof.
  intros a b H. unfold same_set. apply andb_true_iff. split; apply forallb_forall; intros x Hx; apply memb_In; apply H; exact Hx.
Qed.

Lemma rprod_zero : forall l, In 0%R l -> rprod l = 0%R.
Proof.
  induction l as [|p l IH]; intros H; [destruct H|]. change (rprod (p :: l)) with (p * rprod l)%R.
  destruct H as [->|H]; [ring|]. rewrite (IH H). ring.
Qed.

Lemma weigh_free : forall cs acc ch rid ts C, (forall c, In c cs -> wf c /\ unknown c rid /\ labelled c C /\ solid c C) ->
  new_chain (map node_of cs) acc = Ok ch -> NoDup (keys C) -> NoDup ts -> (forall k, In k ts -> ~ In k (keys C)) ->
  (forall k, In k ts -> In k (flat_map outputs cs)) ->
  always (weighted_sample ch rid ts C []) (fun r => match r with
    | Err e => e = ValueError /\ dens (CProd cs) C = 0%R
    | Ok (S', w) => w = xlog (dens (CProd cs) C) /\ exists D, S' = C ++ D /\ Permutation (keys D) ts /\
        sample_ok (CProd cs) rid C D
    end).
Proof.
  intros cs acc ch rid ts C H CH NC NT DJ SUB. destruct (new_chain_inv _ _ _ CH) as (EN & _ & ND & PM & _).
  assert (FO : flat_map n_outs (map node_of cs) = flat_map outputs cs) by (rewrite !flat_map_concat_map, map_map; reflexivity).
  rewrite FO in ND.
  assert (NN : forall p, In p (map (fun c => dens c C) cs) -> (0 <= p)%R).
  { intros p Hp. apply in_map_iff in Hp. destruct Hp as (c & <- & Hc). apply dens_nonneg. apply H. exact Hc. }
  unfold weighted_sample. rewrite EN, required_free.
  2:{ intros n Hn. apply in_map_iff in Hn. destruct Hn as (c & <- & Hc). apply wf_inputs. apply H. exact Hc. }
  rewrite app_nil_r.
  rewrite map_length in PM.
  destruct (in_order (fun a b : cgpm => a = b) cs cs (ch_topo ch)) with (2 := PM) as (cs' & PC & F).
  { clear. induction cs; constructor; auto. }
  assert (F' : Forall2 (fun l c => nth_error cs l = Some c) (ch_topo ch) cs').
  { clear - F. induction F as [|l c topo cs' (c' & E & ->) F IH]; constructor; auto. }
  clear F.
  assert (HW : forall c, In c cs' -> In c cs) by (intros c Hc; apply (Permutation_in _ (Permutation_sym PC)); exact Hc).
  assert (ND' : NoDup (flat_map outputs cs')).
  { apply (Permutation_NoDup (l := flat_map outputs cs)); [|exact ND]. apply Permutation_flat_map. exact PC. }
  assert (WS : xsum (map (fun c => xlog (dens c C)) cs') = xlog (dens (CProd cs) C)).
  { rewrite <- (xsum_perm _ _ (Permutation_map (fun c => xlog (dens c C)) PC)). cbn [dens]. rewrite <- xsum_xlog by exact NN. rewrite map_map. reflexivity. }
  apply always_bind. generalize (levels_free cs rid ts C H ND NC NT DJ (ch_topo ch) cs' F'
    (Permutation_NoDup PM (seq_NoDup _ _)) [] (Fin 0)). rewrite app_nil_r. intros G.
  specialize (G NC ltac:(intros; intros [])). revert G. apply always_imp. intros [[S' w]|e]; cbn [swept].
  2:{ intros (-> & c & Hc & Zc). cbn [always]. split; [reflexivity|]. cbn [dens]. apply rprod_zero. rewrite <- Zc.
      apply (in_map (fun c => dens c C)). auto. }
  intros (-> & ds & -> & FD). cbn [always fst].
  destruct (pieces_whole cs' ds ts rid C) as [PT SO]; auto.
  { intros c Hc. apply H. auto. }
  { intros k Hk. apply (Permutation_in (l := flat_map outputs cs)); [apply Permutation_flat_map; exact PC|auto]. }
  assert (PT' : Permutation (keys (List.concat ds)) ts).
  { rewrite <- (interl_parts cs' ts ND' NT).
    - rewrite keys_concat. apply concat_perm. clear - FD. induction FD as [|c s cs ds [P _] F IH]; cbn; constructor; auto.
    - intros k Hk. apply (Permutation_in (l := flat_map outputs cs)); [apply Permutation_flat_map; exact PC|auto]. }
  rewrite mergedl_concat in SO by (apply (Permutation_NoDup (Permutation_sym PT')); exact NT).
  assert (SS : same_set (keys (C ++ List.concat ds)) (keys C ++ ts) = true).
  { apply same_set_intro. intros k. unfold keys at 1. rewrite map_app, !in_app_iff. fold (keys C). fold (keys (List.concat ds)).
    split; (intros [K|K]; [left; exact K|right]); [apply (Permutation_in _ PT')|apply (Permutation_in _ (Permutation_sym PT'))]; exact K. }
  rewrite SS. cbn [oassert obind]. split; [rewrite xadd_0_l; exact WS|]. exists (List.concat ds).
  split; [reflexivity|]. split; [exact PT'|]. cbn [sample_ok] in *. rewrite each_In in *. intros c Hc. apply SO.
  apply (Permutation_in _ PC). exact Hc.
Qed.

Lemma choose_index : forall ws, ws <> [] -> (exists p, (0 < p)%R /\ forall w, In w ws -> w = xlog p) ->
  always (log_pflip ws) (fun r => exists i, r = Ok i /\ (i < List.length ws)%nat).
Proof.
  intros ws NE (p & P & H).
  assert (E : ws = map (fun _ => xlog p) ws).
  { rewrite <- (map_id ws) at 1. apply map_ext_in. exact H. }
  assert (A : always (log_pflip ws) (fails (fun _ => False))).
  { rewrite E. apply (pflip_ok ws (fun _ => p)). destruct ws as [|w ws]; [congruence|]. exists w. split; [now left|exact P]. }
  generalize (always_and _ _ _ A (flip_index ws)). apply always_imp. intros [i|e]; cbn; [|tauto].
  intros [_ B]. exists i. split; [reflexivity|]. apply B.
Qed.

Lemma simulate_free : forall cs acc ch rid ts C, (forall c, In c cs -> wf c /\ unknown c rid /\ labelled c C /\ solid c C) ->
  new_chain (map node_of cs) acc = Ok ch -> NoDup (keys C) -> NoDup ts -> (forall k, In k ts -> ~ In k (keys C)) ->
  (forall k, In k ts -> In k (flat_map outputs cs)) ->
  always (chain_simulate1 ch rid ts C []) (fun r => match r with
    | Err e => e = ValueError /\ dens (CProd cs) C = 0%R
    | Ok s => (0 < dens (CProd cs) C)%R /\ keys s = ts /\ sample_ok (CProd cs) rid C s
    end).
Proof.
  intros cs acc ch rid ts C H CH NC NT DJ SUB. destruct (new_chain_inv _ _ _ CH) as (_ & PA & ND & _ & _).
  assert (WG := weigh_free cs acc ch rid ts C H CH NC NT DJ SUB).
  assert (FO : flat_map n_outs (map node_of cs) = flat_map outputs cs) by (rewrite !flat_map_concat_map, map_map; reflexivity).
  rewrite FO in ND.
  assert (NN : (0 <= dens (CProd cs) C)%R).
  { cbn [dens]. apply rprod_nonneg. intros p Hp. apply in_map_iff in Hp. destruct Hp as (c & <- & Hc). apply dens_nonneg. apply H. exact Hc. }
  set (q := dens (CProd cs) C) in *.
  set (P1 := fun r : row * xr => let '(S', w) := r in w = xlog q /\ exists D, S' = C ++ D /\ Permutation (keys D) ts /\ sample_ok (CProd cs) rid C D).
  assert (RP : always (srepeat (ch_accuracy ch) (weighted_sample ch rid ts C [])) (fun r => match r with
     | Err e => e = ValueError /\ q = 0%R
     | Ok rs => List.length rs = ch_accuracy ch /\ forall a, In a rs -> P1 a end)).
  { assert (A1 : always (weighted_sample ch rid ts C []) (if_ok P1)).
    { revert WG. apply always_imp. intros [[S' w]|e]; cbn; auto. }
    assert (A2 : always (weighted_sample ch rid ts C []) (fails (fun e => e = ValueError /\ q = 0%R))).
    { revert WG. apply always_imp. intros [[S' w]|e]; cbn; auto. }
    assert (A3 := always_srepeat _ _ (ch_accuracy ch) A1). assert (A4 := fails_srepeat _ _ (ch_accuracy ch) A2).
    generalize (always_and _ _ _ A3 A4). apply always_imp. intros [rs|e]; cbn; tauto. }
  unfold chain_simulate1. apply always_bind. revert RP. apply always_imp. intros [rs|e].
  2:{ intros X. exact X. }
  intros [LN HP].
  assert (IW : forall w, In w (map snd rs) -> w = xlog q).
  { intros w Hw. apply in_map_iff in Hw. destruct Hw as ([S' w'] & <- & Hr). apply (HP _ Hr). }
  assert (NE : map snd rs <> []) by (destruct rs; [cbn in LN; lia|discriminate]).
  destruct (Rle_lt_or_eq_dec _ _ NN) as [Pq|Zq].
  - replace (forallb is_inf (map snd rs)) with false.
    2:{ symmetry. destruct rs as [|[S' w] rs]; [cbn in NE; congruence|]. cbn [map forallb]. rewrite (IW (snd (S', w))) by now left.
        rewrite xlog_pos by exact Pq. reflexivity. }
    apply always_bind.
    assert (IX : always (if Nat.eqb (ch_accuracy ch) 1 then Ret (Ok 0%nat) else log_pflip (map snd rs))
       (fun r => exists i, r = Ok i /\ (i < List.length rs)%nat)).
    { destruct (Nat.eqb (ch_accuracy ch) 1) eqn:E1.
      - exists 0%nat. split; [reflexivity|lia].
      - generalize (choose_index (map snd rs) NE (ex_intro _ q (conj Pq IW))). rewrite map_length. auto. }
    revert IX. apply always_imp. intros r (i & -> & Li). cbn [always].
    destruct (nth_error rs i) as [[S' w]|] eqn:Ei; [|apply nth_error_None in Ei; lia].
    destruct (HP _ (nth_error_In _ _ Ei)) as (_ & D & -> & PD & SO). cbn [fst].
    destruct (select_ok ts (C ++ D) NT) as (s & ES & KS & LS).
    { intros k Hk. unfold keys. rewrite map_app. apply in_or_app. right. apply (Permutation_in _ (Permutation_sym PD)). exact Hk. }
    rewrite ES. split; [exact Pq|]. split; [exact KS|]. revert SO. apply (sample_ok_ext (CProd cs)).
    + constructor; [|exact ND]. intros c Hc. apply H. exact Hc.
    + intros k _. destruct (in_dec Z.eq_dec k ts) as [Hk|Hk].
      * rewrite (LS k Hk), lookup_app. replace (lookup k C) with (@None val); [reflexivity|]. symmetry. apply lookup_None. auto.
      * replace (lookup k s) with (@None val); [|symmetry; apply lookup_None; congruence]. apply lookup_None.
        intros X. apply Hk. apply (Permutation_in _ PD). exact X.
  - replace (forallb is_inf (map snd rs)) with true; [cbn; auto|]. symmetry. apply forallb_forall. intros w Hw. rewrite (IW w Hw).
    rewrite <- Zq, xlog_0. reflexivity.
Qed.

(** ** Order, arrays *)

Lemma owner_from_Some : forall ns i v j, owner_from i ns v = Some j ->
  (i <= j)%nat /\ exists n, nth_error ns (j - i) = Some n /\ In v (n_outs n).
Proof.
  induction ns as [|n ns IH]; intros i v j E; [discriminate|]. cbn [owner_from] in E. destruct (memb v (n_outs n)) eqn:M.
  - injection E as <-. apply memb_In in M. split; [lia|]. exists n. rewrite Nat.sub_diag. auto.
  - destruct (IH _ _ _ E) as (L & n' & E' & Hv). split; [lia|]. exists n'. replace (j - i)%nat with (S (j - S i)) by lia. auto.
Qed.

Lemma owner_is : forall ns v j m, NoDup (flat_map n_outs ns) -> nth_error ns j = Some m -> In v (n_outs m) -> owner ns v = Some j.
Proof.
  intros ns v j m ND Em Hv. unfold owner. destruct (owner_from 0 ns v) as [i|] eqn:E.
  - destruct (owner_from_Some _ _ _ _ E) as (_ & n & En & Hn). rewrite Nat.sub_0_r in En. f_equal.
    destruct (Nat.eq_dec i j) as [|N]; [auto|]. exfalso. exact (outs_disj n_outs ns i j n m v ND En Em N Hn Hv).
  - exfalso. apply owner_from_None in E. apply E. apply in_flat_map. exists m. eauto using nth_error_In.
Qed.

Lemma lookup_adjacency : forall ns i n, nth_error ns i = Some n -> lookup i (adjacency ns) = Some (parents ns n).
Proof.
  intros ns i n E. unfold adjacency. apply In_lookup.
  - change (NoDup (keys (adjacency ns))). rewrite keys_adjacency. apply seq_NoDup.
  - assert (G : forall (f : node -> list nat) l k j, nth_error l j = Some n -> In ((k + j)%nat, f n) (combine (seq k (List.length l)) (map f l))).
    { induction l as [|a l IH]; intros k j Ej; [destruct j; discriminate|]. destruct j as [|j]; cbn in Ej |- *.
      - injection Ej as ->. left. f_equal. lia.
      - right. replace (k + S j)%nat with (S k + j)%nat by lia. auto. }
    apply (G (parents ns) ns 0%nat i E).
Qed.

Lemma parent_before : forall ns topo, NoDup (flat_map n_outs ns) -> Permutation (seq 0 (List.length ns)) topo ->
  before (adjacency ns) topo ->
  forall l1 i l2 n v j m, topo = l1 ++ i :: l2 -> nth_error ns i = Some n -> In v (n_ins n) ->
    nth_error ns j = Some m -> In v (n_outs m) -> In j l1.
Proof.
  intros ns topo ND PM BF l1 i l2 n v j m E En Hv Em Ho.
  destruct (BF l1 i l2 E (parents ns n) j (lookup_adjacency _ _ _ En)) as [X|X]; [|exact X|].
  - unfold parents. apply dedup_In. apply in_flat_map. exists v. split; [exact Hv|]. rewrite (owner_is ns v j m ND Em Ho). now left.
  - exfalso. apply X. rewrite keys_adjacency. apply in_seq. split; [lia|]. apply nth_error_Some. congruence.
Qed.

Lemma array_keyerror : forall rid ts S ix base cs r2i w z,
  inputs base = [] -> NoDup (keys S) -> lookup ix S = Some z ->
  interd (outputs base) S <> [] -> interl (outputs base) ts <> [] ->
  logpdf (CFlexArr ix base cs r2i) rid (interd (outputs base) S) [] [(ix, z)] = Ok w ->
  (forall k c, In (k, c) cs -> creachable c) -> creachable base ->
  invoke rid (node_of (CFlexArr ix base cs r2i)) ts S [] = Ret (Err KeyError).
Proof.
  intros rid ts S ix base cs r2i w z IB NS Lz NC NT LP RC RB. unfold invoke, node_of. cbn [n_outs n_ins n_logpdf n_simulate n_left].
  cbn [outputs inputs]. rewrite IB.
  assert (J0 : merged (interd [ix] []) (interd [ix] S) = [(ix, z)]).
  { cbn [interd filter]. rewrite merged_nil_l by (rewrite keys_interd; apply NoDup_filter; exact NS). rewrite interd_single by exact NS. rewrite Lz. reflexivity. }
  rewrite J0. destruct (interd (outputs base) S) as [|p r]; [congruence|]. destruct (interl (outputs base) ts) as [|t tc]; [congruence|].
  cbn [forallb dmem lookup]. unfold dmem. cbn [lookup]. destruct (eq_dec ix ix) as [_|N]; [|congruence]. cbn [andb oassert]. rewrite LP.
  assert (L0 : left_over (CFlexArr ix base cs r2i) [(ix, z)] = []).
  { cbn [left_over lookup ddel]. destruct (eq_dec ix ix) as [_|N]; [|congruence].
    destruct (lookup z (map _ cs)) as [f|] eqn:E.
    - apply lookup_In in E. apply in_map_iff in E. destruct E as ([k c] & E & Hc). injection E as -> <-.
      apply left_over_wf. apply creachable_wf. eauto.
    - apply left_over_wf. apply creachable_wf. exact RB. }
  rewrite L0. reflexivity.
Qed.
