(** Ensembles: proofs about queries, bulk calls from lists, and rejected arguments. *)
From Coq Require Import List ZArith QArith Qcanon Reals Bool String Permutation Lia Lra.
From Verif Require Import Base Xr Samp Lgamma Prims Cgpm Lib SpecPrims PrimsInv SpecComp CompInv SimLaw ChainLaw
  SpecTable SpecHist Hist Views Ensemble SpecEnsemble EnsembleThm2 EnsembleThm3.
Import ListNotations.
Local Open Scope nat_scope.

(** ** Queries without draws *)

Lemma map_pure : forall {A} (g : nat -> cgpm -> out A) cs i,
  map_jobs (jobs_from i (fun n c => Ret (c, g n c)) cs) = Ret (cs, oseq (map (fun p => g (fst p) (snd p)) (combine (seq i (List.length cs)) cs))).
Proof.
  intros A g. induction cs as [|c cs IH]; intros i; cbn [jobs_from map_jobs List.length seq combine map]; [reflexivity|].
  cbn [sbind snd fst]. destruct (g i c) as [a|x] eqn:E.
  - rewrite IH. cbn [sbind fst snd oseq obind]. reflexivity.
  - cbn [oseq obind]. rewrite jobs_chains. reflexivity.
Qed.

Lemma run_pure : forall {A} (g : nat -> cgpm -> out A) cs i,
  run_jobs (jobs_from i (fun n c => Ret (c, g n c)) cs) = Ret (map (fun p => g (fst p) (snd p)) (combine (seq i (List.length cs)) cs)).
Proof.
  intros A g. induction cs as [|c cs IH]; intros i; cbn [jobs_from run_jobs List.length seq combine map]; [reflexivity|].
  rewrite IH. reflexivity.
Qed.

Lemma whole_skip : forall e, whole e -> cgpms e ++ skipn (chains e) (cgpms e) = cgpms e.
Proof. intros e W. unfold whole in W. rewrite <- W, skipn_all. apply app_nil_r. Qed.

Lemma evaluate_pure : forall {A} e mp (g : nat -> cgpm -> out A), whole e ->
  ens_evaluate e mp (fun n c => Ret (c, g n c)) = Ret (e, oseq (map (fun p => g (fst p) (snd p)) (combine (seq 0 (chains e)) (cgpms e)))).
Proof.
  intros A e mp g W. unfold ens_evaluate. rewrite jobs_whole by exact W. unfold mapper.
  assert (E : forall r, with_cgpms e (cgpms e ++ skipn (chains e) (cgpms e)) = e /\ r = r :> out (list A)).
  { intros r. rewrite whole_skip by exact W. split; [apply with_same|reflexivity]. }
  destruct mp; cbn [negb].
  - rewrite run_pure. cbn [sbind fst snd]. rewrite jobs_chains, whole_skip, with_same by exact W. unfold whole in W. rewrite W. reflexivity.
  - rewrite map_pure. cbn [sbind fst snd]. rewrite whole_skip, with_same by exact W. unfold whole in W. rewrite W. reflexivity.
Qed.

Lemma enum_map : forall {A B} (g : A -> B) l i, map (fun p => g (snd p)) (combine (seq i (List.length l)) l) = map g l.
Proof. intros A B g. induction l as [|a l IH]; intros i; cbn; [reflexivity|]. now rewrite IH. Qed.

Lemma evaluate_each : forall {A} e mp (g : cgpm -> out A), whole e ->
  ens_evaluate e mp (fun _ c => Ret (c, g c)) = Ret (e, oseq (map g (cgpms e))).
Proof.
  intros A e mp g W. rewrite (evaluate_pure e mp (fun _ => g)) by exact W. unfold whole in W. rewrite <- W, enum_map. reflexivity.
Qed.

(** The same job given differently. *)
Lemma evaluate_same : forall {A} e mp (f g : nat -> cgpm -> samp (cgpm * out A)), (forall n c, f n c = g n c) -> whole e ->
  ens_evaluate e mp f = ens_evaluate e mp g.
Proof.
  intros A e mp f g H W. unfold ens_evaluate. rewrite !jobs_whole by exact W.
  assert (M1 : forall cs i, map_jobs (jobs_from i f cs) = map_jobs (jobs_from i g cs)).
  { induction cs as [|c cs IH]; intros i; cbn [jobs_from map_jobs]; [reflexivity|]. rewrite H, !jobs_chains, IH. reflexivity. }
  assert (M2 : forall cs i, run_jobs (jobs_from i f cs) = run_jobs (jobs_from i g cs)).
  { induction cs as [|c cs IH]; intros i; cbn [jobs_from run_jobs]; [reflexivity|]. rewrite H, IH. reflexivity. }
  unfold mapper. rewrite M1, M2, !jobs_chains. reflexivity.
Qed.

Lemma call_all_pure : forall {A} (g : list arg -> cgpm -> out A) L c,
  call_all (fun a c => Ret (c, g a c)) L c = Ret (c, oseq (map (fun a => g a c) L)).
Proof.
  intros A g. induction L as [|a L IH]; intros c; cbn [call_all map oseq]; [reflexivity|]. cbn [sbind fst snd].
  destruct (g a c) as [x|y]; [|reflexivity]. rewrite IH. reflexivity.
Qed.

(** ** Queries with draws *)

Lemma map_jobs_keep : forall {A} (jobs : list (job A)), (forall f c, In (f, c) jobs -> always (f c) (fun r => fst r = c)) ->
  always (map_jobs jobs) (fun r => fst r = map snd jobs).
Proof.
  intros A jobs. induction jobs as [|[f c] jobs IH]; intros H; cbn [map_jobs]; [reflexivity|].
  apply always_bind. eapply always_imp; [|exact (H f c (or_introl eq_refl))]. intros [c' [a|x]] E; cbn in E; subst c'; cbn [snd fst].
  - apply always_bind. eapply always_imp; [|apply IH; intros g d Hd; apply H; now right]. intros q Eq. cbn. now rewrite Eq.
  - reflexivity.
Qed.

Lemma evaluate_keeps : forall {A} e mp (f : nat -> cgpm -> samp (cgpm * out A)), whole e ->
  (forall n c, always (f n c) (fun r => fst r = c)) -> always (ens_evaluate e mp f) (fun r => fst r = e).
Proof.
  intros A e mp f W H. unfold ens_evaluate. rewrite jobs_whole by exact W. apply always_bind.
  assert (M : always (mapper mp (jobs_from 0 f (cgpms e))) (fun r => fst r = cgpms e)).
  { unfold mapper. destruct mp; cbn [negb].
    - apply always_bind. eapply always_imp; [|apply (always_self (run_jobs (jobs_from 0 f (cgpms e))))]. intros l _. cbn. apply jobs_chains.
    - eapply always_imp; [|apply map_jobs_keep].
      + intros r E. rewrite jobs_chains in E. exact E.
      + intros g c Hc. assert (X : exists n, g = f n).
        { clear - Hc. revert Hc. generalize 0. induction (cgpms e) as [|d cs IH]; intros i Hc; [destruct Hc|]. cbn in Hc. destruct Hc as [E|Hc]; [|eauto].
          injection E as <- <-. eauto. }
        destruct X as [n ->]. apply H. }
  eapply always_imp; [|exact M]. intros r E. cbn. rewrite E, whole_skip by exact W. apply with_same.
Qed.

Lemma evaluate_ok : forall {A} e mp (f : nat -> cgpm -> samp (cgpm * out A)) l, whole e ->
  (possible (ens_evaluate e mp f) (fun r => snd r = Ok l) <->
   List.length l = List.length (cgpms e) /\
   forall n c a, nth_error (cgpms e) n = Some c -> nth_error l n = Some a -> exists c', can (f n) c c' a).
Proof.
  intros A e mp f l W. unfold ens_evaluate. rewrite jobs_whole by exact W. rewrite <- possible_bind.
  pose proof (jobs_F2 f (fun g c (a : A) => exists c', can g c c' a) (cgpms e) 0 l) as J. cbn [Nat.add] in J.
  rewrite <- J. rewrite <- mapper_ok. cbn [possible fst snd]. split; apply possible_imp; intros r E; exact E.
Qed.

Lemma run_jobs_err : forall {A} (jobs : list (job A)) x, always (run_jobs jobs) (fun l => oseq l = Err x ->
  exists f c c', In (f, c) jobs /\ can_fail f c c' x).
Proof.
  intros A jobs x. apply (always_imp _ _ _ (fun l H => H)).
  eapply always_imp; [|apply always_self]. intros l H E. apply oseq_Err in E. apply run_jobs_possible in H.
  induction H as [|[f c] o jobs l (c' & Hc) F IH]; [destruct E|]. destruct E as [->|E].
  - exists f, c, c'. split; [now left|exact Hc].
  - destruct (IH E) as (g & d & d' & Hg & Hd). exists g, d, d'. split; [now right|exact Hd].
Qed.

(** A failing query is the failure of a chain. *)
Lemma evaluate_err : forall {A} e mp (f : nat -> cgpm -> samp (cgpm * out A)), whole e ->
  always (ens_evaluate e mp f) (fun r => forall x, snd r = Err x -> exists n c c', nth_error (cgpms e) n = Some c /\ can_fail (f n) c c' x).
Proof.
  intros A e mp f W. unfold ens_evaluate. rewrite jobs_whole by exact W. apply always_bind.
  assert (IN : forall g c, In (g, c) (jobs_from 0 f (cgpms e)) -> exists n, nth_error (cgpms e) n = Some c /\ g = f n).
  { intros g c Hc.
    assert (X : exists n, nth_error (cgpms e) n = Some c /\ g = f (0 + n)).
    { revert Hc. generalize 0. induction (cgpms e) as [|d cs IH]; intros i Hc; [destruct Hc|]. cbn in Hc. destruct Hc as [E|Hc].
      - injection E as <- <-. exists 0. rewrite Nat.add_0_r. auto.
      - destruct (IH (S i) Hc) as (n & E1 & E2). exists (S n). split; [exact E1|]. rewrite Nat.add_succ_r. exact E2. }
    exact X. }
  assert (M : always (mapper mp (jobs_from 0 f (cgpms e))) (fun r => forall x, snd r = Err x -> exists g c c', In (g, c) (jobs_from 0 f (cgpms e)) /\ can_fail g c c' x)).
  { unfold mapper. destruct mp; cbn [negb].
    - apply always_bind. eapply always_imp; [|apply always_self]. intros l H x E. cbn in E.
      destruct (always_possible _ _ _ (run_jobs_err (jobs_from 0 f (cgpms e)) x) H) as (l' & H1 & H2). subst l'. auto.
    - eapply always_imp; [|apply always_self]. intros [cs r] H x E. cbn in E. subst r. apply map_jobs_err in H as (pre & g & c & post & res & c' & E1 & _ & _ & Hf).
      exists g, c, c'. split; [|exact Hf]. rewrite E1. apply in_or_app. right. now left. }
  eapply always_imp; [|exact M]. intros r H x E. cbn in E. destruct (H x E) as (g & c & c' & Hg & Hf). destruct (IN g c Hg) as (n & En & ->). eauto.
Qed.

Lemma evaluate_law : forall {A} e mp (f : cgpm -> samp (cgpm * out A)) gs, whole e -> List.length gs = chains e ->
  ans (ens_evaluate e mp (fun _ => f)) (product_of gs) = rprod (map (fun p => ans (f (snd p)) (fst p)) (combine gs (cgpms e))).
Proof.
  intros A e mp f gs W L. rewrite ens_evaluate_nest by exact W. rewrite jobs_const. unfold whole in W.
  rewrite nest_product by (rewrite map_length; congruence). f_equal. revert gs L. rewrite <- W. clear. intros gs L.
  revert gs L. induction (cgpms e) as [|c cs IH]; intros [|g gs] L; try discriminate; cbn; [reflexivity|]. rewrite IH by (cbn in L; congruence). reflexivity.
Qed.

Lemma modify_law : forall {A} e mp (method : list arg -> cgpm -> samp (cgpm * out A)) args gs, whole e -> List.length gs = chains e ->
  hit (ens_modify e mp (modify method args)) (fun e' => product_of gs (cgpms e')) =
  rprod (map (fun p => hit (method args (snd p)) (fst p)) (combine gs (cgpms e))).
Proof.
  intros A e mp method args gs W L. rewrite ens_modify_nest by exact W. cbn [cgpms with_cgpms].
  change (fun cs => product_of gs cs) with (product_of gs).
  unfold whole in W. rewrite nest_product by (rewrite map_length; congruence). f_equal. revert gs L. rewrite <- W. clear. intros gs L.
  revert gs L. induction (cgpms e) as [|c cs IH]; intros [|g gs] L; try discriminate; cbn [combine map fst snd]; [reflexivity|].
  rewrite IH by (cbn in L; congruence). rewrite modify_ans. reflexivity.
Qed.

(** ** Arguments *)

(** Calls that all raise at once. *)
Lemma modify_raises : forall e mp (f : cgpm -> samp (cgpm * out cgpm)) x, whole e -> (0 < chains e) -> (forall c, f c = Ret (c, Err x)) ->
  ens_modify e mp f = Ret (e, Err x).
Proof.
  intros e mp f x W P H. unfold ens_modify. rewrite jobs_whole by exact W.
  assert (K : exists c cs, cgpms e = c :: cs) by (unfold whole in W; destruct (cgpms e); [cbn in W; lia|eauto]).
  destruct K as (c & cs & E). unfold mapper. rewrite jobs_const. destruct mp; cbn [negb].
  - assert (R : forall l, run_jobs (map (fun c => (f, c)) l) = Ret (map (fun _ => Err x) l)).
    { induction l as [|d l IH]; cbn [map run_jobs]; [reflexivity|]. rewrite H, IH. reflexivity. }
    rewrite R. cbn [sbind fst snd]. rewrite <- (jobs_const f (cgpms e) 0), jobs_chains, E. cbn [map oseq]. rewrite <- E, whole_skip, with_same by exact W. reflexivity.
  - rewrite E. cbn [map map_jobs]. rewrite H. cbn [sbind fst snd]. rewrite <- (jobs_const f cs 0), jobs_chains, <- E, whole_skip, with_same by exact W. reflexivity.
Qed.

Lemma evaluate_raises : forall {A} e mp (f : nat -> cgpm -> samp (cgpm * out A)) x, whole e -> (0 < chains e) -> (forall n c, f n c = Ret (c, Err x)) ->
  ens_evaluate e mp f = Ret (e, Err x).
Proof.
  intros A e mp f x W P H. rewrite (evaluate_same e mp f (fun _ c => Ret (c, Err x)) H W). rewrite (evaluate_each e mp (fun _ => Err x) W).
  unfold whole in W. destruct (cgpms e); [cbn in W; lia|]. reflexivity.
Qed.

Lemma hetero_bad : forall {A B} (none : A) e args mp (f : list A -> cgpm -> samp (cgpm * out B)) l, In (Some l) args -> List.length l <> chains e ->
  heterogeneous none e args mp f = Ret (e, Err AssertionError).
Proof.
  intros A B none e args mp f l H N. unfold heterogeneous.
  rewrite (oseq_bad (process_heterogeneous none e) args AssertionError); [reflexivity| |].
  - intros [k|] _; unfold process_heterogeneous.
    + destruct (Nat.eqb (List.length k) (chains e)); [right; eexists; reflexivity|left; reflexivity].
    + rewrite repeat_length, Nat.eqb_refl. right. eexists. reflexivity.
  - exists (Some l). split; [exact H|]. unfold process_heterogeneous. destruct (Nat.eqb_spec (List.length l) (chains e)); [contradiction|reflexivity].
Qed.

Lemma hetero_good : forall {A B} (none : A) e args mp (f : list A -> cgpm -> samp (cgpm * out B)), (forall l, In (Some l) args -> List.length l = chains e) ->
  heterogeneous none e args mp f =
  ens_evaluate e mp (fun n => f (map (fun a => nth n (match a with Some l => l | None => repeat none (chains e) end) none) args)).
Proof.
  intros A B none e args mp f H. unfold heterogeneous.
  rewrite (oseq_all (process_heterogeneous none e) (fun a => match a with Some l => l | None => repeat none (chains e) end)).
  - assert (E : forall n, map (fun l => nth n l none) (map (fun a => match a with Some l => l | None => repeat none (chains e) end) args) =
       map (fun a => nth n (match a with Some l => l | None => repeat none (chains e) end) none) args) by (intros n; apply map_map).
    assert (X : jobs_of e (fun chain => f (map (fun l => nth chain l none) (map (fun a => match a with Some l => l | None => repeat none (chains e) end) args))) =
                jobs_of e (fun chain => f (map (fun a => nth chain (match a with Some l => l | None => repeat none (chains e) end) none) args))).
    { unfold jobs_of. f_equal. apply map_ext. intros n. rewrite E. reflexivity. }
    unfold ens_evaluate. rewrite X. reflexivity.
  - intros [l|] Hl; unfold process_heterogeneous.
    + rewrite (H l Hl), Nat.eqb_refl. reflexivity.
    + rewrite repeat_length, Nat.eqb_refl. reflexivity.
Qed.

(** ** From lists *)

Lemma nth_error_ext' : forall {A} (l l' : list A), List.length l = List.length l' ->
  (forall i, i < List.length l -> nth_error l i = nth_error l' i) -> l = l'.
Proof.
  intros A. induction l as [|a l IH]; intros [|b l'] L H; try discriminate; [reflexivity|].
  assert (E := H 0 ltac:(cbn; lia)). cbn in E. injection E as ->. f_equal. apply IH; [cbn in L; congruence|].
  intros i Li. apply (H (S i)). cbn. lia.
Qed.

(** The inputs of call [i]. *)
Definition ins_at (ins : option (list row)) (i : nat) : arg :=
  match ins with None => ANone | Some l => ADict (nth i l []) end.

Lemma observe_args : forall rowids observations (ins : option (list row)),
  List.length observations = List.length rowids -> (forall l, ins = Some l -> List.length l = List.length rowids) ->
  make_args_list [Some (map AInt rowids); Some (map ADict observations); option_map (map ADict) ins] =
  Ok (map (fun p => [AInt (fst (snd p)); ADict (snd (snd p)); ins_at ins (fst p)])
        (combine (seq 0 (List.length rowids)) (combine rowids observations))).
Proof.
  intros rowids observations ins L LI.
  set (args := [Some (map AInt rowids); Some (map ADict observations); option_map (map ADict) ins]).
  destruct (args_list_ok args (List.length rowids)) as (A & E & LA & HA).
  - intros l [X|[X|[X|[]]]]; [injection X as <-; apply map_length|injection X as <-; rewrite map_length; exact L|].
    destruct ins as [k|]; [|discriminate]. injection X as <-. rewrite map_length. auto.
  - eexists. left. reflexivity.
  - rewrite E. f_equal. apply nth_error_ext'.
    + rewrite map_length, !combine_length, seq_length, L, !Nat.min_id. exact LA.
    + intros i Li. rewrite LA in Li. rewrite HA by exact Li.
      assert (N1 : exists r, nth_error rowids i = Some r) by (destruct (nth_error rowids i) eqn:X; [eauto|apply nth_error_None in X; lia]).
      assert (N2 : exists o, nth_error observations i = Some o) by (destruct (nth_error observations i) eqn:X; [eauto|apply nth_error_None in X; lia]).
      destruct N1 as [r Hr], N2 as [o Ho].
      assert (C : nth_error (combine (seq 0 (List.length rowids)) (combine rowids observations)) i = Some (i, (r, o))).
      { clear E HA LI. revert Hr Ho. assert (Z : i = 0 + i) by reflexivity. revert Z. generalize 0 at 1 2. intros k Z.
        replace (Some (i, (r, o))) with (Some (k + i, (r, o))) by (f_equal; f_equal; lia).
        assert (G : forall rs os k i, nth_error rs i = Some r -> nth_error os i = Some o ->
           nth_error (combine (seq k (List.length rs)) (combine rs os)) i = Some (k + i, (r, o))).
        { clear. induction rs as [|a rs IH]; intros [|b os] k [|i] H1 H2; cbn in *; try discriminate.
          - injection H1 as <-. injection H2 as <-. rewrite Nat.add_0_r. reflexivity.
          - rewrite IH by assumption. f_equal. f_equal. lia. }
        intros Hr Ho. exact (G _ _ k i Hr Ho). }
      rewrite (map_nth_error _ _ _ C). cbn [fst snd]. f_equal. unfold args. cbn [map]. 
      assert (A1 : arg_at i (Some (map AInt rowids)) = AInt r) by (apply nth_error_nth; now apply map_nth_error).
      assert (A2 : arg_at i (Some (map ADict observations)) = ADict o) by (apply nth_error_nth; now apply map_nth_error).
      rewrite A1, A2. f_equal. f_equal. f_equal. destruct ins as [l|]; [|reflexivity]. cbn [option_map ins_at].
      specialize (LI l eq_refl). unfold arg_at. rewrite (nth_indep _ ANone (ADict [])) by (rewrite map_length; lia). apply map_nth.
Qed.

Lemma unobserve_args : forall rowids, make_args_list [Some (map AInt rowids)] = Ok (map (fun r => [AInt r]) rowids).
Proof.
  intros rowids. destruct (args_list_ok [Some (map AInt rowids)] (List.length rowids)) as (A & E & LA & HA).
  - intros l [X|[]]. injection X as <-. apply map_length.
  - eexists. left. reflexivity.
  - rewrite E. f_equal. apply nth_error_ext'; [rewrite map_length; exact LA|]. intros i Li. rewrite LA in Li. rewrite HA by exact Li.
    destruct (nth_error rowids i) as [r|] eqn:X; [|apply nth_error_None in X; lia]. rewrite (map_nth_error _ _ _ X). cbn [map]. f_equal. f_equal.
    apply nth_error_nth. now apply map_nth_error.
Qed.

(** The arguments of calls given in columns, some of which are not given. *)
Lemma args_of_calls : forall {B} (fs : list (option (B -> arg))) (calls : list B), (exists f, In (Some f) fs) ->
  make_args_list (map (option_map (fun f => map f calls)) fs) =
  Ok (map (fun p => map (fun f : option (B -> arg) => match f with Some g => g p | None => ANone end) fs) calls).
Proof.
  intros B fs calls (f0 & H0). destruct (args_list_ok (map (option_map (fun f => map f calls)) fs) (List.length calls)) as (A & E & LA & HA).
  - intros l H. apply in_map_iff in H as ([f|] & X & _); cbn in X; [|discriminate]. injection X as <-. apply map_length.
  - exists (map f0 calls). apply in_map_iff. exists (Some f0). split; [reflexivity|exact H0].
  - rewrite E. f_equal. apply nth_error_ext'; [rewrite map_length; exact LA|]. intros i Li. rewrite LA in Li. rewrite HA by exact Li.
    destruct (nth_error calls i) as [p|] eqn:X; [|apply nth_error_None in X; lia]. rewrite (map_nth_error _ _ _ X). f_equal. rewrite map_map.
    apply map_ext. intros [f|]; [|reflexivity]. cbn. apply (nth_error_nth _ _ ANone). apply map_nth_error. exact X.
Qed.
