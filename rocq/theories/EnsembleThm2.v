(** Ensembles: proofs about calls on every chain. *)
From Coq Require Import List ZArith QArith Qcanon Reals Bool String Permutation Lia Lra.
From Verif Require Import Base Xr Samp Lgamma Prims Cgpm Lib SpecPrims PrimsInv SpecComp CompInv SimLaw ChainLaw
  SpecTable SpecHist Hist Views Ensemble SpecEnsemble.
Import ListNotations.
Local Open Scope Z_scope.

Lemma possible_some : forall {A} (m : samp A) (P : A -> Prop), possible m P <-> exists a, possible m (fun x => x = a) /\ P a.
Proof.
  intros A m P. split.
  - intros H. destruct (always_possible m _ _ (always_self m) H) as (a & H1 & H2). eauto.
  - intros (a & H1 & H2). eapply possible_imp; [|exact H1]. cbn. intros b ->. exact H2.
Qed.

(** [e'] can be left after successful calls on [e], one after the other. *)
Inductive ens_successively : list (ensemble -> samp (ensemble * out unit)) -> ensemble -> ensemble -> Prop :=
| ens_after_none : forall e, ens_successively [] e e
| ens_after_call : forall f fs e e1 e2, possible (f e) (fun r => r = (e1, Ok tt)) -> ens_successively fs e1 e2 ->
    ens_successively (f :: fs) e e2.

Lemma ens_calls_ok : forall fs e e', possible (ens_calls fs e) (fun r => r = (e', Ok tt)) <-> ens_successively fs e e'.
Proof.
  induction fs as [|f fs IH]; intros e e'; cbn [ens_calls].
  - cbn. split; [intros E; injection E as <-; constructor|intros S; now inversion S].
  - rewrite <- possible_bind, possible_some. split.
    + intros ([e1 [[]|x]] & H & H2); cbn [fst snd] in H2; [|discriminate]. econstructor; [exact H|]. now apply IH.
    + intros S. inversion S as [|? ? ? e1 ? H S']; subst. exists (e1, Ok tt). split; [exact H|]. now apply IH.
Qed.

(** ** Argument lists *)

Lemma oseq_all : forall {A B} (f : A -> out B) (g : A -> B) l, (forall a, In a l -> f a = Ok (g a)) -> oseq (map f l) = Ok (map g l).
Proof.
  intros A B f g l. induction l as [|a l IH]; intros H; cbn; [reflexivity|].
  rewrite (H a (or_introl eq_refl)), IH by (intros; apply H; now right). reflexivity.
Qed.

Lemma oseq_bad : forall {A B} (f : A -> out B) l x, (forall a, In a l -> f a = Err x \/ exists b, f a = Ok b) ->
  (exists a, In a l /\ f a = Err x) -> oseq (map f l) = Err x.
Proof.
  intros A B f l x. induction l as [|a l IH]; intros T (b & H & E); [destruct H|]. cbn.
  destruct (T a (or_introl eq_refl)) as [->|[c Ec]]; [reflexivity|]. rewrite Ec.
  rewrite IH; [reflexivity|intros; apply T; now right|]. destruct H as [->|H]; [congruence|eauto].
Qed.

Lemma zip_length : forall N ls, List.length (zip N ls) = N.
Proof. induction N as [|N IH]; intros ls; cbn; [reflexivity|]. now rewrite IH. Qed.

Lemma zip_nth : forall N ls i, (i < N)%nat -> nth_error (zip N ls) i = Some (map (fun l => nth i l ANone) ls).
Proof.
  induction N as [|N IH]; intros ls i L; [lia|]. destruct i as [|i]; cbn [zip nth_error].
  - f_equal. apply map_ext. now intros [|].
  - rewrite IH by lia. f_equal. rewrite map_map. apply map_ext. intros [|a l]; [destruct i; reflexivity|reflexivity].
Qed.

(** The argument of call number [i]. *)
Definition arg_at (i : nat) (a : option (list arg)) : arg := match a with Some l => nth i l ANone | None => ANone end.

Lemma args_list_ok : forall args N, (forall l, In (Some l) args -> List.length l = N) -> (exists l, In (Some l) args) ->
  exists L, make_args_list args = Ok L /\ List.length L = N /\ forall i, (i < N)%nat -> nth_error L i = Some (map (arg_at i) args).
Proof.
  intros args N H (l0 & H0). unfold make_args_list.
  set (Ns := flat_map (fun a : option (list arg) => match a with Some l => [List.length l] | None => [] end) args).
  assert (HN : forall n, In n Ns -> n = N).
  { intros n Hn. apply in_flat_map in Hn as ([l|] & Hl & Hn); [|destruct Hn]. destruct Hn as [<-|[]]. auto. }
  assert (H1 : In N Ns). { apply in_flat_map. exists (Some l0). split; [exact H0|]. left. auto. }
  destruct Ns as [|n Ns'] eqn:ENs; [destruct H1|]. assert (n = N) by (apply HN; now left). subst n.
  assert (F : forallb (fun n => Nat.eqb n N) (N :: Ns') = true).
  { apply forallb_forall. intros n Hn. apply Nat.eqb_eq. auto. }
  rewrite F. cbn [oassert obind].
  rewrite (oseq_all (listify N) (fun a => match a with Some l => l | None => repeat ANone N end)).
  - cbn [obind]. eexists. split; [reflexivity|]. split; [apply zip_length|]. intros i L. rewrite zip_nth by exact L. f_equal.
    rewrite map_map. apply map_ext. intros [l|]; [reflexivity|]. cbn [arg_at]. apply nth_repeat.
  - intros [l|] Hl; cbn; [|reflexivity]. rewrite (H l Hl), Nat.eqb_refl. reflexivity.
Qed.

Lemma args_list_bad : forall args l l', In (Some l) args -> In (Some l') args -> List.length l <> List.length l' ->
  make_args_list args = Err AssertionError.
Proof.
  intros args l l' H H' N. unfold make_args_list.
  set (Ns := flat_map (fun a : option (list arg) => match a with Some l => [List.length l] | None => [] end) args).
  assert (H1 : In (List.length l) Ns) by (apply in_flat_map; exists (Some l); split; [exact H|now left]).
  assert (H2 : In (List.length l') Ns) by (apply in_flat_map; exists (Some l'); split; [exact H'|now left]).
  destruct Ns as [|n Ns'] eqn:ENs; [destruct H1|].
  destruct (forallb (fun m => Nat.eqb m n) (n :: Ns')) eqn:F; [|reflexivity]. exfalso.
  rewrite forallb_forall in F. apply F, Nat.eqb_eq in H1. apply F, Nat.eqb_eq in H2. congruence.
Qed.

Lemma args_list_none : forall args, (forall l, ~ In (Some l) args) -> make_args_list args = Err IndexError.
Proof.
  intros args H. unfold make_args_list.
  assert (E : flat_map (fun a : option (list arg) => match a with Some l => [List.length l] | None => [] end) args = []).
  { induction args as [|[l|] args IH]; cbn; [reflexivity| |]; [exfalso; apply (H l); now left|]. apply IH. intros l Hl. apply (H l). now right. }
  rewrite E. reflexivity.
Qed.

(** ** Jobs *)

Lemma map_jobs_ok : forall {A} (jobs : list (job A)) cs l, possible (map_jobs jobs) (fun r => r = (cs, Ok l)) <->
  exists res, cs = map fst res /\ l = map snd res /\ Forall2 (fun j p => can (fst j) (snd j) (fst p) (snd p)) jobs res.
Proof.
  intros A jobs. induction jobs as [|[f c] jobs IH]; intros cs l; cbn [map_jobs].
  - cbn. split.
    + intros E. injection E as <- <-. exists []. auto.
    + intros (res & -> & -> & F). inversion F. reflexivity.
  - rewrite <- possible_bind, possible_some. split.
    + intros ([c' [a|x]] & H1 & H2); cbn [fst snd] in H2.
      * rewrite <- possible_bind, possible_some in H2. destruct H2 as ([cs' [l'|x]] & H2 & E); cbn in E; [|discriminate].
        injection E as <- <-. apply IH in H2 as (res & -> & -> & F). exists ((c', a) :: res). split; [reflexivity|]. split; [reflexivity|].
        constructor; [exact H1|exact F].
      * cbn in H2. discriminate.
    + intros (res & -> & -> & F). inversion F as [|? [c' a] ? res' H F']; subst. cbn [fst snd] in H. exists (c', Ok a).
      split; [exact H|]. cbn [fst snd]. apply possible_bind, possible_some. exists (map fst res', Ok (map snd res')).
      split; [|reflexivity]. apply IH. eauto.
Qed.

Lemma map_jobs_err : forall {A} (jobs : list (job A)) cs x, possible (map_jobs jobs) (fun r => r = (cs, Err x)) <->
  exists pre f c post res c', jobs = pre ++ (f, c) :: post /\ cs = map fst res ++ c' :: map snd post /\
    Forall2 (fun j (p : cgpm * A) => can (fst j) (snd j) (fst p) (snd p)) pre res /\ can_fail f c c' x.
Proof.
  intros A jobs. induction jobs as [|[f c] jobs IH]; intros cs x; cbn [map_jobs].
  - cbn. split; [discriminate|]. intros (pre & f & c & post & res & c' & E & _). destruct pre; discriminate.
  - rewrite <- possible_bind, possible_some. split.
    + intros ([c' [a|y]] & H1 & H2); cbn [fst snd] in H2.
      * rewrite <- possible_bind, possible_some in H2. destruct H2 as ([cs' [l'|y]] & H2 & E); cbn in E; [discriminate|].
        injection E as <- <-. apply IH in H2 as (pre & g & d & post & res & d' & -> & -> & F & H).
        exists ((f, c) :: pre), g, d, post, ((c', a) :: res), d'. split; [reflexivity|]. split; [reflexivity|]. split; [|exact H].
        constructor; [exact H1|exact F].
      * cbn in H2. injection H2 as <- <-. exists [], f, c, jobs, [], c'. repeat split; [constructor|exact H1].
    + intros (pre & g & d & post & res & d' & E & -> & F & H). destruct pre as [|[f0 c0] pre]; cbn in E.
      * injection E as -> -> ->. inversion F; subst. exists (d', Err x). split; [exact H|]. reflexivity.
      * injection E as -> -> ->. inversion F as [|? [c' a] ? res' H1 F']; subst. cbn [fst snd] in H1. exists (c', Ok a).
        split; [exact H1|]. cbn [fst snd]. apply possible_bind, possible_some.
        exists (map fst res' ++ d' :: map snd post, Err x). split; [|reflexivity]. apply IH.
        exists pre, g, d, post, res', d'. auto.
Qed.

Lemma run_jobs_possible : forall {A} (jobs : list (job A)) l, possible (run_jobs jobs) (fun r => r = l) <->
  Forall2 (fun j o => exists c', possible (fst j (snd j)) (fun r => r = (c', o))) jobs l.
Proof.
  intros A jobs. induction jobs as [|[f c] jobs IH]; intros l; cbn [run_jobs].
  - cbn. split; [intros <-; constructor|intros F; now inversion F].
  - rewrite <- possible_bind, possible_some. split.
    + intros ([c' o] & H1 & H2). rewrite <- possible_bind, possible_some in H2. destruct H2 as (l' & H2 & E). cbn in E. subst l.
      constructor; [exists c'; exact H1|]. now apply IH.
    + intros F. inversion F as [|? o ? l' (c' & H) F']; subst. exists (c', o). split; [exact H|].
      apply possible_bind, possible_some. exists l'. split; [now apply IH|reflexivity].
Qed.

Lemma oseq_Ok : forall {A} (l : list (out A)) r, oseq l = Ok r <-> l = map Ok r.
Proof.
  intros A. induction l as [|[a|e] l IH]; intros r; cbn.
  - split; [intros E; injection E as <-; reflexivity|destruct r; [reflexivity|discriminate]].
  - destruct (oseq l) as [r'|e] eqn:E.
    + assert (l = map Ok r') by (apply IH; reflexivity). subst l. split.
      * intros E'. injection E' as <-. reflexivity.
      * destruct r as [|a' r]; cbn; [discriminate|]. intros E'. injection E' as -> E'. f_equal. f_equal.
        enough (Ok r' = Ok r) by congruence. now apply IH.
    + split; [discriminate|]. destruct r as [|a' r]; cbn; [discriminate|]. intros E'. injection E' as -> E'.
      apply IH in E'. discriminate.
  - split; [discriminate|]. destruct r; discriminate.
Qed.

Lemma oseq_Err : forall {A} (l : list (out A)) x, oseq l = Err x -> In (Err x) l.
Proof.
  intros A. induction l as [|[a|e] l IH]; intros x; cbn; [discriminate| |].
  - destruct (oseq l) as [r'|e]; [discriminate|]. intros E. right. apply IH. congruence.
  - intros E. injection E as ->. now left.
Qed.

Lemma F2_map_r : forall {A B C} (P : A -> C -> Prop) (g : B -> C) l r, Forall2 P l (map g r) <-> Forall2 (fun a b => P a (g b)) l r.
Proof.
  intros A B C P g l. induction l as [|a l IH]; intros [|b r]; cbn; split; intros F; inversion F; subst; constructor; auto; apply IH; auto.
Qed.

Lemma F2_map_l : forall {A B C} (P : C -> B -> Prop) (g : A -> C) l r, Forall2 P (map g l) r <-> Forall2 (fun a b => P (g a) b) l r.
Proof.
  intros A B C P g l. induction l as [|a l IH]; intros [|b r]; cbn; split; intros F; inversion F; subst; constructor; auto; apply IH; auto.
Qed.

Lemma F2_len : forall {A B} (P : A -> B -> Prop) l r, Forall2 P l r -> List.length l = List.length r.
Proof. induction 1; cbn; congruence. Qed.

Lemma F2_imp : forall {A B} (P Q : A -> B -> Prop) l r, (forall a b, P a b -> Q a b) -> Forall2 P l r -> Forall2 Q l r.
Proof. induction 2; constructor; auto. Qed.

(** What [mapper] answers does not depend on whether there are worker processes. *)
Lemma mapper_ok : forall {A} mp (jobs : list (job A)) l, possible (mapper mp jobs) (fun r => snd r = Ok l) <->
  Forall2 (fun j a => exists c', can (fst j) (snd j) c' a) jobs l.
Proof.
  intros A mp jobs l. unfold mapper. destruct mp; cbn [negb].
  - rewrite <- possible_bind, possible_some. split.
    + intros (r & H & E). cbn in E. apply oseq_Ok in E. subst r. apply run_jobs_possible in H. now apply F2_map_r in H.
    + intros F. exists (map Ok l). split; [apply run_jobs_possible, F2_map_r; exact F|]. cbn. now apply oseq_Ok.
  - rewrite possible_some. split.
    + intros ([cs r] & H & E). cbn in E. subst r. apply map_jobs_ok in H as (res & -> & -> & F). apply F2_map_r.
      eapply F2_imp; [|exact F]. cbn. intros j p Hp. eauto.
    + intros F. assert (X : exists res, l = map snd res /\ Forall2 (fun j p => can (fst j) (snd j) (fst p) (snd p)) jobs res).
      { clear - F. induction F as [|j a jobs l (c' & H) F (res & -> & F')]; [exists []; auto|].
        exists ((c', a) :: res). split; [reflexivity|]. constructor; auto. }
      destruct X as (res & -> & F'). exists (map fst res, Ok (map snd res)). split; [|reflexivity]. apply map_jobs_ok. eauto.
Qed.

(** ** Ensembles *)

(** The jobs of an ensemble whose chains are all there. *)
Fixpoint jobs_from {A} (i : nat) (f : nat -> cgpm -> samp (cgpm * out A)) (cs : list cgpm) : list (job A) :=
  match cs with [] => [] | c :: cs' => (f i, c) :: jobs_from (S i) f cs' end.

Lemma jobs_whole : forall {A} e (f : nat -> cgpm -> samp (cgpm * out A)), whole e -> jobs_of e f = Ok (jobs_from 0 f (cgpms e)).
Proof.
  intros A e f W. unfold jobs_of. unfold whole in W. rewrite <- W.
  assert (G : forall l pre, oseq (map (fun chain => match nth_error (pre ++ l) chain with Some c => Ok (f chain, c) | None => Err IndexError end)
     (seq (List.length pre) (List.length l))) = Ok (jobs_from (List.length pre) f l)).
  { induction l as [|c l IH]; intros pre; cbn; [reflexivity|].
    rewrite nth_error_app2, Nat.sub_diag by lia. cbn [nth_error].
    specialize (IH (pre ++ [c])). rewrite app_length in IH. cbn in IH. rewrite Nat.add_1_r in IH. rewrite <- app_assoc in IH. cbn in IH.
    rewrite IH. reflexivity. }
  exact (G (cgpms e) []).
Qed.

Lemma jobs_const : forall {A} (f : cgpm -> samp (cgpm * out A)) cs i, jobs_from i (fun _ => f) cs = map (fun c => (f, c)) cs.
Proof. induction cs as [|c cs IH]; intros i; cbn; [reflexivity|]. now rewrite IH. Qed.

Lemma jobs_chains : forall {A} (f : nat -> cgpm -> samp (cgpm * out A)) cs i, map snd (jobs_from i f cs) = cs.
Proof. induction cs as [|c cs IH]; intros i; cbn; [reflexivity|]. now rewrite IH. Qed.

Lemma jobs_F2 : forall {A B} (f : nat -> cgpm -> samp (cgpm * out A)) (P : (cgpm -> samp (cgpm * out A)) -> cgpm -> B -> Prop) cs i l,
  Forall2 (fun j a => P (fst j) (snd j) a) (jobs_from i f cs) l <->
  List.length l = List.length cs /\ forall n c a, nth_error cs n = Some c -> nth_error l n = Some a -> P (f (i + n)%nat) c a.
Proof.
  intros A B f P. induction cs as [|c cs IH]; intros i l; cbn [jobs_from].
  - split.
    + intros F. inversion F. split; [reflexivity|]. intros [|n] c a E; discriminate E.
    + intros [L _]. destruct l; [constructor|discriminate].
  - destruct l as [|a l]; [split; [intros F; inversion F|intros [L _]; discriminate]|]. split.
    + intros F. inversion F as [|? ? ? ? H F']; subst. cbn [fst snd] in H. apply IH in F' as [L F']. split; [cbn; congruence|].
      intros [|n] c' a' E1 E2; cbn in E1, E2.
      * injection E1 as <-. injection E2 as <-. rewrite Nat.add_0_r. exact H.
      * replace (i + S n)%nat with (S i + n)%nat by lia. eauto.
    + intros [L F]. constructor; cbn [fst snd].
      * specialize (F O c a eq_refl eq_refl). rewrite Nat.add_0_r in F. exact F.
      * apply IH. split; [cbn in L; congruence|]. intros n c' a' E1 E2. replace (S i + n)%nat with (i + S n)%nat by lia. apply (F (S n)); auto.
Qed.

Lemma with_same : forall e, with_cgpms e (cgpms e) = e.
Proof. intros []; reflexivity. Qed.

Lemma with_same_but : forall e e' cs, same_but_chains e e' -> cgpms e' = cs -> e' = with_cgpms e cs.
Proof. intros [n o d c] [n' o' d' c'] cs (A & B & C) D. cbn in *. unfold with_cgpms. cbn. congruence. Qed.

Lemma ens_modify_ok : forall e mp f e', whole e ->
  (possible (ens_modify e mp f) (fun r => r = (e', Ok tt)) <->
   same_but_chains e e' /\ Forall2 (fun c c' => exists s, can f c s c') (cgpms e) (cgpms e')).
Proof.
  intros e mp f e' W. unfold ens_modify. rewrite jobs_whole by exact W. rewrite jobs_const. rewrite <- possible_bind. split.
  - intros H. apply possible_some in H as ([cs [l|x]] & H & E); cbn in E; [|discriminate]. assert (E' : with_cgpms e l = e') by congruence.
    subst e'. split; [repeat split|]. cbn [cgpms with_cgpms].
    assert (M : possible (mapper mp (map (fun c => (f, c)) (cgpms e))) (fun r => snd r = Ok l)) by (apply possible_some; exists (cs, Ok l); auto).
    apply mapper_ok in M. apply F2_map_l in M. exact M.
  - intros [S F]. assert (M : possible (mapper mp (map (fun c => (f, c)) (cgpms e))) (fun r => snd r = Ok (cgpms e'))).
    { apply mapper_ok. apply F2_map_l. exact F. }
    eapply possible_imp; [|exact M]. intros [cs r] E. cbn in E. subst r. cbn [snd possible]. f_equal. symmetry. now apply with_same_but.
Qed.

Lemma ens_modify_copies : forall e f, whole e ->
  always (ens_modify e true f) (fun r => forall x, snd r = Err x -> fst r = e /\ exists c s, In c (cgpms e) /\ can_fail f c s x).
Proof.
  intros e f W. unfold ens_modify. rewrite jobs_whole by exact W. rewrite jobs_const.
  set (jobs := map (fun c => (f, c)) (cgpms e)). cbn [mapper negb].
  apply always_bind. unfold mapper. cbn [negb]. apply always_bind.
  eapply always_imp; [|apply always_self]. intros l H. cbn [always fst snd].
  apply run_jobs_possible in H. destruct (oseq l) as [r|x] eqn:E; cbn [always fst snd].
  - intros x Ex. discriminate.
  - intros x' Ex. injection Ex as <-. split.
    + replace (map snd jobs) with (cgpms e) by (unfold jobs; rewrite map_map; cbn; symmetry; apply map_id).
      rewrite (skipn_all2 (cgpms e)) by (unfold whole in W; lia). rewrite app_nil_r. apply with_same.
    + apply oseq_Err in E. unfold jobs in H. apply F2_map_l in H. clear - H E.
      induction H as [|c o cs l (s & H) F IH]; [destruct E|]. destruct E as [->|E].
      * exists c, s. split; [now left|exact H].
      * destruct (IH E) as (c' & s' & A & B). exists c', s'. split; [now right|exact B].
Qed.

Lemma ens_modify_stops : forall e f e' x, whole e ->
  (possible (ens_modify e false f) (fun r => r = (e', Err x)) <->
   same_but_chains e e' /\ exists before c after before' c',
     cgpms e = before ++ c :: after /\ cgpms e' = before' ++ c' :: after /\
     Forall2 (fun d d' => exists a, can f d d' a) before before' /\ can_fail f c c' x).
Proof.
  intros e f e' x W. unfold ens_modify. rewrite jobs_whole by exact W. rewrite jobs_const. rewrite <- possible_bind.
  unfold mapper. cbn [negb].
  assert (SK : skipn (chains e) (cgpms e) = []) by (apply skipn_all2; unfold whole in W; lia). rewrite SK.
  split.
  - intros H. apply possible_some in H as ([cs [l|y]] & H & E); cbn [fst snd possible] in E; [discriminate|].
    rewrite app_nil_r in E. assert (E1 : with_cgpms e cs = e') by congruence. assert (y = x) by congruence. subst e' y.
    split; [repeat split|]. cbn [cgpms with_cgpms].
    apply map_jobs_err in H as (pre & g & c & post & res & c' & EJ & -> & F & HF).
    assert (EC : cgpms e = map snd pre ++ c :: map snd post).
    { assert (X := f_equal (map (@snd (cgpm -> samp (cgpm * out cgpm)) cgpm)) EJ). rewrite map_map, map_app in X. cbn [snd map] in X.
      rewrite map_id in X. exact X. }
    assert (EF : forall j, In j (pre ++ (g, c) :: post) -> fst j = f).
    { rewrite <- EJ. intros j Hj. apply in_map_iff in Hj as (d & <- & _). reflexivity. }
    exists (map snd pre), c, (map snd post), (map fst res), c'. split; [exact EC|]. split; [reflexivity|].
    assert (g = f) by (apply (EF (g, c)); apply in_or_app; right; now left). subst g. split; [|exact HF].
    apply F2_map_l, F2_map_r.
    assert (EP : forall j, In j pre -> fst j = f) by (intros j Hj; apply EF, in_or_app; now left).
    clear - F EP. induction F as [|j p pre res H F IH]; constructor.
    + exists (snd p). rewrite (EP j (or_introl eq_refl)) in H. exact H.
    + apply IH. intros k Hk. apply EP. now right.
  - intros [S (before & c & after & before' & c' & E1 & E2 & F & HF)].
    apply possible_some. exists (cgpms e', Err x). split.
    + apply map_jobs_err.
      assert (X : exists res, before' = map fst res /\ Forall2 (fun d (p : cgpm * cgpm) => can f d (fst p) (snd p)) before res).
      { clear - F. induction F as [|d d' l l' (a & H) F (res & -> & F')]; [exists []; auto|]. exists ((d', a) :: res). split; [reflexivity|].
        constructor; auto. }
      destruct X as (res & -> & F'). exists (map (fun c => (f, c)) before), f, c, (map (fun c => (f, c)) after), res, c'.
      split; [rewrite E1, map_app; reflexivity|]. split; [rewrite E2; do 2 f_equal; rewrite map_map; cbn; symmetry; apply map_id|].
      split; [apply F2_map_l; exact F'|exact HF].
    + cbn [fst snd possible]. rewrite app_nil_r. f_equal. symmetry. now apply with_same_but.
Qed.

Lemma can_modify : forall {A} (method : list arg -> cgpm -> samp (cgpm * out A)) args c s c',
  can (modify method args) c s c' <-> s = c' /\ exists a, can (method args) c c' a.
Proof.
  intros A method args c s c'. unfold can, modify. rewrite <- possible_bind. rewrite possible_some. split.
  - intros ([d [a|x]] & H & E); cbn in E; [|discriminate]. injection E as <- <-. split; [reflexivity|eauto].
  - intros (-> & a & H). exists (c', Ok a). split; [exact H|reflexivity].
Qed.

Lemma call_all_ok : forall {A} (method : list arg -> cgpm -> samp (cgpm * out A)) L c c' l,
  can (call_all method L) c c' l <-> successively (map method L) c c' l.
Proof.
  intros A method L. induction L as [|args L IH]; intros c c' l; unfold can; cbn [call_all map].
  - cbn. split; [intros E; injection E as <- <-; constructor|intros S; now inversion S].
  - rewrite <- possible_bind, possible_some. split.
    + intros ([c1 [a|x]] & H & H2); cbn [fst snd] in H2; [|discriminate].
      rewrite <- possible_bind, possible_some in H2. destruct H2 as ([c2 [r|x]] & H2 & E); cbn in E; [|discriminate].
      injection E as <- <-. econstructor; [exact H|]. now apply IH.
    + intros S. inversion S as [|? ? ? c1 ? a r H S']; subst. exists (c1, Ok a). split; [exact H|]. cbn [fst snd].
      apply possible_bind, possible_some. exists (c', Ok r). split; [now apply IH|reflexivity].
Qed.

Lemma can_modify_bulk : forall {A} (method : list arg -> cgpm -> samp (cgpm * out A)) args L c s c', make_args_list args = Ok L ->
  (can (modify_bulk method args) c s c' <-> s = c' /\ exists l, successively (map method L) c c' l).
Proof.
  intros A method args L c s c' E. unfold can, modify_bulk. rewrite E. rewrite <- possible_bind, possible_some. split.
  - intros ([d [l|x]] & H & E'); cbn in E'; [|discriminate]. injection E' as <- <-. split; [reflexivity|]. exists l. now apply call_all_ok.
  - intros (-> & l & H). exists (c', Ok l). split; [now apply call_all_ok|reflexivity].
Qed.

Lemma whole_after : forall e e' (P : cgpm -> cgpm -> Prop), whole e -> same_but_chains e e' -> Forall2 P (cgpms e) (cgpms e') -> whole e'.
Proof. intros e e' P W (S & _) F. unfold whole in *. rewrite S, <- W. symmetry. eapply F2_len; eauto. Qed.

Lemma bulk_successive : forall {A} (method : list arg -> cgpm -> samp (cgpm * out A)) args L e mp mp' e', whole e -> make_args_list args = Ok L ->
  (possible (ens_modify e mp (modify_bulk method args)) (fun r => r = (e', Ok tt)) <->
   possible (ens_calls (map (fun a d => ens_modify d mp' (modify method a)) L) e) (fun r => r = (e', Ok tt))).
Proof.
  intros A method args L e mp mp' e' W E. rewrite ens_calls_ok. rewrite ens_modify_ok by exact W.
  assert (B : Forall2 (fun c c' => exists s, can (modify_bulk method args) c s c') (cgpms e) (cgpms e') <->
              Forall2 (fun c c' => exists l, successively (map method L) c c' l) (cgpms e) (cgpms e')).
  { split; apply F2_imp; intros c c'.
    - intros (s & H). apply (can_modify_bulk method args L) in H as [_ H]; auto.
    - intros H. exists c'. apply (can_modify_bulk method args L); auto. }
  rewrite B. clear B E args. revert e W. induction L as [|a L IH]; intros e W; cbn [map].
  - split.
    + intros [S F]. assert (cgpms e' = cgpms e).
      { clear - F. induction F as [|c c' l l' (r & H) F IH]; [reflexivity|]. rewrite IH. inversion H. reflexivity. }
      rewrite (with_same_but e e' (cgpms e) S H), with_same. constructor.
    + intros S. inversion S; subst. split; [repeat split|]. clear. induction (cgpms e'); constructor; auto. exists []. constructor.
  - split.
    + intros [S F].
      assert (X : exists cs, Forall2 (fun c c1 => exists a', can (method a) c c1 a') (cgpms e) cs /\
         Forall2 (fun c c' => exists l, successively (map method L) c c' l) cs (cgpms e')).
      { clear - F. induction F as [|c c' l l' (r & H) F (cs & F1 & F2)]; [exists []; auto|].
        inversion H as [|? ? ? c1 ? a' r' H1 H2]; subst. exists (c1 :: cs). split; constructor; eauto. }
      destruct X as (cs & F1 & F2). set (e1 := with_cgpms e cs).
      assert (S1 : same_but_chains e e1) by (repeat split).
      assert (W1 : whole e1) by (eapply whole_after; [exact W|exact S1|exact F1]).
      econstructor; [|apply IH; [exact W1|]].
      * apply ens_modify_ok; [exact W|]. split; [exact S1|]. eapply F2_imp; [|exact F1]. intros c c1 H. exists c1. apply can_modify. auto.
      * split; [|exact F2]. exact S.
    + intros S. inversion S as [|? ? ? e1 ? H S']; subst. apply ens_modify_ok in H; [|exact W]. destruct H as [S1 F1].
      assert (W1 : whole e1) by (eapply whole_after; [exact W|exact S1|exact F1]).
      apply (IH e1 W1) in S' as [S2 F2]. split.
      { destruct S1 as (A1 & A2 & A3), S2 as (B1 & B2 & B3). repeat split; congruence. }
      clear - F1 F2. revert F2. generalize (cgpms e'). induction F1 as [|c c1 l l1 (s & H) F1 IH]; intros l' F2; inversion F2 as [|? c' ? l2 (r & H2) F2']; subst; constructor.
      * apply can_modify in H as (_ & a' & H). exists (a' :: r). econstructor; eauto.
      * apply IH. exact F2'.
Qed.
