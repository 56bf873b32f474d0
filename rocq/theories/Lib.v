(** Lemmas about the basic vocabulary: dictionaries, sorting, rationals. *)
From Coq Require Import List ZArith QArith Qcanon Qreals Reals Bool String Permutation Sorted Lia Lra.
From Verif Require Import Base Xr.
Import ListNotations.
Local Open Scope Z_scope.

(** ** Decidable equality and membership *)

Lemma eqb_true : forall {A} `{EqDec A} (x y : A), eqb x y = true <-> x = y.
Proof. intros A E x y. unfold eqb. destruct (eq_dec x y); split; intros; congruence. Qed.

Lemma eqb_false : forall {A} `{EqDec A} (x y : A), eqb x y = false <-> x <> y.
Proof. intros A E x y. unfold eqb. destruct (eq_dec x y); split; intros; congruence. Qed.

Lemma eqb_refl : forall {A} `{EqDec A} (x : A), eqb x x = true.
Proof. intros. apply eqb_true. reflexivity. Qed.

Lemma memb_In : forall {A} `{EqDec A} (x : A) l, memb x l = true <-> In x l.
Proof.
  intros A E x l. induction l as [|y l IH]; cbn [memb In].
  - split; [discriminate|tauto].
  - destruct (eq_dec x y) as [->|n].
    + split; auto.
    + rewrite IH. split; [auto|]. intros [H|H]; [congruence|assumption].
Qed.

Lemma memb_false : forall {A} `{EqDec A} (x : A) l, memb x l = false <-> ~ In x l.
Proof.
  intros A E x l. rewrite <- memb_In. destruct (memb x l); split; intros; congruence.
Qed.

(** ** Dictionaries *)

Section Dict.
Context {K V : Type} `{EqDec K}.
Implicit Types (d : dict K V) (k : K) (v : V).

Lemma lookup_None : forall d k, lookup k d = None <-> ~ In k (keys d).
Proof.
  induction d as [|[k' v'] d IH]; intros k; cbn [lookup keys map fst In].
  - split; auto.
  - destruct (eq_dec k k') as [->|n].
    + split; [discriminate|]. intros C. exfalso. apply C. auto.
    + rewrite IH. unfold keys. split.
      * intros C [D|D]; [congruence|auto].
      * intros C D. apply C. auto.
Qed.

Lemma lookup_In : forall d k v, lookup k d = Some v -> In (k, v) d.
Proof.
  induction d as [|[k' v'] d IH]; intros k v; cbn [lookup].
  - discriminate.
  - destruct (eq_dec k k') as [->|n].
    + intros E. injection E as ->. left. reflexivity.
    + intros E. right. apply IH. assumption.
Qed.

Lemma lookup_Some_keys : forall d k v, lookup k d = Some v -> In k (keys d).
Proof. intros d k v E. apply lookup_In in E. apply (in_map fst) in E. exact E. Qed.

Lemma In_lookup : forall d k v, NoDup (keys d) -> In (k, v) d -> lookup k d = Some v.
Proof.
  induction d as [|[k' v'] d IH]; intros k v ND I; cbn [lookup].
  - destruct I.
  - inversion ND as [|? ? N1 N2]; subst.
    destruct I as [I|I].
    + injection I as -> ->. destruct (eq_dec k k); congruence.
    + destruct (eq_dec k k') as [->|n].
      * exfalso. apply N1. apply (in_map fst) in I. exact I.
      * apply IH; assumption.
Qed.

Lemma lookup_keys : forall d k, In k (keys d) -> exists v, lookup k d = Some v.
Proof.
  intros d k I. destruct (lookup k d) as [v|] eqn:E; [eauto|].
  apply lookup_None in E. contradiction.
Qed.

Lemma dmem_true : forall d k, dmem k d = true <-> In k (keys d).
Proof.
  intros d k. unfold dmem. destruct (lookup k d) as [v|] eqn:E.
  - apply lookup_Some_keys in E. tauto.
  - apply lookup_None in E. split; [discriminate|contradiction].
Qed.

Lemma dmem_false : forall d k, dmem k d = false <-> lookup k d = None.
Proof. intros d k. unfold dmem. destruct (lookup k d); split; congruence. Qed.

Lemma lookup_app : forall d1 d2 k,
  lookup k (d1 ++ d2) = match lookup k d1 with Some v => Some v | None => lookup k d2 end.
Proof.
  induction d1 as [|[k' v'] d1 IH]; intros d2 k; cbn [lookup app]; [reflexivity|].
  destruct (eq_dec k k'); auto.
Qed.

Lemma lookup_dset_eq : forall d k v, lookup k (dset k v d) = Some v.
Proof.
  induction d as [|[k' v'] d IH]; intros k v; cbn [dset lookup].
  - destruct (eq_dec k k); congruence.
  - destruct (eq_dec k k') as [->|n]; cbn [lookup].
    + destruct (eq_dec k' k'); congruence.
    + destruct (eq_dec k k'); [congruence|apply IH].
Qed.

Lemma lookup_dset_neq : forall d k k' v, k <> k' -> lookup k (dset k' v d) = lookup k d.
Proof.
  induction d as [|[k2 v2] d IH]; intros k k' v N; cbn [dset lookup].
  - destruct (eq_dec k k'); congruence.
  - destruct (eq_dec k' k2) as [->|n]; cbn [lookup].
    + destruct (eq_dec k k2); congruence.
    + destruct (eq_dec k k2); [reflexivity|apply IH; assumption].
Qed.

Lemma lookup_dset : forall d k k' v,
  lookup k (dset k' v d) = if eq_dec k k' then Some v else lookup k d.
Proof.
  intros d k k' v. destruct (eq_dec k k') as [->|n].
  - apply lookup_dset_eq.
  - apply lookup_dset_neq; assumption.
Qed.

Lemma dset_fresh : forall d k v, lookup k d = None -> dset k v d = d ++ [(k, v)].
Proof.
  induction d as [|[k' v'] d IH]; intros k v E; cbn [dset app lookup] in *; [reflexivity|].
  destruct (eq_dec k k') as [->|n]; [discriminate|].
  rewrite IH by assumption. reflexivity.
Qed.

Lemma dset_same : forall d k v, lookup k d = Some v -> dset k v d = d.
Proof.
  induction d as [|[k' v'] d IH]; intros k v E; cbn [dset lookup] in *; [discriminate|].
  destruct (eq_dec k k') as [->|n].
  - congruence.
  - rewrite IH by assumption. reflexivity.
Qed.

Lemma dset_dset : forall d k v v', dset k v (dset k v' d) = dset k v d.
Proof.
  induction d as [|[k2 v2] d IH]; intros k v v'; cbn [dset].
  - destruct (eq_dec k k); congruence.
  - destruct (eq_dec k k2) as [->|n]; cbn [dset].
    + destruct (eq_dec k2 k2); congruence.
    + destruct (eq_dec k k2); [congruence|]. rewrite IH. reflexivity.
Qed.

Lemma keys_dset_mem : forall d k v, In k (keys d) -> keys (dset k v d) = keys d.
Proof.
  induction d as [|[k' v'] d IH]; intros k v I; cbn [dset keys map fst] in *; [destruct I|].
  destruct (eq_dec k k') as [->|n]; cbn [map fst]; [reflexivity|].
  f_equal. apply IH. destruct I; [congruence|assumption].
Qed.

Lemma keys_dset_fresh : forall d k v, ~ In k (keys d) -> keys (dset k v d) = keys d ++ [k].
Proof.
  intros d k v I. rewrite dset_fresh by (apply lookup_None; assumption).
  unfold keys. rewrite map_app. reflexivity.
Qed.

Lemma keys_dset_In : forall d k v x, In x (keys (dset k v d)) <-> x = k \/ In x (keys d).
Proof.
  intros d k v x. destruct (in_dec eq_dec k (keys d)) as [I|I].
  - rewrite keys_dset_mem by assumption. split; [auto|]. intros [->|J]; auto.
  - rewrite keys_dset_fresh by assumption. rewrite in_app_iff. cbn [In].
    split; [intros [J|[J|[]]]; auto|]. intros [J|J]; auto.
Qed.

Lemma NoDup_app_one : forall (l : list K) k, NoDup l -> ~ In k l -> NoDup (l ++ [k]).
Proof.
  intros l k ND N. apply Permutation_NoDup with (l := k :: l).
  - apply Permutation_cons_append.
  - constructor; assumption.
Qed.

Lemma NoDup_keys_dset : forall d k v, NoDup (keys d) -> NoDup (keys (dset k v d)).
Proof.
  intros d k v ND. destruct (in_dec eq_dec k (keys d)) as [I|I].
  - rewrite keys_dset_mem by assumption. assumption.
  - rewrite keys_dset_fresh by assumption. apply NoDup_app_one; assumption.
Qed.

Lemma ddel_absent : forall d k, lookup k d = None -> ddel k d = d.
Proof.
  induction d as [|[k' v'] d IH]; intros k E; cbn [ddel lookup] in *; [reflexivity|].
  destruct (eq_dec k k'); [discriminate|]. rewrite IH by assumption. reflexivity.
Qed.

Lemma keys_ddel_sub : forall d k x, In x (keys (ddel k d)) -> In x (keys d).
Proof.
  induction d as [|[k' v'] d IH]; intros k x I; cbn [ddel keys map fst] in *; [assumption|].
  destruct (eq_dec k k'); cbn [map fst In] in *; [auto|].
  destruct I as [I|I]; [auto|]. right. eapply IH. exact I.
Qed.

Lemma NoDup_keys_ddel : forall d k, NoDup (keys d) -> NoDup (keys (ddel k d)).
Proof.
  induction d as [|[k' v'] d IH]; intros k ND; cbn [ddel keys map fst] in *; [assumption|].
  inversion ND as [|? ? N1 N2]; subst.
  destruct (eq_dec k k'); [assumption|].
  cbn [map fst]. constructor; [|apply IH; assumption].
  intros C. apply N1. eapply keys_ddel_sub. exact C.
Qed.

Lemma lookup_ddel_neq : forall d k k', k <> k' -> lookup k (ddel k' d) = lookup k d.
Proof.
  induction d as [|[k2 v2] d IH]; intros k k' N; cbn [ddel lookup]; [reflexivity|].
  destruct (eq_dec k' k2) as [->|n]; cbn [lookup].
  - destruct (eq_dec k k2); congruence.
  - destruct (eq_dec k k2); [reflexivity|apply IH; assumption].
Qed.

Lemma lookup_ddel_eq : forall d k, NoDup (keys d) -> lookup k (ddel k d) = None.
Proof.
  induction d as [|[k2 v2] d IH]; intros k ND; cbn [ddel lookup]; [reflexivity|].
  inversion ND as [|? ? N1 N2]; subst.
  destruct (eq_dec k k2) as [->|n]; cbn [lookup].
  - apply lookup_None. assumption.
  - destruct (eq_dec k k2); [congruence|apply IH; assumption].
Qed.

Lemma lookup_ddel : forall d k k', NoDup (keys d) ->
  lookup k (ddel k' d) = if eq_dec k k' then None else lookup k d.
Proof.
  intros d k k' ND. destruct (eq_dec k k') as [->|n].
  - apply lookup_ddel_eq; assumption.
  - apply lookup_ddel_neq; assumption.
Qed.

Lemma keys_ddel_In : forall d k x, NoDup (keys d) ->
  (In x (keys (ddel k d)) <-> x <> k /\ In x (keys d)).
Proof.
  intros d k x ND. split.
  - intros I. split; [|eapply keys_ddel_sub; exact I].
    intros ->. apply (lookup_ddel_eq d k) in ND. apply lookup_None in ND. contradiction.
  - intros [N I]. apply lookup_keys in I. destruct I as [v E].
    rewrite <- (lookup_ddel_neq d x k) in E by assumption.
    eapply lookup_Some_keys. exact E.
Qed.

Lemma ddel_app_fresh : forall d k v, lookup k d = None -> ddel k (d ++ [(k, v)]) = d.
Proof.
  induction d as [|[k' v'] d IH]; intros k v E; cbn [ddel lookup app] in *.
  - destruct (eq_dec k k); congruence.
  - destruct (eq_dec k k'); [discriminate|]. rewrite IH by assumption. reflexivity.
Qed.

Lemma ddel_dset_fresh : forall d k v, lookup k d = None -> ddel k (dset k v d) = d.
Proof. intros d k v E. rewrite dset_fresh by assumption. apply ddel_app_fresh; assumption. Qed.

Lemma ddel_perm : forall d k v, lookup k d = Some v -> Permutation d ((k, v) :: ddel k d).
Proof.
  induction d as [|[k' v'] d IH]; intros k v E; cbn [ddel lookup] in *; [discriminate|].
  destruct (eq_dec k k') as [->|n].
  - injection E as ->. reflexivity.
  - rewrite perm_swap. constructor. apply IH. assumption.
Qed.

Lemma dset_perm_mem : forall d k v v', lookup k d = Some v ->
  Permutation (dset k v' d) ((k, v') :: ddel k d).
Proof.
  induction d as [|[k' w] d IH]; intros k v v' E; cbn [dset ddel lookup] in *; [discriminate|].
  destruct (eq_dec k k') as [->|n].
  - reflexivity.
  - rewrite perm_swap. constructor. eapply IH. exact E.
Qed.

Lemma keys_perm : forall d1 d2 : dict K V, Permutation d1 d2 -> Permutation (keys d1) (keys d2).
Proof. intros. apply Permutation_map. assumption. Qed.

Lemma lookup_perm : forall d1 d2 : dict K V, Permutation d1 d2 -> NoDup (keys d1) ->
  forall k, lookup k d1 = lookup k d2.
Proof.
  intros d1 d2 P ND k.
  assert (ND2 : NoDup (keys d2)) by (eapply Permutation_NoDup; [apply keys_perm; exact P|assumption]).
  destruct (lookup k d1) as [v|] eqn:E.
  - symmetry. apply In_lookup; [assumption|].
    eapply Permutation_in; [exact P|]. apply lookup_In. assumption.
  - symmetry. apply lookup_None. apply lookup_None in E. intros C. apply E.
    eapply Permutation_in; [symmetry; apply keys_perm; exact P|assumption].
Qed.

Lemma dict_ext_perm : forall d1 d2 : dict K V, NoDup (keys d1) -> NoDup (keys d2) ->
  (forall k, lookup k d1 = lookup k d2) -> Permutation d1 d2.
Proof.
  intros d1 d2 N1 N2 E.
  assert (ND : forall d : dict K V, NoDup (keys d) -> NoDup d).
  { intros d Hd. eapply NoDup_map_inv. exact Hd. }
  apply NoDup_Permutation; [auto|auto|].
  intros [k v]. split; intros I.
  - apply lookup_In. rewrite <- E. apply In_lookup; assumption.
  - apply lookup_In. rewrite E. apply In_lookup; assumption.
Qed.

Lemma NoDup_keys_app_one : forall d k v, NoDup (keys d) -> lookup k d = None ->
  NoDup (keys (d ++ [(k, v)])).
Proof.
  intros d k v ND E. unfold keys. rewrite map_app. apply NoDup_app_one; [assumption|].
  apply lookup_None. assumption.
Qed.

End Dict.

Lemma lookup_map : forall {K V W} `{EqDec K} (f : V -> W) (d : dict K V) k,
  lookup k (map (fun p => (fst p, f (snd p))) d) = option_map f (lookup k d).
Proof.
  intros K V W E f d k. induction d as [|[k' v'] d IH]; cbn [map lookup fst snd]; [reflexivity|].
  destruct (eq_dec k k'); [reflexivity|assumption].
Qed.

Lemma keys_map : forall {K V W} (f : V -> W) (d : dict K V),
  keys (map (fun p => (fst p, f (snd p))) d) = keys d.
Proof. intros. unfold keys. rewrite map_map. apply map_ext. reflexivity. Qed.

Lemma ddel_map : forall {K V W} `{EqDec K} (f : V -> W) (d : dict K V) k,
  ddel k (map (fun p => (fst p, f (snd p))) d) = map (fun p => (fst p, f (snd p))) (ddel k d).
Proof.
  intros K V W E f d k. induction d as [|[k' v'] d IH]; cbn [map ddel fst snd]; [reflexivity|].
  destruct (eq_dec k k'); [reflexivity|]. cbn [map fst snd]. rewrite IH. reflexivity.
Qed.

Lemma dset_map : forall {K V W} `{EqDec K} (f : V -> W) (d : dict K V) k v,
  dset k (f v) (map (fun p => (fst p, f (snd p))) d) = map (fun p => (fst p, f (snd p))) (dset k v d).
Proof.
  intros K V W E f d k v. induction d as [|[k' v'] d IH]; cbn [map dset fst snd]; [reflexivity|].
  destruct (eq_dec k k'); [reflexivity|]. cbn [map fst snd]. rewrite IH. reflexivity.
Qed.

(** A dictionary with exactly one key. *)
Lemma keys_single : forall {V} (d : dict Z V) o, keys d = [o] -> exists v, d = [(o, v)].
Proof.
  intros V [|[k v] [|p d]] o E; cbn in E; try discriminate.
  injection E as ->. eauto.
Qed.

(** [merged] and [mergedl] by lookup. *)
Lemma lookup_fold_dset : forall {K V} `{EqDec K} (b a : dict K V) k, NoDup (keys b) ->
  lookup k (fold_left (fun d kv => dset (fst kv) (snd kv) d) b a)
  = match lookup k b with Some v => Some v | None => lookup k a end.
Proof.
  intros K V E b. induction b as [|[k' v'] b IH]; intros a k ND; cbn [fold_left lookup fst snd].
  - reflexivity.
  - inversion ND as [|? ? N1 N2]; subst. rewrite IH by assumption.
    destruct (eq_dec k k') as [->|n].
    + assert (L : lookup k' b = None) by (apply lookup_None; assumption).
      rewrite L. apply lookup_dset_eq.
    + destruct (lookup k b); [reflexivity|]. apply lookup_dset_neq; assumption.
Qed.

Lemma NoDup_fold_dset : forall {K V} `{EqDec K} (b a : dict K V), NoDup (keys a) ->
  NoDup (keys (fold_left (fun d kv => dset (fst kv) (snd kv) d) b a)).
Proof.
  intros K V E b. induction b as [|[k v] b IH]; intros a ND; cbn [fold_left fst snd]; [assumption|].
  apply IH. apply NoDup_keys_dset. assumption.
Qed.

Lemma fold_dset_fresh : forall {K V} `{EqDec K} (b a : dict K V), NoDup (keys b) ->
  (forall k, In k (keys b) -> ~ In k (keys a)) ->
  fold_left (fun d kv => dset (fst kv) (snd kv) d) b a = a ++ b.
Proof.
  intros K V E b. induction b as [|[k v] b IH]; intros a ND D; cbn [fold_left fst snd].
  - rewrite app_nil_r. reflexivity.
  - inversion ND as [|? ? N1 N2]; subst.
    rewrite IH.
    + rewrite dset_fresh; [rewrite <- app_assoc; reflexivity|].
      apply lookup_None. apply D. left. reflexivity.
    + assumption.
    + intros k' I C. apply keys_dset_In in C. destruct C as [->|C].
      * contradiction.
      * apply (D k'); [right; assumption|assumption].
Qed.

Lemma merged_nil_r : forall {K V} `{EqDec K} (a : dict K V), NoDup (keys a) -> merged a [] = a.
Proof.
  intros K V E a ND. unfold merged. cbn [fold_left].
  rewrite fold_dset_fresh; [reflexivity|assumption|]. intros k _ [].
Qed.

Lemma merged_nil_l : forall {K V} `{EqDec K} (a : dict K V), NoDup (keys a) -> merged [] a = a.
Proof.
  intros K V E a ND. unfold merged. cbn [fold_left].
  rewrite fold_dset_fresh; [reflexivity|assumption|]. intros k _ [].
Qed.

Lemma merged_disj : forall {K V} `{EqDec K} (a b : dict K V), NoDup (keys a) -> NoDup (keys b) ->
  (forall k, In k (keys b) -> ~ In k (keys a)) -> merged a b = a ++ b.
Proof.
  intros K V E a b NA NB D. unfold merged.
  rewrite (fold_dset_fresh a []) by (try assumption; intros k _ []).
  apply fold_dset_fresh; assumption.
Qed.

Lemma lookup_merged : forall {K V} `{EqDec K} (a b : dict K V) k, NoDup (keys a) -> NoDup (keys b) ->
  lookup k (merged a b) = match lookup k b with Some v => Some v | None => lookup k a end.
Proof.
  intros K V E a b k NA NB. unfold merged. rewrite lookup_fold_dset by assumption.
  destruct (lookup k b); [reflexivity|]. rewrite lookup_fold_dset by assumption.
  destruct (lookup k a); reflexivity.
Qed.

Lemma NoDup_merged : forall {K V} `{EqDec K} (a b : dict K V), NoDup (keys (merged a b)).
Proof.
  intros. unfold merged. apply NoDup_fold_dset. apply NoDup_fold_dset. constructor.
Qed.

(** [interd] *)
Lemma In_interd : forall {V} l (d : dict Z V) k v, In (k, v) (interd l d) <-> In (k, v) d /\ In k l.
Proof. intros. unfold interd. rewrite filter_In. cbn [fst]. rewrite memb_In. reflexivity. Qed.

Lemma keys_interd : forall {V} l (d : dict Z V),
  keys (interd l d) = filter (fun k => memb k l) (keys d).
Proof.
  intros V l d. induction d as [|[k v] d IH]; [reflexivity|].
  unfold interd, keys in *. cbn [filter map fst]. destruct (memb k l); cbn [map fst]; rewrite ?IH; reflexivity.
Qed.

Lemma In_keys_interd : forall {V} l (d : dict Z V) k,
  In k (keys (interd l d)) <-> In k (keys d) /\ In k l.
Proof. intros. rewrite keys_interd, filter_In, memb_In. reflexivity. Qed.

Lemma NoDup_keys_interd : forall {V} l (d : dict Z V), NoDup (keys d) -> NoDup (keys (interd l d)).
Proof. intros. rewrite keys_interd. apply NoDup_filter. assumption. Qed.

Lemma lookup_interd : forall {V} l (d : dict Z V) k,
  lookup k (interd l d) = if memb k l then lookup k d else None.
Proof.
  intros V l d k. induction d as [|[k' v] d IH]; cbn [interd filter lookup fst].
  - destruct (memb k l); reflexivity.
  - unfold interd in IH.
    destruct (memb k' l) eqn:M; cbn [lookup].
    + destruct (eq_dec k k') as [->|n]; [rewrite M; reflexivity|exact IH].
    + rewrite IH. destruct (eq_dec k k') as [->|n]; [rewrite M; reflexivity|reflexivity].
Qed.

(** ** Sorting integers *)

Lemma zinsert_perm : forall x l, Permutation (zinsert x l) (x :: l).
Proof.
  intros x l. induction l as [|y l IH]; cbn [zinsert]; [reflexivity|].
  destruct (x <=? y); [reflexivity|]. rewrite IH. apply perm_swap.
Qed.

Lemma zsort_perm : forall l, Permutation (zsort l) l.
Proof.
  induction l as [|x l IH]; cbn [zsort]; [reflexivity|].
  rewrite zinsert_perm. constructor. assumption.
Qed.

Lemma zinsert_sorted : forall x l, StronglySorted Z.le l -> StronglySorted Z.le (zinsert x l).
Proof.
  intros x l S. induction S as [|y l S IH F]; cbn [zinsert].
  - repeat constructor.
  - destruct (x <=? y) eqn:E.
    + apply Z.leb_le in E. constructor; [constructor; assumption|].
      constructor; [assumption|]. rewrite Forall_forall in *. intros z Hz. specialize (F z Hz). lia.
    + apply Z.leb_gt in E. constructor; [assumption|].
      rewrite Forall_forall in *. intros z Hz.
      eapply Permutation_in in Hz; [|apply zinsert_perm].
      destruct Hz as [<-|Hz]; [lia|auto].
Qed.

Lemma zsort_sorted : forall l, StronglySorted Z.le (zsort l).
Proof. induction l; cbn [zsort]; [constructor|apply zinsert_sorted; assumption]. Qed.

Lemma sorted_perm_eq : forall l1 l2, StronglySorted Z.le l1 -> StronglySorted Z.le l2 ->
  Permutation l1 l2 -> l1 = l2.
Proof.
  intros l1. induction l1 as [|x l1 IH]; intros l2 S1 S2 P.
  - apply Permutation_nil in P. auto.
  - destruct l2 as [|y l2]; [symmetry in P; apply Permutation_nil in P; discriminate|].
    inversion S1 as [|? ? S1' F1]; inversion S2 as [|? ? S2' F2]; subst.
    assert (x = y).
    { assert (I1 : In x (y :: l2)) by (eapply Permutation_in; [exact P|left; reflexivity]).
      assert (I2 : In y (x :: l1)) by (eapply Permutation_in; [symmetry; exact P|left; reflexivity]).
      rewrite Forall_forall in *.
      destruct I1 as [->|I1]; [reflexivity|]. destruct I2 as [->|I2]; [reflexivity|].
      specialize (F1 _ I2). specialize (F2 _ I1). lia. }
    subst y. f_equal. apply IH; try assumption. apply Permutation_cons_inv in P. assumption.
Qed.

Lemma zsort_unique : forall l1 l2, Permutation l1 l2 -> zsort l1 = zsort l2.
Proof.
  intros l1 l2 P. apply sorted_perm_eq; try apply zsort_sorted.
  rewrite !zsort_perm. assumption.
Qed.

Lemma zmax_ge : forall l x, x <= zmax x l /\ forall y, In y l -> y <= zmax x l.
Proof.
  unfold zmax. induction l as [|z l IH]; intros x; cbn [fold_left In].
  - split; [lia|tauto].
  - destruct (IH (Z.max x z)) as [A B]. split; [lia|].
    intros y [->|I]; [lia|auto].
Qed.

Lemma zmax_In : forall l x, In (zmax x l) (x :: l).
Proof.
  unfold zmax. induction l as [|z l IH]; intros x; cbn [fold_left].
  - left. reflexivity.
  - specialize (IH (Z.max x z)). cbn [In] in *.
    destruct IH as [E|I]; [|auto].
    rewrite <- E. destruct (Z.max_spec x z) as [[_ ->]|[_ ->]]; auto.
Qed.

Lemma zrange_In : forall n x, In x (zrange n) <-> 0 <= x < Z.of_nat n.
Proof.
  intros n x. unfold zrange. rewrite in_map_iff. split.
  - intros [i [<- I]]. apply in_seq in I. lia.
  - intros H. exists (Z.to_nat x). split; [lia|]. apply in_seq. lia.
Qed.

Lemma zrange_NoDup : forall n, NoDup (zrange n).
Proof.
  intros n. unfold zrange. apply FinFun.Injective_map_NoDup; [|apply seq_NoDup].
  intros a b E. lia.
Qed.

Lemma zrange_length : forall n, List.length (zrange n) = n.
Proof. intros. unfold zrange. rewrite map_length, seq_length. reflexivity. Qed.

Lemma zsum_perm : forall l1 l2, Permutation l1 l2 -> zsum l1 = zsum l2.
Proof. intros l1 l2 P. induction P; cbn [zsum fold_right] in *; unfold zsum in *; lia. Qed.

Lemma zsum_app : forall l1 l2, zsum (l1 ++ l2) = zsum l1 + zsum l2.
Proof. induction l1; intros; cbn [app zsum fold_right] in *; unfold zsum in *; [lia|rewrite IHl1; lia]. Qed.

Lemma qsum_perm : forall l1 l2, Permutation l1 l2 -> qsum l1 = qsum l2.
Proof.
  intros l1 l2 P. induction P; unfold qsum in *; cbn [fold_right]; try congruence.
  ring.
Qed.

Lemma qsum_app : forall l1 l2, qsum (l1 ++ l2) = (qsum l1 + qsum l2)%Qc.
Proof.
  induction l1; intros; unfold qsum in *; cbn [app fold_right]; [ring|]. rewrite IHl1. ring.
Qed.

Lemma dedup_In : forall {A} `{EqDec A} (l : list A) x, In x (dedup l) <-> In x l.
Proof.
  intros A E l x. induction l as [|y l IH]; cbn [dedup In]; [reflexivity|].
  rewrite filter_In, IH. split.
  - intros [->|[I _]]; auto.
  - intros [->|I]; auto. destruct (eq_dec y x) as [->|n]; auto.
    right. split; [assumption|]. apply negb_true_iff. apply eqb_false. assumption.
Qed.

Lemma dedup_NoDup : forall {A} `{EqDec A} (l : list A), NoDup (dedup l).
Proof.
  intros A E l. induction l as [|y l IH]; cbn [dedup]; constructor.
  - rewrite filter_In. intros [_ C]. rewrite eqb_refl in C. discriminate.
  - apply NoDup_filter. assumption.
Qed.

Lemma dedup_NoDup_id : forall {A} `{EqDec A} (l : list A), NoDup l -> dedup l = l.
Proof.
  intros A E l ND. induction ND as [|x l N ND IH]; cbn [dedup]; [reflexivity|].
  rewrite IH. f_equal. clear - N. induction l as [|y l IH]; cbn [filter]; [reflexivity|].
  cbn [In] in N. destruct (eqb x y) eqn:B.
  - apply eqb_true in B. subst. exfalso. apply N. auto.
  - cbn [negb]. rewrite IH; auto.
Qed.

Lemma dedup_length_le : forall {A} `{EqDec A} (l : list A), (List.length (dedup l) <= List.length l)%nat.
Proof.
  intros A E l. apply NoDup_incl_length; [apply dedup_NoDup|].
  intros x. rewrite dedup_In. auto.
Qed.

Lemma filter_length_le' : forall {A} (f : A -> bool) l, (List.length (filter f l) <= List.length l)%nat.
Proof. intros A f l. induction l; cbn [filter List.length]; [lia|]. destruct (f a); cbn [List.length]; lia. Qed.

Lemma dedup_length_NoDup : forall {A} `{EqDec A} (l : list A),
  List.length (dedup l) = List.length l -> NoDup l.
Proof.
  intros A E l L. induction l as [|x l IH]; constructor; cbn [dedup List.length] in L;
    pose proof (filter_length_le' (fun y => negb (eqb x y)) (dedup l));
    pose proof (dedup_length_le l).
  - intros I. apply dedup_In in I.
    assert (X : (List.length (filter (fun y => negb (eqb x y)) (dedup l)) < List.length (dedup l))%nat).
    { clear - I. induction (dedup l) as [|y m IHm]; [destruct I|].
      cbn [filter List.length].
      pose proof (filter_length_le' (fun y => negb (eqb x y)) m).
      destruct I as [->|I].
      - rewrite eqb_refl. cbn [negb]. lia.
      - destruct (eqb x y); cbn [negb List.length]; specialize (IHm I); lia. }
    lia.
  - apply IH. lia.
Qed.

(** ** Exact rationals *)

Lemma Qc_eq_Q : forall a b : Qc, (this a == this b)%Q -> a = b.
Proof. intros. apply Qc_is_canon. assumption. Qed.

Lemma qz_add : forall a b, qz (a + b) = (qz a + qz b)%Qc.
Proof.
  intros. apply Qc_is_canon. unfold qz. cbn [this Q2Qc Qcplus].
  rewrite !Qred_correct. rewrite inject_Z_plus. reflexivity.
Qed.

Lemma qz_opp : forall a, qz (- a) = (- qz a)%Qc.
Proof.
  intros. apply Qc_is_canon. unfold qz. cbn [this Q2Qc Qcopp].
  rewrite !Qred_correct. rewrite inject_Z_opp. reflexivity.
Qed.

Lemma qz_sub : forall a b, qz (a - b) = (qz a - qz b)%Qc.
Proof. intros. unfold Z.sub. rewrite qz_add, qz_opp. reflexivity. Qed.

Lemma qz_mul : forall a b, qz (a * b) = (qz a * qz b)%Qc.
Proof.
  intros. apply Qc_is_canon. unfold qz. cbn [this Q2Qc Qcmult].
  rewrite !Qred_correct. rewrite inject_Z_mult. reflexivity.
Qed.

Lemma this_qz : forall z, this (qz z) = inject_Z z.
Proof.
  intros. unfold qz. cbn [this Q2Qc]. unfold inject_Z.
  apply Qred_iff. cbn [Qnum Qden]. apply Z.gcd_1_r.
Qed.

Lemma qz_0 : qz 0 = 0%Qc.
Proof. apply Qc_is_canon. reflexivity. Qed.
Lemma qz_1 : qz 1 = 1%Qc.
Proof. apply Qc_is_canon. reflexivity. Qed.

Lemma qz_inj : forall a b, qz a = qz b -> a = b.
Proof.
  intros a b E. apply (f_equal this) in E. rewrite !this_qz in E.
  unfold inject_Z in E. congruence.
Qed.

Lemma vz_inj : forall a b, vz a = vz b -> a = b.
Proof. intros a b E. apply qz_inj. unfold vz in E. congruence. Qed.

Lemma trunc_qz : forall z, trunc (qz z) = z.
Proof. intros. unfold trunc. rewrite this_qz. cbn [Qnum Qden inject_Z]. apply Z.quot_1_r. Qed.

Lemma is_int_qz : forall z, is_int (qz z) = true.
Proof. intros. unfold is_int. rewrite this_qz. reflexivity. Qed.

Lemma is_int_spec : forall q, is_int q = true <-> q = qz (trunc q).
Proof.
  intros q. split.
  - unfold is_int. intros E. apply Pos.eqb_eq in E.
    apply Qc_is_canon. rewrite this_qz. unfold trunc. rewrite E.
    rewrite Z.quot_1_r. unfold inject_Z, Qeq. cbn [Qnum Qden]. rewrite E. reflexivity.
  - intros E. rewrite E. apply is_int_qz.
Qed.

Local Open Scope R_scope.

Lemma qr_add : forall a b, qr (a + b)%Qc = qr a + qr b.
Proof.
  intros. unfold qr. cbn [this Qcplus Q2Qc]. rewrite (Qeq_eqR _ _ (Qred_correct _)). apply Q2R_plus.
Qed.
Lemma qr_opp : forall a, qr (- a)%Qc = - qr a.
Proof.
  intros. unfold qr. cbn [this Qcopp Q2Qc]. rewrite (Qeq_eqR _ _ (Qred_correct _)). apply Q2R_opp.
Qed.
Lemma qr_sub : forall a b, qr (a - b)%Qc = qr a - qr b.
Proof. intros. unfold Qcminus. rewrite qr_add, qr_opp. reflexivity. Qed.
Lemma qr_mul : forall a b, qr (a * b)%Qc = qr a * qr b.
Proof.
  intros. unfold qr. cbn [this Qcmult Q2Qc]. rewrite (Qeq_eqR _ _ (Qred_correct _)). apply Q2R_mult.
Qed.
Lemma qr_qz : forall z, qr (qz z) = IZR z.
Proof. intros. unfold qr. rewrite this_qz. unfold Q2R, inject_Z. cbn [Qnum Qden]. rewrite Rinv_1. ring. Qed.
Lemma qr_0 : qr 0%Qc = 0.
Proof. rewrite <- qz_0, qr_qz. reflexivity. Qed.
Lemma qr_1 : qr 1%Qc = 1.
Proof. rewrite <- qz_1, qr_qz. reflexivity. Qed.
Lemma qr_inj : forall a b, qr a = qr b -> a = b.
Proof. intros a b E. apply Qc_is_canon. apply eqR_Qeq. exact E. Qed.
Lemma qr_lt : forall a b, (a < b)%Qc <-> qr a < qr b.
Proof.
  intros a b. unfold qr, Qclt. split; [apply Qlt_Rlt|apply Rlt_Qlt].
Qed.
Lemma qr_le : forall a b, (a <= b)%Qc <-> qr a <= qr b.
Proof.
  intros a b. unfold qr, Qcle. split; [apply Qle_Rle|apply Rle_Qle].
Qed.
Lemma qr_inv : forall a, a <> 0%Qc -> qr (/ a)%Qc = / qr a.
Proof.
  intros a N. unfold qr. cbn [this Qcinv Q2Qc]. rewrite (Qeq_eqR _ _ (Qred_correct _)).
  apply Q2R_inv. intros E. apply N. apply Qc_is_canon. rewrite E. reflexivity.
Qed.
Lemma qr_div : forall a b, b <> 0%Qc -> qr (a / b)%Qc = qr a / qr b.
Proof. intros. unfold Qcdiv. rewrite qr_mul, qr_inv by assumption. reflexivity. Qed.

Lemma qltb_true : forall a b, qltb a b = true <-> qr a < qr b.
Proof.
  intros a b. unfold qltb. destruct (Qclt_le_dec a b) as [L|L].
  - rewrite <- qr_lt. tauto.
  - apply qr_le in L. split; [discriminate|]. intros. lra.
Qed.
Lemma qltb_false : forall a b, qltb a b = false <-> qr b <= qr a.
Proof.
  intros a b. unfold qltb. destruct (Qclt_le_dec a b) as [L|L].
  - apply qr_lt in L. split; [discriminate|]. intros. lra.
  - rewrite <- qr_le. tauto.
Qed.
Lemma qleb_true : forall a b, qleb a b = true <-> qr a <= qr b.
Proof. intros. unfold qleb. rewrite negb_true_iff. apply qltb_false. Qed.

Lemma pylog_ok : forall q, 0 < qr q -> pylog q = Ok (ln (qr q)).
Proof.
  intros q L. unfold pylog. replace (qltb 0%Qc q) with true; [reflexivity|].
  symmetry. apply qltb_true. rewrite qr_0. assumption.
Qed.

Lemma pylog_inv : forall q r, pylog q = Ok r -> 0 < qr q /\ r = ln (qr q).
Proof.
  intros q r. unfold pylog. destruct (qltb 0%Qc q) eqn:E; [|discriminate].
  intros H. injection H as <-. apply qltb_true in E. rewrite qr_0 in E. auto.
Qed.

Lemma cat_range_int : forall q (k : Z), q = qz (trunc q) ->
  (qr 0%Qc <= qr q /\ qr q < qr (qz k)) <-> (0 <= trunc q < k)%Z.
Proof.
  intros q k E. rewrite E at 1 2. rewrite qr_0, !qr_qz.
  split.
  - intros [A B]. apply le_IZR in A. apply lt_IZR in B. lia.
  - intros [A B]. split; [apply IZR_le; assumption|apply IZR_lt; assumption].
Qed.

(** ** Real sums *)

Lemma rsum_app : forall l1 l2, rsum (l1 ++ l2) = rsum l1 + rsum l2.
Proof. induction l1; intros; unfold rsum in *; cbn [app fold_right]; [lra|]. rewrite IHl1. lra. Qed.

Lemma rsum_perm : forall l1 l2, Permutation l1 l2 -> rsum l1 = rsum l2.
Proof. intros l1 l2 P. induction P; unfold rsum in *; cbn [fold_right]; lra. Qed.

Lemma rprod_app : forall l1 l2, rprod (l1 ++ l2) = rprod l1 * rprod l2.
Proof. induction l1; intros; unfold rprod in *; cbn [app fold_right]; [lra|]. rewrite IHl1. ring. Qed.

Lemma rprod_perm : forall l1 l2, Permutation l1 l2 -> rprod l1 = rprod l2.
Proof. intros l1 l2 P. induction P; unfold rprod in *; cbn [fold_right]; try congruence. ring. Qed.

Lemma rsum_scal : forall {A} (f : A -> R) c l, rsum (map (fun x => c * f x) l) = c * rsum (map f l).
Proof. intros A f c l. induction l; unfold rsum in *; cbn [map fold_right]; [lra|]. rewrite IHl. lra. Qed.

Lemma rsum_div : forall {A} (f : A -> R) c l, rsum (map (fun x => f x / c) l) = rsum (map f l) / c.
Proof.
  intros A f c l. unfold Rdiv. rewrite Rmult_comm, <- rsum_scal. f_equal. apply map_ext.
  intros. apply Rmult_comm.
Qed.

Lemma rsum_add : forall {A} (f g : A -> R) l,
  rsum (map (fun x => f x + g x) l) = rsum (map f l) + rsum (map g l).
Proof. intros A f g l. induction l; unfold rsum in *; cbn [map fold_right]; [lra|]. rewrite IHl. lra. Qed.

Lemma rsum_nonneg : forall l, (forall x, In x l -> 0 <= x) -> 0 <= rsum l.
Proof.
  induction l as [|x l IH]; intros H; unfold rsum in *; cbn [fold_right]; [lra|].
  pose proof (H x (or_introl eq_refl)). assert (0 <= fold_right Rplus 0 l) by (apply IH; intros; apply H; right; assumption).
  lra.
Qed.

Lemma rsum_ge : forall l x, (forall y, In y l -> 0 <= y) -> In x l -> x <= rsum l.
Proof.
  induction l as [|y l IH]; intros x H I; [destruct I|].
  unfold rsum; cbn [fold_right]; fold (rsum l).
  pose proof (H y (or_introl eq_refl)).
  assert (P : 0 <= rsum l) by (apply rsum_nonneg; intros; apply H; right; assumption).
  destruct I as [->|I]; [lra|]. specialize (IH x (fun y J => H y (or_intror J)) I). lra.
Qed.

Lemma rsum_IZR : forall l, rsum (map IZR l) = IZR (zsum l).
Proof. induction l; unfold rsum, zsum in *; cbn [map fold_right]; [reflexivity|]. rewrite IHl, plus_IZR. reflexivity. Qed.

Lemma rsum_const : forall {A} (l : list A) c, rsum (map (fun _ => c) l) = INR (List.length l) * c.
Proof.
  intros A l c. induction l; unfold rsum in *; cbn [map fold_right List.length]; [cbn; lra|].
  rewrite IHl, S_INR. lra.
Qed.

Lemma rsum_zero : forall l, (forall x, In x l -> x = 0) -> rsum l = 0.
Proof.
  induction l as [|x l IH]; intros H; unfold rsum in *; cbn [fold_right]; [reflexivity|].
  rewrite (H x), IH; [lra| |left; reflexivity]. intros; apply H; right; assumption.
Qed.

Lemma rsum_ext : forall {A} (f g : A -> R) l, (forall x, In x l -> f x = g x) -> rsum (map f l) = rsum (map g l).
Proof. intros A f g l H. f_equal. apply map_ext_in. assumption. Qed.

Lemma rprod_pos : forall l, (forall x, In x l -> 0 < x) -> 0 < rprod l.
Proof.
  induction l as [|x l IH]; intros H; unfold rprod in *; cbn [fold_right]; [lra|].
  apply Rmult_lt_0_compat; [apply H; left; reflexivity|apply IH; intros; apply H; right; assumption].
Qed.

(** ** out *)

Lemma oseq_ok : forall {A} (l : list A), oseq (map Ok l) = Ok l.
Proof. intros A l. induction l; cbn [map oseq]; [reflexivity|]. rewrite IHl. reflexivity. Qed.

Lemma oseq_map_ok : forall {A B} (f : A -> out B) (g : A -> B) l,
  (forall x, In x l -> f x = Ok (g x)) -> oseq (map f l) = Ok (map g l).
Proof.
  intros A B f g l H. induction l as [|x l IH]; cbn [map oseq]; [reflexivity|].
  rewrite (H x (or_introl eq_refl)), IH; [reflexivity|]. intros; apply H; right; assumption.
Qed.

Lemma oseq_inv : forall {A} (l : list (out A)) r, oseq l = Ok r -> l = map Ok r.
Proof.
  intros A l. induction l as [|[a|e] l IH]; intros r E; cbn [oseq] in E.
  - injection E as <-. reflexivity.
  - destruct (oseq l) as [r'|e']; [|discriminate]. injection E as <-.
    cbn [map]. rewrite <- (IH r' eq_refl). reflexivity.
  - discriminate.
Qed.

Lemma oseq_ext : forall {A B} (f g : A -> out B) l, (forall x, In x l -> f x = g x) ->
  oseq (map f l) = oseq (map g l).
Proof. intros A B f g l H. f_equal. apply map_ext_in. assumption. Qed.

Lemma obind_ok : forall {A B} (m : out A) (f : A -> out B) b, obind m f = Ok b ->
  exists a, m = Ok a /\ f a = Ok b.
Proof. intros A B [a|e] f b E; cbn [obind] in E; [eauto|discriminate]. Qed.

Lemma omap_ok : forall {A B} (f : A -> B) m b, omap f m = Ok b -> exists a, m = Ok a /\ b = f a.
Proof. intros A B f [a|e] b E; cbn [omap] in E; [injection E as <-; eauto|discriminate]. Qed.

Lemma oassert_ok : forall b u, oassert b = Ok u -> b = true.
Proof. intros [|] u E; [reflexivity|discriminate]. Qed.
