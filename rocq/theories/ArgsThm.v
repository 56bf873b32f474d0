(** Proofs for C24. *)
From Coq Require Import List ZArith QArith Qcanon Reals Bool String Permutation Lia Lra FunctionalExtensionality.
From Verif Require Import Base Xr Samp Lgamma Prims Cgpm Lib SpecPrims PrimsInv PrimsDens PrimsThm2
  SpecComp CompInv CompDens CompThm SpecSim SimShape SpecBook Book Query SpecQuery QueryThm Args SpecArgs.
Import ListNotations.
Local Open Scope Z_scope.

Lemma un_refl : forall h, untouched h h.
Proof. intros h. split; auto. Qed.
Lemma un_trans : forall h h1 h2, untouched h h1 -> untouched h1 h2 -> untouched h h2.
Proof. intros h h1 h2 [L E] [L' E']. split; [lia|]. intros a A. rewrite E' by lia. auto. Qed.
Lemma un_app : forall h d, untouched h (h ++ [d]).
Proof. intros h d. split; [rewrite app_length; lia|]. intros a A. unfold get. now rewrite app_nth1. Qed.
Lemma un_but : forall x h h', untouched h h' -> untouched_but x h h'.
Proof. intros x h h' [L E]. split; auto. Qed.
Lemma but_trans : forall x h h1 h2, untouched_but x h h1 -> untouched_but x h1 h2 -> untouched_but x h h2.
Proof. intros x h h1 h2 [L E] [L' E']. split; [lia|]. intros a A X. rewrite E' by (auto; lia). auto. Qed.
Lemma but_fresh : forall h d h', untouched_but (List.length h) (h ++ [d]) h' -> untouched h h'.
Proof.
  intros h d h' [L E]. rewrite app_length in L. cbn in L. split; [lia|]. intros a A. rewrite E; [|rewrite app_length; lia|lia].
  unfold get. now rewrite app_nth1.
Qed.

(** The dictionary at an address. *)
Definition at_ (h : heap) (a : nat) (d : row) : Prop := (a < List.length h)%nat /\ get h a = d.

Lemma at_un : forall h h' a d, at_ h a d -> untouched h h' -> at_ h' a d.
Proof. intros h h' a d [A E] [L U]. split; [lia|]. rewrite U; auto. Qed.
Lemma at_new : forall h d, at_ (h ++ [d]) (List.length h) d.
Proof. intros h d. split; [rewrite app_length; cbn; lia|]. unfold get. rewrite app_nth2, Nat.sub_diag by lia. reflexivity. Qed.
Lemma at_app : forall h a d d', at_ h a d -> at_ (h ++ [d']) a d.
Proof. intros. eapply at_un; eauto. apply un_app. Qed.

Lemma set_nth_length : forall {A} n (x : A) l, List.length (set_nth n x l) = List.length l.
Proof. intros A n. induction n as [|n IH]; intros x [|y l]; cbn; auto. Qed.
Lemma nth_set_nth : forall {A} n (x : A) l m d, (n < List.length l)%nat ->
  nth m (set_nth n x l) d = if Nat.eqb m n then x else nth m l d.
Proof.
  intros A n. induction n as [|n IH]; intros x [|y l] m d L; cbn in *; try lia; destruct m; cbn; auto. apply IH. lia.
Qed.

Lemma but_set : forall h a d, (a < List.length h)%nat -> untouched_but a h (set_nth a d h) /\ at_ (set_nth a d h) a d.
Proof.
  intros h a d L. split; split.
  - rewrite set_nth_length. lia.
  - intros b B N. unfold get. rewrite nth_set_nth by exact L. destruct (Nat.eqb_spec b a); [contradiction|reflexivity].
  - rewrite set_nth_length. exact L.
  - unfold get. rewrite nth_set_nth by exact L. now rewrite Nat.eqb_refl.
Qed.
Lemma at_but : forall x h h' a d, at_ h a d -> untouched_but x h h' -> a <> x -> at_ h' a d.
Proof. intros x h h' a d [A E] [L U] N. split; [lia|]. rewrite U; auto. Qed.

(** ** logpdf *)

Definition hagrees {A} (h : heap) (m : hcall A) (v : out A) : Prop :=
  forall h1, untouched h h1 -> untouched h (fst (m h1)) /\ snd (m h1) = v.

Lemma ha_pure : forall {A} h (v : out A), hagrees h (hpure v) v.
Proof. intros A h v h1 U. split; [exact U|reflexivity]. Qed.
Lemma ha_bind : forall {A B} h (m : hcall A) v (k : A -> hcall B) w, hagrees h m v ->
  (forall a, hagrees h (k a) (w a)) -> hagrees h (hbind m k) (obind v w).
Proof.
  intros A B h m v k w M K h1 U. destruct (M h1 U) as [U1 E1]. unfold hbind. destruct (m h1) as [h2 r]. cbn [fst snd] in *. subst r.
  destruct v as [a|e]; [exact (K a h2 U1)|]. split; [exact U1|reflexivity].
Qed.
Lemma ha_seq : forall {A X} h (f : X -> hcall A) v l, (forall x, In x l -> hagrees h (f x) (v x)) ->
  hagrees h (hseq (map f l)) (oseq (map v l)).
Proof.
  intros A X h f v l. induction l as [|x l IH]; intros H; cbn [map hseq].
  - apply ha_pure.
  - rewrite oseq_cons. apply ha_bind; [apply H; now left|]. intros a. apply ha_bind; [apply IH; intros; apply H; now right|].
    intros r. apply ha_pure.
Qed.
Lemma ha_read : forall {A} h a d (k : row -> hcall A) v, at_ h a d -> hagrees h (k d) v -> hagrees h (hread a k) v.
Proof. intros A h a d k v A0 K h1 U. unfold hread. destruct (at_un _ _ _ _ A0 U) as [_ ->]. exact (K h1 U). Qed.
Lemma ha_new : forall {A} h d (k : nat -> hcall A) v,
  (forall h1, untouched h h1 -> hagrees (h1 ++ [d]) (k (List.length h1)) v) -> hagrees h (hnew d k) v.
Proof.
  intros A h d k v K h1 U. unfold hnew. destruct (K h1 U (h1 ++ [d]) (un_refl _)) as [U1 E1]. split; [|exact E1].
  eapply un_trans; [exact U|]. eapply un_trans; [apply un_app|exact U1].
Qed.

(** A method that leaves the caller's dictionaries alone, and one that may change the inputs
    it is given if they are no other argument. *)
Definition gentle (f : logpdf_a) (g : logpdf_m) : Prop := forall h rid T C ins t c i,
  at_ h T t -> at_ h C c -> at_ h ins i -> hagrees h (f rid T C ins) (g rid t c i).
Definition rough (f : logpdf_a) (g : logpdf_m) : Prop := forall h rid T C ins t c i,
  at_ h T t -> at_ h C c -> at_ h ins i -> T <> ins -> C <> ins ->
  untouched_but ins h (fst (f rid T C ins h)) /\ snd (f rid T C ins h) = g rid t c i.

Lemma gentle_rough : forall f g, gentle f g -> rough f g.
Proof.
  intros f g G h rid T C ins t c i HT HC HI _ _. destruct (G h rid T C ins t c i HT HC HI h (un_refl h)) as [A B]. split; [now apply un_but|exact B].
Qed.

Lemma fresh_call : forall f g h rid C ins t' (x y : row -> row) c i, rough f g -> at_ h C c -> at_ h ins i ->
  hagrees h (hnew t' (fun T' => hread C (fun c => hnew (x c) (fun C' => hread ins (fun i => hnew (y i) (fun I' => f rid T' C' I'))))))
    (g rid t' (x c) (y i)).
Proof.
  intros f g h rid C ins t' x y c i G HC HI h1 U. unfold hnew, hread.
  assert (HC1 := at_app _ _ _ t' (at_un _ _ _ _ HC U)). rewrite (proj2 HC1). set (h2 := h1 ++ [t']). fold h2 in HC1.
  assert (HI2 : at_ (h2 ++ [x c]) ins i) by (apply at_app; unfold h2; apply at_app; eapply at_un; eauto).
  rewrite (proj2 HI2). set (h3 := h2 ++ [x c]). fold h3 in HI2.
  destruct (G (h3 ++ [y i]) rid (List.length h1) (List.length h2) (List.length h3) t' (x c) (y i)) as [A B].
  - apply at_app. unfold h3. apply at_app. apply at_new.
  - apply at_app. apply at_new.
  - apply at_new.
  - unfold h3, h2. rewrite !app_length. cbn. lia.
  - unfold h3, h2. rewrite !app_length. cbn. lia.
  - split; [|exact B]. eapply un_trans; [exact U|]. eapply un_trans; [apply un_app|]. fold h2. eapply un_trans; [apply un_app|]. fold h3.
    eapply but_fresh. exact A.
Qed.

Lemma one_gentle : forall outs is f g, rough f g -> gentle (logpdf_one_a outs is f) (logpdf_one outs is g).
Proof.
  intros outs is f g G h rid T C ins t c i HT HC HI. unfold logpdf_one_a, logpdf_one. eapply ha_read; [exact HT|].
  destruct (interd outs t) as [|p t']; [apply ha_pure|]. apply (fresh_call f g h rid C ins (p :: t') (interd outs) (interd is) c i G HC HI).
Qed.

Lemma mix_one_gentle : forall ix ox f g rid z h T C ins t c i, rough f g -> at_ h T t -> at_ h C c -> at_ h ins i ->
  hagrees h (mix_logpdf_one_a ix ox f rid T C ins z) (mix_logpdf_one ix ox g rid t c i z).
Proof.
  intros ix ox f g rid z h T C ins t c i G HT HC HI. unfold mix_logpdf_one_a, mix_logpdf_one. eapply ha_read; [exact HT|].
  destruct (interd ox t) as [|p t']; [apply ha_pure|].
  apply (fresh_call f g h rid C ins (p :: t') (interd ox) (fun i => merged (interd ox i) [(ix, z)]) c i G HC HI).
Qed.

Lemma mix_marg_gentle : forall div ox f g, rough f g -> gentle (mix_logpdf_marg_a div ox f) (mix_logpdf_marg div ox g).
Proof.
  intros div ox f g G h rid T C ins t c i HT HC HI. unfold mix_logpdf_marg_a, mix_logpdf_marg. cbv zeta.
  apply ha_bind; [apply ha_pure|]. intros sup. apply ha_bind; [apply ha_pure|]. intros pr. apply ha_bind.
  - apply ha_seq. intros z _. apply ha_new. intros h1 U. apply mix_one_gentle; auto using at_new; apply at_app; eapply at_un; eauto.
  - intros lc. apply ha_bind; [|intros; apply ha_pure]. apply ha_seq. intros z _. apply mix_one_gentle; auto.
Qed.

Lemma at_ext : forall h h1 a d d', at_ h a d -> untouched h h1 -> at_ (h1 ++ [d']) a d.
Proof. intros. apply at_app. eapply at_un; eauto. Qed.

Ltac at_tac := solve [eauto using at_new, at_app, at_un, at_ext].

Lemma mix0_gentle : forall div ox f g rid h T ins t i, rough f g -> at_ h T t -> at_ h ins i ->
  hagrees h (mix_logpdf0_a div ox f rid T ins) (mix_logpdf0 div ox g rid t i).
Proof.
  intros div ox f g rid h T ins t i G HT HI. unfold mix_logpdf0_a, mix_logpdf0. cbv zeta. eapply ha_read; [exact HT|].
  destruct (lookup (dist_o div) t) as [z|].
  - unfold mix_logpdf_z0. apply ha_bind; [apply ha_pure|]. intros lz. apply ha_new. intros h1 U. apply ha_new. intros h2 U2.
    apply ha_bind; [|intros; apply ha_pure]. apply mix_one_gentle; [exact G| | |]; at_tac.
  - apply ha_new. intros h1 U. apply mix_marg_gentle; auto; at_tac.
Qed.

Lemma mix_gentle : forall div ox r2c f g, rough f g -> gentle (mix_logpdf_a div ox r2c f) (mix_logpdf div ox r2c g).
Proof.
  intros div ox r2c f g G h rid T C ins t c i HT HC HI. unfold mix_logpdf_a, mix_logpdf. cbv zeta.
  eapply ha_read; [exact HT|]. eapply ha_read; [exact HC|].
  destruct (match rid with Some r => lookup r r2c | None => None end) as [z|].
  - apply ha_bind; [apply ha_pure|]. intros _. apply mix_one_gentle; auto.
  - destruct (lookup (dist_o div) t) as [z|].
    + apply ha_bind; [apply ha_pure|]. intros lz. apply ha_new. intros h1 U. apply ha_new. intros h2 U2.
      apply ha_bind; [apply mix_one_gentle; [exact G| | |]; at_tac|]. intros lx. apply ha_bind; [|intros; apply ha_pure].
      destruct c as [|p c']; [apply ha_pure|]. apply mix0_gentle; [exact G| |]; at_tac.
    + destruct (lookup (dist_o div) c) as [z|].
      * apply ha_bind; [apply ha_pure|]. intros sup. destruct (in_support z sup); [|apply ha_pure].
        apply ha_new. intros h1 U. apply ha_new. intros h2 U2. apply ha_bind; [apply mix_one_gentle; [exact G| | |]; at_tac|].
        intros lx. apply ha_new. intros h3 U3. apply ha_bind; [apply mix_one_gentle; [exact G| | |]; at_tac|]. intros; apply ha_pure.
      * apply mix_marg_gentle; auto.
Qed.

Lemma omap_obind : forall {A B} (f : A -> B) v, omap f v = obind v (fun a => Ok (f a)).
Proof. intros A B f [a|e]; reflexivity. Qed.

Lemma prod_gentle : forall cs (f : cgpm -> logpdf_a), (forall c, In c cs -> rough (f c) (logpdf c)) ->
  gentle (prod_logpdf_a (map (fun c => (outputs c, inputs c, f c)) cs)) (prod_logpdf (map (fun c => (outputs c, inputs c, logpdf c)) cs)).
Proof.
  intros cs f G h rid T C ins t c i HT HC HI. unfold prod_logpdf_a, prod_logpdf. rewrite !map_map, omap_obind.
  apply ha_bind; [|intros; apply ha_pure]. apply ha_seq. intros c0 H0. apply one_gentle; auto.
Qed.

Lemma finarr_rough : forall ix cs (f : cgpm -> logpdf_a), (forall c, In c cs -> rough (f c) (logpdf c)) ->
  rough (finarr_logpdf_a ix (map f cs)) (finarr_logpdf ix (map logpdf cs)).
Proof.
  intros ix cs f G h rid T C ins t c i HT HC HI N1 N2. unfold finarr_logpdf_a, finarr_logpdf, hpop. rewrite (proj2 HI).
  destruct (lookup ix i) as [k|]; [|split; [apply un_but; apply un_refl|reflexivity]].
  destruct (but_set h ins (ddel ix i) (proj1 HI)) as [U1 A1]. set (h1 := set_nth ins (ddel ix i) h) in *. unfold hbind, hpure.
  rewrite (py_index_len (map f cs) cs), (py_index_len (map logpdf cs) cs) by apply map_length.
  destruct (py_index cs k) as [n|e]; cbn [obind]; [|split; [exact U1|reflexivity]]. rewrite !nth_map_error.
  destruct (nth_error cs n) as [c0|] eqn:E; [|split; [exact U1|reflexivity]]. apply nth_error_In in E.
  destruct (G c0 E h1 rid T C ins t c (ddel ix i)) as [A B]; auto; try (eapply at_but; eauto).
  split; [eapply but_trans; eauto|exact B].
Qed.

Lemma flexarr_rough : forall ix b cs (f : cgpm -> logpdf_a), rough (f b) (logpdf b) -> (forall k c, In (k, c) cs -> rough (f c) (logpdf c)) ->
  rough (flexarr_logpdf_a ix (f b) (map (fun p => let '(k, c') := p in (k, f c')) cs))
        (flexarr_logpdf ix (logpdf b) (map (fun p => let '(k, c') := p in (k, logpdf c')) cs)).
Proof.
  intros ix b cs f Gb G h rid T C ins t c i HT HC HI N1 N2. unfold flexarr_logpdf_a, flexarr_logpdf, hpop. rewrite (proj2 HI).
  destruct (lookup ix i) as [k|]; [|split; [apply un_but; apply un_refl|reflexivity]].
  destruct (but_set h ins (ddel ix i) (proj1 HI)) as [U1 A1]. set (h1 := set_nth ins (ddel ix i) h) in *.
  rewrite !lookup_dict_map. assert (X : exists c0, match option_map f (lookup k cs) with Some g => g | None => f b end = f c0 /\
    match option_map logpdf (lookup k cs) with Some g => g | None => logpdf b end = logpdf c0 /\ rough (f c0) (logpdf c0)).
  { destruct (lookup k cs) as [c0|] eqn:E; cbn; [|eauto]. apply lookup_In in E. eauto. }
  destruct X as (c0 & -> & -> & G0). destruct (G0 h1 rid T C ins t c (ddel ix i)) as [A B]; auto; try (eapply at_but; eauto).
  split; [eapply but_trans; eauto|exact B].
Qed.

Lemma logpdf_at_ok : forall c, (is_array c = false -> gentle (logpdf_at c) (logpdf c)) /\ rough (logpdf_at c) (logpdf c).
Proof.
  induction c as [d|cs IH|ix cs m IH|ix b cs m IHb IH|fl d arr m IH] using cgpm_ind_In; cbn [is_array logpdf_at logpdf].
  - assert (G : gentle (logpdf_at (CDist d)) (logpdf (CDist d))); [|split; [auto|apply gentle_rough; exact G]].
    intros h rid T C ins t c i HT HC HI. cbn [logpdf_at logpdf]. repeat (eapply ha_read; [eassumption|]). apply ha_pure.
  - assert (G := prod_gentle cs logpdf_at (fun c Hc => proj2 (IH c Hc))). split; [auto|apply gentle_rough; exact G].
  - split; [discriminate|]. apply finarr_rough. intros c Hc. apply (IH c Hc).
  - split; [discriminate|]. apply flexarr_rough; [apply IHb|]. intros k c Hc. apply (IH k c Hc).
  - assert (G := mix_gentle d (outputs arr) m _ _ (proj2 IH)). split; [auto|apply gentle_rough; exact G].
Qed.

(** ** simulate *)

Definition sagrees {A} (h : heap) (m : scall A) (v : samp (out A)) : Prop :=
  forall h1, untouched h h1 -> coupled (fun r v => untouched h (fst r) /\ snd r = v) (m h1) v.

Lemma sa_pure : forall {A} h (v : samp (out A)), sagrees h (spure v) v.
Proof.
  intros A h v h1 U. unfold spure. rewrite <- (bind_ret v) at 2. eapply coupled_bind; [apply coupled_refl|]. intros a a' <-. cbn. auto.
Qed.
Lemma sa_called : forall {A} h (m : hcall A) v, hagrees h m v -> sagrees h (scalled m) (Ret v).
Proof. intros A h m v H h1 U. cbn. apply H. exact U. Qed.
Lemma sa_bind : forall {A B} h (m : scall A) v (k : A -> scall B) w, sagrees h m v ->
  (forall a, sagrees h (k a) (w a)) -> sagrees h (scbind m k) (sobind v w).
Proof.
  intros A B h m v k w M K h1 U. unfold scbind, sobind. eapply coupled_bind; [exact (M h1 U)|].
  intros [h2 r] o [U1 E1]. cbn [fst snd] in *. subst o. destruct r as [a|e]; [apply K; exact U1|]. cbn. auto.
Qed.
Lemma sa_seq : forall {A X} h (f : X -> scall A) v l, (forall x, In x l -> sagrees h (f x) (v x)) ->
  sagrees h (scseq (map f l)) (soseq (map v l)).
Proof.
  intros A X h f v l. induction l as [|x l IH]; intros H; cbn [map scseq soseq].
  - apply sa_pure.
  - apply sa_bind; [apply H; now left|]. intros a. apply sa_bind; [apply IH; intros; apply H; now right|]. intros r. apply sa_pure.
Qed.
Lemma sa_read : forall {A} h a d (k : row -> scall A) v, at_ h a d -> sagrees h (k d) v -> sagrees h (sread a k) v.
Proof. intros A h a d k v A0 K h1 U. unfold sread. destruct (at_un _ _ _ _ A0 U) as [_ ->]. exact (K h1 U). Qed.

Definition sgentle (f : simulate_a) (g : simulate_m) : Prop := forall h rid ts C ins N c i,
  at_ h C c -> at_ h ins i -> sagrees h (f rid ts C ins N) (g rid ts c i N).
Definition srough (f : simulate_a) (g : simulate_m) : Prop := forall h rid ts C ins N c i,
  at_ h C c -> at_ h ins i -> C <> ins ->
  coupled (fun r v => untouched_but ins h (fst r) /\ snd r = v) (f rid ts C ins N h) (g rid ts c i N).

Lemma sgentle_rough : forall f g, sgentle f g -> srough f g.
Proof.
  intros f g G h rid ts C ins N c i HC HI _. eapply coupled_imp; [|exact (G h rid ts C ins N c i HC HI h (un_refl h))].
  intros r v [A B]. split; [now apply un_but|exact B].
Qed.

Lemma sfresh_call : forall f g h rid ts N C ins (x y : row -> row) c i, srough f g -> at_ h C c -> at_ h ins i ->
  sagrees h (sread C (fun c => snew (x c) (fun C' => sread ins (fun i => snew (y i) (fun I' => f rid ts C' I' N)))))
    (g rid ts (x c) (y i) N).
Proof.
  intros f g h rid ts N C ins x y c i G HC HI h1 U. unfold snew, sread.
  assert (HC1 := at_un _ _ _ _ HC U). rewrite (proj2 HC1).
  assert (HI2 : at_ (h1 ++ [x c]) ins i) by (apply at_app; eapply at_un; eauto).
  rewrite (proj2 HI2). set (h3 := h1 ++ [x c]) in *.
  eapply coupled_imp; [|apply (G (h3 ++ [y i]) rid ts (List.length h1) (List.length h3) N (x c) (y i))].
  - intros r v [A B]. split; [|exact B]. eapply un_trans; [exact U|]. eapply un_trans; [apply un_app|]. fold h3. eapply but_fresh. exact A.
  - apply at_app. apply at_new.
  - apply at_new.
  - unfold h3. rewrite !app_length. cbn. lia.
Qed.

Lemma sone_gentle : forall outs is f g, srough f g -> sgentle (simulate_one_a outs is f) (simulate_one outs is g).
Proof.
  intros outs is f g G h rid ts C ins N c i HC HI. unfold simulate_one_a, simulate_one.
  destruct (interl outs ts) as [|p t']; [apply sa_pure|]. apply (sfresh_call f g h rid (p :: t') N C ins (interd outs) (interd is) c i G HC HI).
Qed.

Lemma smix_one_gentle : forall ix ox f g rid ts N z h C ins c i, srough f g -> at_ h C c -> at_ h ins i ->
  sagrees h (mix_simulate_one_a ix ox f rid ts C ins N z) (mix_simulate_one ix ox g rid ts c i N z).
Proof.
  intros ix ox f g rid ts N z h C ins c i G HC HI. unfold mix_simulate_one_a, mix_simulate_one. apply sa_bind; [|intros; apply sa_pure].
  destruct (interl ox ts) as [|p t']; [apply sa_pure|].
  apply (sfresh_call f g h rid (p :: t') N C ins (interd ox) (fun i => merged (interd ox i) [(ix, z)]) c i G HC HI).
Qed.

Lemma mix_simulate_eq : forall div ox r2c farr sarr rid ts c i N,
  mix_simulate div ox r2c farr sarr rid ts c i N =
  let ix := dist_o div in
  match (match rid with None => None | Some r => lookup r r2c end) with
  | Some z => sobind (Ret (oassert (negb (dmem ix c)))) (fun _ => mix_simulate_one ix ox sarr rid ts c i N z)
  | None =>
    match lookup ix c with
    | Some z => sobind (Ret (dist_support div)) (fun sup => if in_support z sup then mix_simulate_one ix ox sarr rid ts c i N z else Ret (Err ValueError))
    | None =>
      sobind (Ret (dist_support div)) (fun sup =>
      sobind (Ret (oseq (map (fun z => mix_logpdf div ox r2c farr rid [(ix, vz z)] c i) sup))) (fun ws =>
      sobind (srepeat match N with None => 1%nat | Some O => 1%nat | Some n => n end (log_pflip ws)) (fun is =>
      sobind (soseq (map (fun p => mix_simulate_one ix ox sarr rid ts c i (Some (snd p)) (vz (fst p)))
                    (cluster_counts sup (map (fun i => nth i sup 0) is)))) (fun l =>
      Ret match N with Some _ => omap SMany (chain_samples l)
                | None => do ll <- chain_samples l; match ll with d :: _ => Ok (SOne d) | [] => Err IndexError end end))))
    end
  end.
Proof.
  intros. unfold mix_simulate. cbv zeta. destruct (match rid with Some r => lookup r r2c | None => None end) as [z|].
  - rewrite sobind_ret. destruct (oassert _); reflexivity.
  - destruct (lookup (dist_o div) c); rewrite sobind_ret; destruct (dist_support div) as [sup|e]; try reflexivity.
    cbn [obind]. rewrite sobind_ret. destruct (oseq _); reflexivity.
Qed.

Lemma smix_gentle : forall div ox r2c fl gl f g, rough fl gl -> srough f g ->
  sgentle (mix_simulate_a div ox r2c fl f) (mix_simulate div ox r2c gl g).
Proof.
  intros div ox r2c fl gl f g GL G h rid ts C ins N c i HC HI. rewrite mix_simulate_eq. unfold mix_simulate_a. cbv zeta.
  eapply sa_read; [exact HC|]. destruct (match rid with Some r => lookup r r2c | None => None end) as [z|].
  - apply sa_bind; [apply sa_pure|]. intros _. apply smix_one_gentle; auto.
  - destruct (lookup (dist_o div) c) as [z|].
    + apply sa_bind; [apply sa_pure|]. intros sup. destruct (in_support z sup); [|apply sa_pure]. apply smix_one_gentle; auto.
    + apply sa_bind; [apply sa_pure|]. intros sup. apply sa_bind.
      * apply sa_called. apply ha_seq. intros z _. apply ha_new. intros h1 U. apply mix_gentle; [exact GL| | |]; at_tac.
      * intros ws. apply sa_bind; [apply sa_pure|]. intros is. apply sa_bind; [|intros; apply sa_pure].
        apply sa_seq. intros p _. apply smix_one_gentle; auto.
Qed.

Lemma simulate_at_ok : forall c, (is_array c = false -> sgentle (simulate_at c) (simulate c)) /\ srough (simulate_at c) (simulate c).
Proof.
  induction c as [d|cs IH|ix cs m IH|ix b cs m IHb IH|fl d arr m IH] using cgpm_ind_In; cbn [is_array].
  - assert (G : sgentle (simulate_at (CDist d)) (simulate (CDist d))); [|split; [auto|apply sgentle_rough; exact G]].
    intros h rid ts C ins N c i HC HI. cbn [simulate_at simulate]. repeat (eapply sa_read; [eassumption|]). apply sa_pure.
  - assert (G : sgentle (simulate_at (CProd cs)) (simulate (CProd cs))); [|split; [auto|apply sgentle_rough; exact G]].
    intros h rid ts C ins N c i HC HI. cbn [simulate_at simulate]. unfold prod_simulate_a, prod_simulate. rewrite !map_map.
    apply sa_bind; [|intros; apply sa_pure]. apply sa_seq. intros c0 H0. apply sone_gentle; auto. apply (IH c0 H0).
  - split; [discriminate|]. intros h rid ts C ins N c i HC HI NE. cbn [simulate_at simulate]. unfold finarr_simulate_a, finarr_simulate, spop. rewrite (proj2 HI).
    destruct (lookup ix i) as [k|]; [|cbn; split; [apply un_but; apply un_refl|reflexivity]].
    destruct (but_set h ins (ddel ix i) (proj1 HI)) as [U1 A1]. set (h1 := set_nth ins (ddel ix i) h) in *. unfold scbind, spure. cbn [sbind].
    rewrite (py_index_len (map simulate_at cs) cs), (py_index_len (map simulate cs) cs) by apply map_length.
    destruct (py_index cs k) as [n|e]; [|cbn; split; [exact U1|reflexivity]]. rewrite !nth_map_error.
    destruct (nth_error cs n) as [c0|] eqn:E; [|cbn; split; [exact U1|reflexivity]]. apply nth_error_In in E.
    eapply coupled_imp; [|apply (proj2 (IH c0 E) h1 rid ts C ins N c (ddel ix i)); auto; eapply at_but; eauto].
    intros r v [A B]. split; [eapply but_trans; eauto|exact B].
  - split; [discriminate|]. intros h rid ts C ins N c i HC HI NE. cbn [simulate_at simulate]. unfold flexarr_simulate_a, flexarr_simulate, spop. rewrite (proj2 HI).
    destruct (lookup ix i) as [k|]; [|cbn; split; [apply un_but; apply un_refl|reflexivity]].
    destruct (but_set h ins (ddel ix i) (proj1 HI)) as [U1 A1]. set (h1 := set_nth ins (ddel ix i) h) in *.
    rewrite !lookup_dict_map. assert (X : exists c0, match option_map simulate_at (lookup k cs) with Some g => g | None => simulate_at b end = simulate_at c0 /\
      match option_map simulate (lookup k cs) with Some g => g | None => simulate b end = simulate c0 /\ srough (simulate_at c0) (simulate c0)).
    { destruct (lookup k cs) as [c0|] eqn:E; cbn; [|exists b; intuition]. apply lookup_In in E. exists c0. split; [reflexivity|split; [reflexivity|]]. apply (IH k c0 E). }
    destruct X as (c0 & -> & -> & G0). eapply coupled_imp; [|apply (G0 h1 rid ts C ins N c (ddel ix i)); auto; eapply at_but; eauto].
    intros r v [A B]. split; [eapply but_trans; eauto|exact B].
  - assert (G := smix_gentle d (outputs arr) m _ _ _ _ (proj2 (logpdf_at_ok arr)) (proj2 IH)). split; [auto|apply sgentle_rough; exact G].
Qed.

(** ** observe *)

Definition ogentle (f : observe_a) (g : observe_m) : Prop := forall h rid obs ins o i, at_ h obs o -> at_ h ins i ->
  coupled (fun r v => untouched h (fst r) /\ snd r = v) (f rid obs ins h) (g rid o i).
Definition orough (f : observe_a) (g : observe_m) : Prop := forall h rid obs ins o i, at_ h obs o -> at_ h ins i -> obs <> ins ->
  coupled (fun r v => untouched_but ins h (fst r) /\ snd r = v) (f rid obs ins h) (g rid o i).

Lemma ogentle_rough : forall f g, ogentle f g -> orough f g.
Proof.
  intros f g G h rid obs ins o i HO HI _. eapply coupled_imp; [|exact (G h rid obs ins o i HO HI)].
  intros r v [A B]. split; [now apply un_but|exact B].
Qed.

Lemma two_length : forall (h : heap) a, List.length h <> List.length (h ++ [a]).
Proof. intros. rewrite app_length. cbn. lia. Qed.

Lemma mix_observe_x_gentle : forall flex div arr f r2c rid obs ins o i z h, orough f (observe arr) -> at_ h obs o -> at_ h ins i ->
  coupled (fun r v => untouched h (fst r) /\ snd r = v) (mix_observe_x_a flex div arr f r2c rid obs ins z h)
    (mix_observe_x flex div arr (observe arr) r2c rid o i z).
Proof.
  intros flex div arr f r2c rid obs ins o i z h G HO HI. unfold mix_observe_x_a, mix_observe_x. cbv zeta. rewrite (proj2 HO), (proj2 HI).
  eapply coupled_bind; [apply (G _ rid _ _ (interd (outputs arr) o) (merged (interd (tl (inputs arr)) i) [(dist_o div, z)]))|].
  - apply at_app. apply at_new.
  - apply at_new.
  - apply two_length.
  - intros [h' [c' r]] [c2 r2] [A B]. cbn in *. injection B as -> ->. split; [|reflexivity].
    eapply un_trans; [apply un_app|]. eapply but_fresh. exact A.
Qed.

Lemma observe_at_ok : forall c, (is_array c = false -> ogentle (observe_at c) (observe c)) /\ orough (observe_at c) (observe c).
Proof.
  induction c as [d|cs IH|ix cs m IH|ix b cs m IHb IH|fl d arr m IH] using cgpm_ind_In; cbn [is_array].
  - assert (G : ogentle (observe_at (CDist d)) (observe (CDist d))); [|split; [auto|apply ogentle_rough; exact G]].
    intros h rid obs ins o i HO HI. cbn [observe_at observe]. rewrite (proj2 HO), (proj2 HI). cbn. split; [apply un_refl|reflexivity].
  - assert (G : ogentle (observe_at (CProd cs)) (observe (CProd cs))); [|split; [auto|apply ogentle_rough; exact G]].
    intros h rid obs ins o i HO HI. cbn [observe_at observe].
    eapply coupled_bind with (R := fun r v => untouched h (fst r) /\ snd r = v).
    2:{ intros [h' [c' r]] [c2 r2] [A B]. cbn in *. injection B as -> ->. auto. }
    revert h HO HI. induction cs as [|c cs IHcs]; intros h HO HI; cbn [map prod_observe_a prod_observe]; [split; [apply un_refl|reflexivity]|].
    specialize (IHcs (fun c Hc => IH c (or_intror Hc))). rewrite (proj2 HO), (proj2 HI).
    destruct (interd (outputs c) o) as [|p q].
    + eapply coupled_bind; [apply IHcs; assumption|]. intros [h' [c' r]] [c2 r2] [A B]. cbn in *. injection B as -> ->. auto.
    + cbv zeta. eapply coupled_bind; [apply (proj2 (IH c (or_introl eq_refl)) _ rid _ _ (p :: q) (merged (interd (inputs c) o) (interd (inputs c) i)))|].
      * apply at_app. apply at_new.
      * apply at_new.
      * apply two_length.
      * intros [h' [c' r]] [c2 r2] [A B]. cbn [fst snd] in *. injection B as -> ->.
        assert (U : untouched h h') by (eapply un_trans; [apply un_app|]; eapply but_fresh; exact A).
        destruct r2 as [u|e]; [|cbn; split; [exact U|]; rewrite !map_map; reflexivity].
        eapply coupled_bind; [apply (IHcs h'); eapply at_un; eauto|]. intros [h'' [c3 r3]] [c4 r4] [A' B']. cbn in *. injection B' as -> ->.
        split; [eapply un_trans; eauto|reflexivity].
  - split; [discriminate|]. intros h rid obs ins o i HO HI NE. cbn [observe_at observe]. unfold finarr_observe_a, finarr_observe. rewrite (proj2 HI).
    destruct (lookup ix i) as [k|]; [|cbn; split; [apply un_but; apply un_refl|reflexivity]].
    destruct (but_set h ins (ddel ix i) (proj1 HI)) as [U1 A1]. cbv zeta. set (h1 := set_nth ins (ddel ix i) h) in *.
    rewrite (py_index_len (map observe_at cs) cs), (py_index_len (map observe cs) cs) by apply map_length.
    destruct (py_index cs k) as [n|e]; [|cbn; split; [exact U1|reflexivity]]. rewrite !nth_map_error.
    destruct (nth_error cs n) as [c0|] eqn:E; [|cbn; split; [exact U1|reflexivity]]. cbn [option_map]. apply nth_error_In in E.
    eapply coupled_bind; [apply (proj2 (IH c0 E) h1 rid obs ins o (ddel ix i)); auto; eapply at_but; eauto|].
    intros [h' [c' r]] [c2 r2] [A B]. cbn [fst snd] in *. injection B as -> ->. destruct r2; cbn; (split; [eapply but_trans; eauto|reflexivity]).
  - split; [discriminate|]. intros h rid obs ins o i HO HI NE. cbn [observe_at observe]. unfold flexarr_observe_a, flexarr_observe. rewrite (proj2 HI).
    destruct (lookup ix i) as [k|]; [|cbn; split; [apply un_but; apply un_refl|reflexivity]].
    destruct (but_set h ins (ddel ix i) (proj1 HI)) as [U1 A1]. cbv zeta. set (h1 := set_nth ins (ddel ix i) h) in *.
    rewrite !lookup_dict_map. assert (X : exists c0, match option_map observe_at (lookup k cs) with Some g => g | None => observe_at b end = observe_at c0 /\
      match option_map observe (lookup k cs) with Some g => g | None => observe b end = observe c0 /\ orough (observe_at c0) (observe c0)).
    { destruct (lookup k cs) as [c0|] eqn:E; cbn; [|exists b; intuition]. apply lookup_In in E. exists c0. split; [reflexivity|split; [reflexivity|]]. apply (IH k c0 E). }
    destruct X as (c0 & -> & -> & G0). eapply coupled_bind; [apply (G0 h1 rid obs ins o (ddel ix i)); auto; eapply at_but; eauto|].
    intros [h' [c' r]] [c2 r2] [A B]. cbn [fst snd] in *. injection B as -> ->. destruct r2; cbn; (split; [eapply but_trans; eauto|reflexivity]).
  - assert (G : ogentle (observe_at (CMix fl d arr m)) (observe (CMix fl d arr m))); [|split; [auto|apply ogentle_rough; exact G]].
    intros h rid obs ins o i HO HI. cbn [observe_at observe]. unfold mix_observe_a, mix_observe. cbv zeta. rewrite (proj2 HO).
    destruct (lookup rid m) as [z|]; [apply mix_observe_x_gentle; auto; apply IH|].
    eapply coupled_bind; [apply coupled_refl|]. intros oz oz' <-. cbn beta. destruct oz as [z|e]; [|cbn; split; [apply un_refl|reflexivity]].
    destruct (dist_observe d rid [(dist_o d, z)] []) as [d' [u|e]]; [|cbn; split; [apply un_refl|reflexivity]].
    apply mix_observe_x_gentle; auto. apply IH.
Qed.

(** ** The arrays *)

Definition loses (h h' : heap) (a : nat) : Prop := forall k, lookup k (get h a) = None -> lookup k (get h' a) = None.

Lemma loses_pop : forall h a ix, (a < List.length h)%nat -> loses h (set_nth a (ddel ix (get h a)) h) a.
Proof.
  intros h a ix L k E. destruct (but_set h a (ddel ix (get h a)) L) as [_ [_ Q]]. rewrite (f_equal (lookup k) Q). apply lookup_None. apply lookup_None in E.
  intros X. apply E. eapply keys_ddel_sub. exact X.
Qed.

Lemma gentle_loses : forall c h rid T C ins, is_array c = false ->
  (T < List.length h)%nat -> (C < List.length h)%nat -> (ins < List.length h)%nat -> loses h (fst (logpdf_at c rid T C ins h)) ins.
Proof.
  intros c h rid T C ins A LT LC LI.
  destruct (proj1 (logpdf_at_ok c) A h rid T C ins _ _ _ (conj LT eq_refl) (conj LC eq_refl) (conj LI eq_refl) h (un_refl h)) as [[_ U] _].
  intros k E. rewrite U; assumption.
Qed.

Lemma logpdf_at_loses : forall c h rid T C ins, (T < List.length h)%nat -> (C < List.length h)%nat -> (ins < List.length h)%nat ->
  loses h (fst (logpdf_at c rid T C ins h)) ins.
Proof.
  induction c as [d|cs IH|ix cs m IH|ix b cs m IHb IH|fl d arr m IH] using cgpm_ind_In; intros h rid T C ins LT LC LI;
    try (apply gentle_loses; auto; fail).
  - cbn [logpdf_at]. unfold finarr_logpdf_a, hpop. destruct (lookup ix (get h ins)) as [i|]; [|intros k E; exact E].
    assert (P := loses_pop h ins ix LI). set (h1 := set_nth ins (ddel ix (get h ins)) h) in *. unfold hbind, hpure.
    rewrite (py_index_len (map logpdf_at cs) cs) by apply map_length. destruct (py_index cs i) as [n|e]; [|exact P]. rewrite nth_map_error.
    destruct (nth_error cs n) as [c0|] eqn:E; [|exact P]. apply nth_error_In in E. cbn [option_map].
    intros k N. apply (IH c0 E h1); try (unfold h1; rewrite set_nth_length; assumption). apply P. exact N.
  - cbn [logpdf_at]. unfold flexarr_logpdf_a, hpop. destruct (lookup ix (get h ins)) as [i|]; [|intros k E; exact E].
    assert (P := loses_pop h ins ix LI). set (h1 := set_nth ins (ddel ix (get h ins)) h) in *.
    rewrite lookup_dict_map. destruct (lookup i cs) as [c0|] eqn:E; cbn [option_map].
    + apply lookup_In in E. intros k N. apply (IH i c0 E h1); try (unfold h1; rewrite set_nth_length; assumption). apply P. exact N.
    + intros k N. apply (IHb h1); try (unfold h1; rewrite set_nth_length; assumption). apply P. exact N.
Qed.

Lemma array_pops : forall c h rid T C ins, is_array c = true -> (T < List.length h)%nat -> (C < List.length h)%nat -> (ins < List.length h)%nat ->
  NoDup (keys (get h ins)) -> lookup (indexer c) (get (fst (logpdf_at c rid T C ins h)) ins) = None.
Proof.
  intros c h rid T C ins A LT LC LI ND.
  assert (X : forall ix, lookup ix (get (set_nth ins (ddel ix (get h ins)) h) ins) = None).
  { intros ix. destruct (but_set h ins (ddel ix (get h ins)) LI) as [_ [_ Q]]. rewrite (f_equal (lookup ix) Q). now apply lookup_ddel_eq. }
  destruct c; try discriminate; cbn [logpdf_at indexer].
  - unfold finarr_logpdf_a, hpop. destruct (lookup ix (get h ins)) as [i|] eqn:E0; [|exact E0]. unfold hbind, hpure.
    rewrite (py_index_len (map logpdf_at cs) cs) by apply map_length. destruct (py_index cs i) as [n|e]; [|apply X]. rewrite nth_map_error.
    destruct (nth_error cs n) as [c0|] eqn:E; [|apply X]. cbn [option_map].
    apply logpdf_at_loses; try (rewrite set_nth_length; assumption). apply X.
  - unfold flexarr_logpdf_a, hpop. destruct (lookup ix (get h ins)) as [i|] eqn:E0; [|exact E0].
    rewrite lookup_dict_map. destruct (lookup i cs) as [c0|] eqn:E; cbn [option_map];
      (apply logpdf_at_loses; try (rewrite set_nth_length; assumption); apply X).
Qed.

Lemma array_needs : forall c h rid T C ins, is_array c = true -> lookup (indexer c) (get h ins) = None ->
  logpdf_at c rid T C ins h = (h, Err KeyError).
Proof.
  intros c h rid T C ins A E. destruct c; try discriminate; cbn [logpdf_at indexer] in *.
  - unfold finarr_logpdf_a, hpop. now rewrite E.
  - unfold flexarr_logpdf_a, hpop. now rewrite E.
Qed.
