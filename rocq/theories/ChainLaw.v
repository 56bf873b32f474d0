(** Proof that the weights of a Chain are unbiased. *)
From Coq Require Import List ZArith QArith Qcanon Reals Bool String Permutation Lia Lra FunctionalExtensionality.
From Verif Require Import Base Xr Samp Lgamma Prims Cgpm Lib SpecPrims PrimsInv PrimsDens PrimsThm PrimsThm2
  SpecComp CompInv CompDens CompThm SpecSim SimShape SimLaw SimTotal Chain SpecChain ChainThm.
Import ListNotations.
Local Open Scope Z_scope.

Lemma interl_single : forall o all, NoDup all -> interl [o] all = if memb o all then [o] else [].
Proof.
  intros o all. unfold interl. induction all as [|a all IH]; intros ND; [reflexivity|]. inversion ND as [|? ? Na ND']; subst.
  cbn [filter]. rewrite (IH ND'). clear IH. destruct (Z.eq_dec a o) as [->|N].
  - replace (memb o all) with false by (symmetry; apply memb_false; exact Na).
    replace (memb o [o]) with true by (symmetry; apply memb_In; now left).
    replace (memb o (o :: all)) with true by (symmetry; apply memb_In; now left). reflexivity.
  - replace (memb a [o]) with false by (symmetry; apply memb_false; intros [X|[]]; congruence).
    destruct (memb o all) eqn:M.
    + replace (memb o (a :: all)) with true; [reflexivity|]. symmetry. apply memb_In. right. apply memb_In. exact M.
    + replace (memb o (a :: all)) with false; [reflexivity|]. symmetry. apply memb_false. apply memb_false in M.
      intros [X|X]; [congruence|auto].
Qed.

Section Network.
Variables (ns : list node) (dom : Z -> list val) (rid : option Z) (I : row).

(** The value of continuing from the row [S] through the children [topo], sampling the
    columns [all]. *)
Fixpoint value (f : row -> R) (all : list Z) (topo : list nat) (S : row) : R :=
  match topo with
  | [] => f S
  | l :: topo' =>
    match nth_error ns l with
    | None => 0
    | Some n =>
      match n_outs n with
      | [o] =>
          if dmem o S then density n rid S I * value f all topo' S
          else if memb o all then
            rsum (map (fun x => density n rid (S ++ [(o, x)]) I * value f all topo' (S ++ [(o, x)])) (dom o))
          else value f all topo' S
      | _ => 0
      end
    end
  end%R.

(** Along [topo], starting from the columns [K], every child that has something to do has
    its inputs. *)
Fixpoint ready (all : list Z) (topo : list nat) (K : list Z) : Prop :=
  match topo with
  | [] => True
  | l :: topo' => exists n o, nth_error ns l = Some n /\ n_outs n = [o] /\ ~ (In o K /\ In o all) /\
      (In o K \/ In o all -> forall i, In i (n_ins n) -> In i (keys I) \/ In i K) /\
      ready all topo' (if memb o all then K ++ [o] else K)
  end.

Hypothesis LW : forall n, In n ns -> lawful dom rid n.
Hypothesis EX : exogenous ns I.
Hypothesis NI : NoDup (keys I).
Hypothesis DI : forall k x, In (k, x) I -> In x (dom k).

(** Rows over the columns of the network with possible values. *)
Definition fine (S : row) : Prop :=
  NoDup (keys S) /\ (forall k, In k (keys S) -> In k (flat_map n_outs ns)) /\ forall k x, In (k, x) S -> In x (dom k).

Lemma fine_disjoint : forall S, fine S -> disjoint_rows I S.
Proof.
  intros S (NS & KS & _). unfold disjoint_rows, keys. rewrite map_app. apply NoDup_both; auto.
  intros k H1 H2. apply (EX k H1). apply KS. exact H2.
Qed.

Lemma fine_told : forall n S, fine S -> (forall i, In i (n_ins n) -> In i (keys I) \/ In i (keys S)) ->
  told dom n (cells_of (n_ins n) (I ++ S)).
Proof.
  intros n S F H. pose proof (fine_disjoint S F) as DJ. destruct F as (NS & KS & DS). rewrite cells_of_interd. split; [|split].
  - rewrite keys_interd. apply NoDup_filter. exact DJ.
  - intros i. rewrite In_keys_interd. split; [tauto|]. intros Hi. split; [|exact Hi]. unfold keys. rewrite map_app. apply in_or_app. apply H. exact Hi.
  - intros i x Hx. apply In_interd in Hx. destruct Hx as [Hx _]. apply in_app_or in Hx. destruct Hx; eauto.
Qed.

Lemma fine_add : forall n o S x, fine S -> In n ns -> n_outs n = [o] -> ~ In o (keys S) -> In x (dom o) -> fine (S ++ [(o, x)]).
Proof.
  intros n o S x (NS & KS & DS) Hn Ho NK Hx. split; [|split].
  - unfold keys. rewrite map_app. apply NoDup_both; [exact NS|constructor; [intros []|constructor]|]. intros k H1 [<-|[]]. auto.
  - intros k Hk. unfold keys in Hk. rewrite map_app in Hk. apply in_app_or in Hk. destruct Hk as [Hk|[<-|[]]]; [auto|].
    apply in_flat_map. exists n. rewrite Ho. cbn. auto.
  - intros k y Hy. apply in_app_or in Hy. destruct Hy as [Hy|[Hy|[]]]; [eauto|]. injection Hy as <- <-. exact Hx.
Qed.

Lemma cells_one : forall o S x, NoDup (keys S) -> lookup o S = Some x -> cells_of [o] S = [(o, x)].
Proof.
  intros o S x NS L. rewrite cells_of_interd.
  replace (interd [o] S) with (match lookup o S with Some x => [(o, x)] | None => [] end); [rewrite L; reflexivity|].
  symmetry. apply interd_single. exact NS.
Qed.

Lemma cells_no : forall o S, ~ In o (keys S) -> cells_of [o] S = [].
Proof.
  intros o S H. destruct (cells_of [o] S) eqn:E; [reflexivity|]. exfalso.
  assert (X : cells_of [o] S <> []) by congruence. apply cells_nonempty in X. destruct X as (k & [<-|[]] & K2). auto.
Qed.

(** The density of a child's column in a row that has its inputs. *)
Lemma density_is : forall n o p S x, n_outs n = [o] ->
  (forall J, told dom n J -> forall x, In x (dom o) -> (0 <= p J x)%R /\ n_logpdf n rid [(o, x)] [] J = Ok (xlog (p J x))) ->
  fine S -> lookup o S = Some x -> (forall i, In i (n_ins n) -> In i (keys I) \/ In i (keys S)) ->
  local n rid S I = Ok (xlog (p (cells_of (n_ins n) (I ++ S)) x)) /\
  density n rid S I = p (cells_of (n_ins n) (I ++ S)) x.
Proof.
  intros n o p S x Ho HP F L H. pose proof (fine_told n S F H) as TD. destruct F as (NS & KS & DS).
  assert (Hx : In x (dom o)) by (apply (DS o); apply lookup_In; exact L).
  destruct (HP _ TD x Hx) as [P0 LP]. unfold density, local. rewrite Ho, (cells_one o S x NS L), LP.
  split; [reflexivity|]. apply xexp_xlog. exact P0.
Qed.

Lemma levels_law : forall f all topo S q, NoDup all -> ready all topo (keys S) -> fine S -> (0 <= q)%R ->
  expect (levels ns rid all I topo S (xlog q)) (fun r => match r with Ok (S', w) => xexp w * f S' | Err _ => 0 end)%R
  = (q * value f all topo S)%R.
Proof.
  intros f all topo. induction topo as [|l topo IH]; intros S q NA RD F Q.
  - cbn [levels expect value]. rewrite xexp_xlog by exact Q. reflexivity.
  - cbn [ready] in RD. destruct RD as (n & o & En & Ho & NB & HI & RD). cbn [levels value]. rewrite En, Ho.
    assert (Hn := nth_error_In _ _ En). destruct (LW n Hn) as (o' & p & Ho' & _ & HL). rewrite Ho in Ho'. injection Ho' as <-.
    assert (HP : forall J, told dom n J -> forall x, In x (dom o) -> (0 <= p J x)%R /\ n_logpdf n rid [(o, x)] [] J = Ok (xlog (p J x))).
    { intros J TJ. apply (HL J TJ). }
    pose proof (fine_disjoint S F) as DJ. pose proof F as (NS & KS & DS).
    unfold invoke. rewrite (inputs_given n S I DJ), Ho. rewrite expect_sobind.
    assert (TC : interl [o] all = if memb o all then [o] else []) by (apply interl_single; exact NA).
    destruct (dmem o S) eqn:DM.
    + apply dmem_true in DM. assert (NAo : memb o all = false) by (apply memb_false; intros X; apply NB; auto).
      rewrite NAo in *. rewrite TC. destruct (lookup_keys S o DM) as (x & L).
      specialize (HI (or_introl DM)). destruct (density_is n o p S x Ho HP F L HI) as [LC DE].
      rewrite <- cells_of_interd, (cells_one o S x NS L).
      assert (A : oassert (forallb (fun i => dmem i (cells_of (n_ins n) (I ++ S))) (n_ins n)) = Ok tt).
      { unfold oassert. replace (forallb _ _) with true; [reflexivity|]. symmetry. apply forallb_forall. intros i Hi.
        apply dmem_true. apply (fine_told n S F HI). exact Hi. }
      rewrite A. unfold local in LC. rewrite Ho, (cells_one o S x NS L) in LC. rewrite LC. cbn [expect fst snd].
      rewrite merged_nil_r by exact NS. rewrite xlog_mul; [|exact Q|].
      2:{ apply (HP _ (fine_told n S F HI) x). apply (DS o). apply lookup_In. exact L. }
      rewrite IH; auto.
      * rewrite DE. ring.
      * apply Rmult_le_pos; [exact Q|]. apply (HP _ (fine_told n S F HI) x). apply (DS o). apply lookup_In. exact L.
    + assert (NK : ~ In o (keys S)) by (intros X; apply dmem_true in X; congruence).
      rewrite <- cells_of_interd, (cells_no o S NK). rewrite TC. destruct (memb o all) eqn:MA.
      * apply memb_In in MA. specialize (HI (or_intror MA)). pose proof (fine_told n S F HI) as TD.
        assert (A : oassert (forallb (fun i => dmem i (cells_of (n_ins n) (I ++ S))) (n_ins n)) = Ok tt).
        { unfold oassert. replace (forallb _ _) with true; [reflexivity|]. symmetry. apply forallb_forall. intros i Hi.
          apply dmem_true. apply TD. exact Hi. }
        rewrite A. destruct (HL _ TD) as (_ & _ & LS & _ & _). rewrite expect_sobind, LS. cbn [expect].
        rewrite <- rsum_scal. apply rsum_ext. intros x Hx. cbn [fst snd].
        assert (FA := fine_add n o S x F Hn Ho NK Hx).
        rewrite merged_disj; [|exact NS|constructor; [intros []|constructor]|intros k [<-|[]]; exact NK].
        replace (xadd (xlog q) (Fin 0)) with (xlog q) by (rewrite xadd_0_r; reflexivity).
        rewrite IH; auto.
        2:{ unfold keys in *. rewrite map_app. exact RD. }
        assert (HI' : forall i, In i (n_ins n) -> In i (keys I) \/ In i (keys (S ++ [(o, x)]))).
        { intros i Hi. destruct (HI i Hi); [auto|]. right. unfold keys. rewrite map_app. apply in_or_app. now left. }
        assert (L : lookup o (S ++ [(o, x)]) = Some x).
        { rewrite lookup_app. replace (lookup o S) with (@None val); [apply lookup_cons_eq|]. symmetry. apply lookup_None. exact NK. }
        destruct (density_is n o p _ x Ho HP FA L HI') as [_ DE]. rewrite DE.
        replace (cells_of (n_ins n) (I ++ S ++ [(o, x)])) with (cells_of (n_ins n) (I ++ S)); [ring|].
        rewrite !cells_of_interd, !interd_app. replace (interd (n_ins n) [(o, x)]) with (@nil (Z * val)); [rewrite app_nil_r; reflexivity|].
        cbn. destruct (memb o (n_ins n)) eqn:M; [|reflexivity]. exfalso. apply memb_In in M.
        destruct (HI o M) as [X|X]; [|auto]. apply (EX o X). apply in_flat_map. exists n. rewrite Ho. cbn. auto.
      * cbn [expect fst snd]. rewrite merged_nil_r by exact NS. rewrite xadd_0_r. apply IH; auto.
Qed.

(** ** Children that do not matter *)

Definition extends (S S' : row) : Prop := forall k x, lookup k S' = Some x -> lookup k S = Some x.

Lemma lookup_cells : forall l (S : row) k, lookup k (cells_of l S) = if memb k l then lookup k S else None.
Proof. intros. rewrite cells_of_interd. apply lookup_interd. Qed.

(** A child's density only depends on its own column and its inputs. *)
Lemma density_ext : forall n S S', In n ns -> fine S -> fine S' ->
  (forall k, In k (n_outs n) -> lookup k S = lookup k S') ->
  ((exists k, In k (n_outs n) /\ In k (keys S)) -> forall i, In i (n_ins n) -> In i (keys I) \/ In i (keys S)) ->
  (forall i, In i (n_ins n) -> ~ In i (keys I) -> lookup i S = lookup i S') ->
  density n rid S I = density n rid S' I.
Proof.
  intros n S S' Hn F F' EO HI EI. destruct (LW n Hn) as (o & p & Ho & _ & HL).
  assert (HP : forall J, told dom n J -> forall x, In x (dom o) -> (0 <= p J x)%R /\ n_logpdf n rid [(o, x)] [] J = Ok (xlog (p J x))).
  { intros J TJ. apply (HL J TJ). }
  assert (Eo : lookup o S = lookup o S') by (apply EO; rewrite Ho; now left).
  destruct (lookup o S) as [x|] eqn:L.
  - assert (Ko : In o (keys S)) by (eapply lookup_Some_keys; eauto).
    assert (H1 : forall i, In i (n_ins n) -> In i (keys I) \/ In i (keys S)).
    { apply HI. exists o. rewrite Ho. split; [now left|exact Ko]. }
    assert (H2 : forall i, In i (n_ins n) -> In i (keys I) \/ In i (keys S')).
    { intros i Hi. destruct (in_dec Z.eq_dec i (keys I)) as [|N]; [auto|]. destruct (H1 i Hi) as [|K]; [auto|]. right.
      destruct (lookup_keys S i K) as (y & Ly). rewrite (EI i Hi N) in Ly. eapply lookup_Some_keys; eauto. }
    destruct (density_is n o p S x Ho HP F L H1) as [_ ->]. destruct (density_is n o p S' x Ho HP F' (eq_sym Eo) H2) as [_ ->].
    destruct (HL _ (fine_told n S' F' H2)) as (_ & _ & _ & _ & R). rewrite (R _ (fine_told n S F H1)); [reflexivity|].
    intros i. rewrite !lookup_cells. destruct (memb i (n_ins n)) eqn:M; [|reflexivity]. apply memb_In in M. rewrite !lookup_app.
    destruct (lookup i I) eqn:LI; [reflexivity|]. apply EI; [exact M|]. apply lookup_None. exact LI.
  - unfold density, local. rewrite Ho. rewrite !cells_no; [reflexivity| |]; apply lookup_None; congruence.
Qed.

Lemma fine_keys : forall S, fine S -> NoDup (keys S).
Proof. intros S F. apply F. Qed.

Lemma barren : forall f A all full topo S S', (forall k, In k all -> In k full) ->
  ready all topo (keys S') -> ready full topo (keys S) -> fine S -> fine S' -> extends S S' ->
  (forall k, In k (keys S) -> In k full \/ In k (keys S')) ->
  (forall l n o, In l topo -> nth_error ns l = Some n -> n_outs n = [o] -> In o (keys S) \/ In o full) ->
  (forall k, In k A -> In k (keys S') \/ In k all /\ exists l n, In l topo /\ nth_error ns l = Some n /\ n_outs n = [k]) ->
  (forall T T', extends T T' -> (forall k, In k A -> In k (keys T')) -> f T = f T') ->
  value f full topo S = value f all topo S'.
Proof.
  intros f A all full topo. induction topo as [|l topo IH]; intros S S' SUB RA RF F F' EX1 INV COV HA RES.
  - cbn [value]. apply RES; [exact EX1|]. intros k Hk. destruct (HA k Hk) as [|(_ & l & n & [] & _)]. auto.
  - cbn [ready] in RA, RF. destruct RA as (n & o & En & Ho & NA & HIA & RA). destruct RF as (n2 & o2 & En2 & Ho2 & NF & HIF & RF).
    assert (n2 = n) as -> by congruence. assert (o2 = o) as -> by congruence. clear En2 Ho2.
    assert (Hn := nth_error_In _ _ En). cbn [value]. rewrite En, Ho.
    assert (COV' : forall x l0 n0 o0, In l0 topo -> nth_error ns l0 = Some n0 -> n_outs n0 = [o0] -> In o0 (keys (S ++ [(o, x)])) \/ In o0 full).
    { intros x l0 n0 o0 H1 H2 H3. destruct (COV l0 n0 o0 (or_intror H1) H2 H3) as [X|X]; [|auto]. left. unfold keys. rewrite map_app. apply in_or_app. now left. }
    assert (KEY : In o (keys S) <-> In o (keys S')).
    { split.
      - intros K. destruct (INV o K) as [X|X]; [|exact X]. exfalso. apply NF. auto.
      - intros K. destruct (lookup_keys S' o K) as (x & L). apply EX1 in L. eapply lookup_Some_keys; eauto. }
    assert (EI : forall T T', extends T T' -> (forall i, In i (n_ins n) -> In i (keys I) \/ In i (keys T')) ->
       forall i, In i (n_ins n) -> ~ In i (keys I) -> lookup i T = lookup i T').
    { intros T T' XT H i Hi N. destruct (H i Hi) as [|K]; [contradiction|]. destruct (lookup_keys T' i K) as (y & Ly). rewrite Ly. apply XT. exact Ly. }
    destruct (dmem o S) eqn:D.
    + apply dmem_true in D. assert (D' : In o (keys S')) by (apply KEY; exact D).
      replace (dmem o S') with true by (symmetry; apply dmem_true; exact D').
      assert (MF : memb o full = false) by (apply memb_false; intros X; apply NF; auto).
      assert (MA : memb o all = false) by (apply memb_false; intros X; apply NA; auto).
      rewrite MF in RF. rewrite MA in RA. f_equal.
      * apply density_ext; [exact Hn|assumption|assumption| | |].
        -- intros k Hk. rewrite Ho in Hk. destruct Hk as [<-|[]]. destruct (lookup_keys S' o D') as (x & L). rewrite L. apply EX1. exact L.
        -- intros _ i Hi. destruct (HIF (or_introl D) i Hi); auto.
        -- apply EI; auto.
      * apply IH; auto.
        -- intros l0 n0 o0 H1. apply COV. now right.
        -- intros k Hk. destruct (HA k Hk) as [|(K1 & l0 & n0 & [<-|K2] & K3 & K4)]; [auto|left|right; split; [auto|eauto]].
           assert (k = o) as -> by congruence. exact D'.
    + assert (NK : ~ In o (keys S)) by (intros X; apply dmem_true in X; congruence).
      assert (NK' : ~ In o (keys S')) by (intros X; apply NK; apply KEY; exact X).
      replace (dmem o S') with false.
      2:{ symmetry. apply not_true_is_false. intros X. apply dmem_true in X. auto. }
      destruct (COV l n o (or_introl eq_refl) En Ho) as [X|Of]; [contradiction|].
      assert (MF : memb o full = true) by (apply memb_In; exact Of). rewrite MF in *.
      assert (EXT : forall x, extends (S ++ [(o, x)]) S').
      { intros x k y L. rewrite lookup_app. apply EX1 in L. rewrite L. reflexivity. }
      assert (KA : forall (T : row) x, keys (T ++ [(o, x)]) = keys T ++ [o]) by (intros; unfold keys; rewrite map_app; reflexivity).
      destruct (memb o all) eqn:MA.
      * apply memb_In in MA. apply rsum_ext. intros x Hx.
        assert (FA := fine_add n o S x F Hn Ho NK Hx). assert (FA' := fine_add n o S' x F' Hn Ho NK' Hx).
        assert (EXT2 : extends (S ++ [(o, x)]) (S' ++ [(o, x)])).
        { intros k y L. rewrite lookup_app in L |- *. destruct (lookup k S') as [z|] eqn:L'.
          - apply EX1 in L'. rewrite L'. exact L.
          - destruct (lookup k S) as [z|] eqn:L2; [|exact L]. exfalso. cbn in L. destruct (eq_dec k o) as [->|]; [|discriminate].
            apply NK. eapply lookup_Some_keys; eauto. }
        f_equal.
        -- apply density_ext; [exact Hn|assumption|assumption| | |].
           ++ intros k Hk. rewrite Ho in Hk. destruct Hk as [<-|[]]. rewrite !lookup_app.
              rewrite (proj2 (lookup_None S o) NK), (proj2 (lookup_None S' o) NK'). reflexivity.
           ++ intros _ i Hi. rewrite KA. destruct (HIF (or_intror Of) i Hi); [auto|]. right. apply in_or_app. now left.
           ++ apply EI; auto. intros i Hi. rewrite KA. destruct (HIA (or_intror MA) i Hi); [auto|]. right. apply in_or_app. now left.
        -- apply IH; auto.
           ++ rewrite KA. exact RA.
           ++ rewrite KA. exact RF.
           ++ intros k Hk. rewrite KA in *. apply in_app_or in Hk. destruct Hk as [Hk|Hk]; [|right; apply in_or_app; now right].
              destruct (INV k Hk); [auto|right; apply in_or_app; now left].
           ++ exact (COV' x).
           ++ intros k Hk. rewrite KA. destruct (HA k Hk) as [|(K1 & l0 & n0 & [<-|K2] & K3 & K4)].
              ** left. apply in_or_app. now left.
              ** left. apply in_or_app. right. left. congruence.
              ** right. split; [auto|eauto].
      * destruct (LW n Hn) as (o' & p & Ho' & _ & HL). rewrite Ho in Ho'. injection Ho' as <-.
        assert (HI := HIF (or_intror Of)). destruct (HL _ (fine_told n S F HI)) as (HP & S1 & _ & _ & _).
        transitivity (rsum (map (fun x => (value f all topo S' * p (cells_of (n_ins n) (I ++ S)) x)%R) (dom o))).
        2:{ rewrite rsum_scal, S1. ring. }
        apply rsum_ext. intros x Hx. assert (FA := fine_add n o S x F Hn Ho NK Hx).
        assert (DE : density n rid (S ++ [(o, x)]) I = p (cells_of (n_ins n) (I ++ S)) x).
        { assert (L : lookup o (S ++ [(o, x)]) = Some x).
          { rewrite lookup_app. rewrite (proj2 (lookup_None S o) NK). apply lookup_cons_eq. }
          assert (HI' : forall i, In i (n_ins n) -> In i (keys I) \/ In i (keys (S ++ [(o, x)]))).
          { intros i Hi. rewrite KA. destruct (HI i Hi); [auto|]. right. apply in_or_app. now left. }
          destruct (density_is n o p _ x Ho (fun J TJ => proj1 (HL J TJ)) FA L HI') as [_ ->].
          f_equal. rewrite !cells_of_interd, !interd_app. replace (interd (n_ins n) [(o, x)]) with (@nil (Z * val)); [rewrite app_nil_r; reflexivity|].
          cbn. destruct (memb o (n_ins n)) eqn:M; [|reflexivity]. exfalso. apply memb_In in M.
          destruct (HI o M) as [X|X]; [|auto]. apply (EX o X). apply in_flat_map. exists n. rewrite Ho. cbn. auto. }
        rewrite DE. rewrite (IH (S ++ [(o, x)]) S'); auto; [ring| | | |].
        -- rewrite KA. exact RF.
        -- intros k Hk. rewrite KA in Hk. apply in_app_or in Hk. destruct Hk as [Hk|[<-|[]]]; auto.
        -- exact (COV' x).
        -- intros k Hk. destruct (HA k Hk) as [|(K1 & l0 & n0 & [<-|K2] & K3 & K4)]; [auto| |right; split; [auto|eauto]].
           exfalso. assert (k = o) as -> by congruence. apply memb_false in MA. auto.
Qed.

(** ** Completions *)

Definition outs_of (topo : list nat) : list Z :=
  flat_map (fun l => match nth_error ns l with Some n => n_outs n | None => [] end) topo.

Lemma value_keys : forall f1 f2 all topo S,
  (forall T, (forall k, In k (keys T) <-> In k (keys S) \/ In k all /\ In k (outs_of topo)) -> f1 T = f2 T) ->
  value f1 all topo S = value f2 all topo S.
Proof.
  intros f1 f2 all topo. induction topo as [|l topo IH]; intros S H; cbn [value].
  - apply H. intros k. cbn. tauto.
  - cbn [outs_of flat_map] in H. fold (outs_of topo) in H. destruct (nth_error ns l) as [n|]; [|reflexivity].
    destruct (n_outs n) as [|o [|]]; try reflexivity. destruct (dmem o S) eqn:D.
    + f_equal. apply IH. intros T HT. apply H. intros k. rewrite HT. apply dmem_true in D. cbn [app In].
      split; [tauto|]. intros [K|[K [<-|K2]]]; auto.
    + destruct (memb o all) eqn:M.
      * apply rsum_ext. intros x _. f_equal. apply IH. intros T HT. apply H. intros k. rewrite HT. unfold keys at 1. rewrite map_app, in_app_iff.
        fold (keys S). cbn [map fst app In]. apply memb_In in M. split.
        -- intros [[K|[<-|[]]]|[K1 K2]]; auto.
        -- intros [K|[K1 [<-|K2]]]; auto.
      * apply IH. intros T HT. apply H. intros k. rewrite HT. cbn [app In]. apply memb_false in M.
        split; [tauto|]. intros [K|[K1 [<-|K2]]]; auto; contradiction.
Qed.

Lemma ready_fresh : forall full topo K, ready full topo K -> forall k, In k (outs_of topo) -> In k full -> ~ In k K.
Proof.
  intros full topo. induction topo as [|l topo IH]; intros K RD k Hk Hf X; [destruct Hk|].
  cbn [ready] in RD. destruct RD as (n & o & En & Ho & NB & _ & RD). cbn [outs_of flat_map] in Hk. fold (outs_of topo) in Hk. rewrite En, Ho in Hk.
  destruct Hk as [<-|Hk]; [apply NB; auto|]. apply (IH _ RD k Hk Hf). destruct (memb o full); [apply in_or_app; auto|exact X].
Qed.

Lemma ready_NoDup : forall full topo K, ready full topo K -> NoDup (filter (fun k => memb k full) (outs_of topo)).
Proof.
  intros full topo. induction topo as [|l topo IH]; intros K RD; [constructor|].
  cbn [ready] in RD. destruct RD as (n & o & En & Ho & NB & _ & RD). cbn [outs_of flat_map]. fold (outs_of topo). rewrite En, Ho.
  cbn [app filter]. destruct (memb o full) eqn:M; [|eauto]. constructor; [|eauto]. intros X. apply filter_In in X. destruct X as [X1 X2].
  apply (ready_fresh _ _ _ RD o X1); [apply memb_In; exact M|]. apply in_or_app. right. now left.
Qed.

Definition filled (cols : list Z) (D : row) : Prop :=
  Permutation (keys D) cols /\ forall k x, In (k, x) D -> In x (dom k).

Lemma fillings_filled : forall cols D, In D (fillings dom cols) -> keys D = cols /\ filled cols D.
Proof.
  assert (G : forall cols D, In D (fillings dom cols) -> keys D = cols /\ forall k x, In (k, x) D -> In x (dom k)).
  { induction cols as [|c cols IH]; intros D H; cbn [fillings] in H.
    - destruct H as [<-|[]]. split; [reflexivity|intros k x []].
    - apply in_flat_map in H. destruct H as (x & Hx & H). apply in_map_iff in H. destruct H as (D' & <- & H).
      destruct (IH D' H) as [K V]. split; [cbn; f_equal; exact K|]. intros k y [E|Hy]; [injection E as <- <-; exact Hx|eauto]. }
  intros cols D H. destruct (G cols D H) as [K V]. split; [exact K|]. split; [rewrite K; reflexivity|exact V].
Qed.

Lemma fine_fill : forall S D cols, fine S -> filled cols D -> NoDup cols -> (forall k, In k cols -> In k (flat_map n_outs ns) /\ ~ In k (keys S)) ->
  fine (S ++ D).
Proof.
  intros S D cols (NS & KS & DS) [PD DD] NC HC. split; [|split].
  - unfold keys. rewrite map_app. apply NoDup_both; [exact NS|apply (Permutation_NoDup (Permutation_sym PD)); exact NC|].
    intros k H1 H2. apply (Permutation_in _ PD) in H2. apply (HC k H2). exact H1.
  - intros k Hk. unfold keys in Hk. rewrite map_app in Hk. apply in_app_or in Hk. destruct Hk as [Hk|Hk]; [auto|].
    apply (Permutation_in _ PD) in Hk. apply HC. exact Hk.
  - intros k x Hx. apply in_app_or in Hx. destruct Hx; eauto.
Qed.

Definition density_at (l : nat) (S : row) : R := match nth_error ns l with Some n => density n rid S I | None => 0%R end.

Lemma rsum_flat_map : forall {A B} (g : B -> R) (h : A -> list B) l,
  rsum (map g (flat_map h l)) = rsum (map (fun a => rsum (map g (h a))) l).
Proof.
  intros A B g h l. induction l as [|a l IH]; [reflexivity|]. cbn [flat_map]. rewrite map_app, rsum_app, IH. reflexivity.
Qed.

Lemma outs_in_ns : forall topo k, In k (outs_of topo) -> In k (flat_map n_outs ns).
Proof.
  intros topo k H. apply in_flat_map in H. destruct H as (l & _ & H). destruct (nth_error ns l) as [n|] eqn:E; [|destruct H].
  apply in_flat_map. eauto using nth_error_In.
Qed.

Lemma value_fillings : forall f full topo S, ready full topo (keys S) -> fine S ->
  (forall k, In k (outs_of topo) -> In k (keys S) \/ In k full) ->
  value f full topo S = rsum (map (fun D => rprod (map (fun l => density_at l (S ++ D)) topo) * f (S ++ D))
    (fillings dom (filter (fun k => memb k full) (outs_of topo))))%R.
Proof.
  intros f full topo. induction topo as [|l topo IH]; intros S RD F COV.
  - cbn [value outs_of flat_map filter fillings map rsum fold_right]. rewrite app_nil_r.
    change (f S = (rprod [] * f S + 0)%R). cbn. lra.
  - pose proof (ready_fresh _ _ _ RD) as FR. pose proof (ready_NoDup _ _ _ RD) as ND. cbn [ready] in RD.
    destruct RD as (n & o & En & Ho & NB & HI & RD). cbn [value]. rewrite En, Ho.
    cbn [outs_of flat_map] in *. fold (outs_of topo) in *. rewrite En, Ho in *. cbn [app filter] in *. assert (Hn := nth_error_In _ _ En).
    assert (COL : forall k, In k (filter (fun k => memb k full) (outs_of topo)) -> In k (flat_map n_outs ns) /\ ~ In k (keys S)).
    { intros k Hk. apply filter_In in Hk. destruct Hk as [K1 K2]. apply memb_In in K2. split; [eapply outs_in_ns; eauto|]. apply FR; [right; exact K1|exact K2]. }
    destruct (dmem o S) eqn:D.
    + apply dmem_true in D. assert (MF : memb o full = false) by (apply memb_false; intros X; apply NB; auto). rewrite MF in *.
      rewrite (IH S RD F) by (intros k Hk; apply COV; now right). rewrite <- rsum_scal. apply rsum_ext. intros E HE.
      cbn [map]. change (rprod (?a :: ?b)) with (a * rprod b)%R. unfold density_at at 2. rewrite En.
      destruct (fillings_filled _ _ HE) as [KE FE]. assert (FSE := fine_fill S E _ F FE ND COL).
      rewrite (density_ext n S (S ++ E) Hn F FSE); [ring| |intros _ i Hi; apply (HI (or_introl D) i Hi)|].
      * intros k Hk. rewrite Ho in Hk. destruct Hk as [<-|[]]. rewrite lookup_app. destruct (lookup_keys S o D) as (x & ->). reflexivity.
      * intros i Hi N. rewrite lookup_app. destruct (HI (or_introl D) i Hi) as [X|X]; [contradiction|].
        destruct (lookup_keys S i X) as (x & ->). reflexivity.
    + assert (NK : ~ In o (keys S)) by (intros X; apply dmem_true in X; congruence).
      destruct (COV o (or_introl eq_refl)) as [X|Of]; [contradiction|].
      assert (MF : memb o full = true) by (apply memb_In; exact Of). rewrite MF in *. cbn [fillings]. rewrite rsum_flat_map.
      apply rsum_ext. intros x Hx. rewrite map_map.
      assert (FA := fine_add n o S x F Hn Ho NK Hx).
      assert (KA : keys (S ++ [(o, x)]) = keys S ++ [o]) by (unfold keys; rewrite map_app; reflexivity).
      rewrite (IH (S ++ [(o, x)])); auto.
      2:{ rewrite KA. exact RD. }
      2:{ intros k Hk. rewrite KA. destruct (COV k (or_intror Hk)); [left; apply in_or_app; now left|auto]. }
      rewrite <- rsum_scal. apply rsum_ext. intros E HE. replace (S ++ (o, x) :: E) with ((S ++ [(o, x)]) ++ E) by (rewrite <- app_assoc; reflexivity).
      cbn [map]. change (rprod (?a :: ?b)) with (a * rprod b)%R. unfold density_at at 2. rewrite En.
      destruct (fillings_filled _ _ HE) as [KE FE]. inversion ND as [|? ? No ND']; subst.
      assert (FSE : fine ((S ++ [(o, x)]) ++ E)).
      { apply (fine_fill _ E _ FA FE ND'). intros k Hk. destruct (COL k Hk) as [C1 C2]. split; [exact C1|]. rewrite KA. intros X.
        apply in_app_or in X. destruct X as [X|[<-|[]]]; auto. }
      rewrite (density_ext n (S ++ [(o, x)]) ((S ++ [(o, x)]) ++ E) Hn FA FSE); [ring| | |].
      * intros k Hk. rewrite Ho in Hk. destruct Hk as [<-|[]]. rewrite (lookup_app (S ++ [(o, x)]) E).
        assert (L : lookup o (S ++ [(o, x)]) = Some x).
        { rewrite lookup_app. rewrite (proj2 (lookup_None S o) NK). apply lookup_cons_eq. }
        rewrite L. reflexivity.
      * intros _ i Hi. rewrite KA. destruct (HI (or_intror Of) i Hi) as [X|X]; [auto|]. right. apply in_or_app. now left.
      * intros i Hi N. rewrite (lookup_app (S ++ [(o, x)]) E). destruct (HI (or_intror Of) i Hi) as [X|X]; [contradiction|].
        rewrite lookup_app. destruct (lookup_keys S i X) as (y & ->). reflexivity.
Qed.

Lemma rsum_swap : forall {A B} (g : A -> B -> R) (l : list A) (l' : list B),
  rsum (map (fun a => rsum (map (g a) l')) l) = rsum (map (fun b => rsum (map (fun a => g a b) l)) l').
Proof.
  intros A B g l l'. induction l as [|a l IH].
  - cbn. symmetry. apply rsum_zero. intros x Hx. apply in_map_iff in Hx. destruct Hx as (b & <- & _). reflexivity.
  - cbn [map]. change (rsum (?a :: ?b)) with (a + rsum b)%R. rewrite IH. rewrite <- rsum_add. reflexivity.
Qed.

Lemma fillings_perm : forall cols cols', Permutation cols cols' -> forall (F : row -> R),
  (forall D D', filled cols D -> Permutation D D' -> F D = F D') ->
  rsum (map F (fillings dom cols)) = rsum (map F (fillings dom cols')).
Proof.
  induction 1 as [|c l l' P IH|c d l|l l' l'' P1 IH1 P2 IH2]; intros F R; [reflexivity| | |].
  - cbn [fillings]. rewrite !rsum_flat_map. apply rsum_ext. intros x Hx. rewrite !map_map. apply (IH (fun D => F ((c, x) :: D))).
    intros D D' [PD DD] PE. apply R; [|constructor; exact PE]. split; [cbn; constructor; exact PD|].
    intros k y [E|Hy]; [injection E as <- <-; exact Hx|eauto].
  - cbn [fillings]. rewrite !rsum_flat_map.
    transitivity (rsum (map (fun x => rsum (map (fun y => rsum (map (fun D => F ((d, x) :: (c, y) :: D)) (fillings dom l))) (dom c))) (dom d))).
    { apply rsum_ext. intros x Hx. rewrite map_map, rsum_flat_map. apply rsum_ext. intros y Hy. rewrite map_map. reflexivity. }
    rewrite rsum_swap. apply rsum_ext. intros x Hx. rewrite map_map, rsum_flat_map. apply rsum_ext. intros y Hy. rewrite map_map.
    apply rsum_ext. intros D HD. destruct (fillings_filled _ _ HD) as [KD [PD DD]]. apply R; [|apply perm_swap].
    split; [cbn; change (map fst D) with (keys D); rewrite KD; reflexivity|]. intros k z [E|[E|Hz]]; [injection E as <- <-; exact Hy|injection E as <- <-; exact Hx|eauto].
  - rewrite IH1 by exact R. apply IH2. intros D D' [PD DD]. apply R. split; [exact (Permutation_trans PD (Permutation_sym P1))|exact DD].
Qed.

(** ** The levels never raise *)

Lemma levels_choices : forall all topo S w, finite_choices (levels ns rid all I topo S w).
Proof.
  intros all topo. induction topo as [|l topo IH]; intros S w; [exact Logic.I|]. cbn [levels].
  destruct (nth_error ns l) as [n|] eqn:En; [|exact Logic.I]. apply choices_sobind; [|intros; apply IH].
  destruct (LW n (nth_error_In _ _ En)) as (o & p & _ & FC & _). unfold invoke.
  destruct (match interd (n_outs n) S with [] => _ | _ => _ end); [|exact Logic.I].
  destruct (match interd (n_outs n) S with [] => _ | _ => _ end); [|exact Logic.I].
  destruct (interl (n_outs n) all) as [|t tc]; [exact Logic.I|].
  apply choices_sobind; [apply FC|intros; exact Logic.I].
Qed.

Lemma levels_return : forall all topo S q, NoDup all -> ready all topo (keys S) -> fine S -> (0 <= q)%R ->
  always (levels ns rid all I topo S (xlog q)) (fun r => exists T q', r = Ok (T, xlog q') /\ (0 <= q')%R /\ extends T S /\
    (NoDup (outs_of topo) -> (forall k, In k (outs_of topo) -> ~ In k (keys S)) -> q' = q) /\
    forall k, In k (keys T) <-> In k (keys S) \/ In k all /\ In k (outs_of topo)).
Proof.
  intros all topo. induction topo as [|l topo IH]; intros S q NA RD F Q.
  - cbn [levels always]. exists S, q. split; [reflexivity|]. split; [exact Q|]. split; [intros k x H; exact H|]. split; [reflexivity|]. intros k. cbn. tauto.
  - cbn [ready] in RD. destruct RD as (n & o & En & Ho & NB & HI & RD). cbn [levels]. rewrite En.
    assert (Hn := nth_error_In _ _ En). destruct (LW n Hn) as (o' & p & Ho' & _ & HL). rewrite Ho in Ho'. injection Ho' as <-.
    assert (HP : forall J, told dom n J -> forall x, In x (dom o) -> (0 <= p J x)%R /\ n_logpdf n rid [(o, x)] [] J = Ok (xlog (p J x))).
    { intros J TJ. apply (HL J TJ). }
    pose proof (fine_disjoint S F) as DJ. pose proof F as (NS & KS & DS).
    cbn [outs_of flat_map]. fold (outs_of topo). rewrite En, Ho.
    unfold invoke. rewrite (inputs_given n S I DJ), Ho. unfold sobind at 1; apply always_bind.
    assert (TC : interl [o] all = if memb o all then [o] else []) by (apply interl_single; exact NA).
    destruct (dmem o S) eqn:DM.
    + apply dmem_true in DM. assert (NAo : memb o all = false) by (apply memb_false; intros X; apply NB; auto).
      rewrite NAo in *. rewrite TC. destruct (lookup_keys S o DM) as (x & L).
      specialize (HI (or_introl DM)). destruct (density_is n o p S x Ho HP F L HI) as [LC DE].
      rewrite <- cells_of_interd, (cells_one o S x NS L).
      assert (A : oassert (forallb (fun i => dmem i (cells_of (n_ins n) (I ++ S))) (n_ins n)) = Ok tt).
      { unfold oassert. replace (forallb _ _) with true; [reflexivity|]. symmetry. apply forallb_forall. intros i Hi.
        apply dmem_true. apply (fine_told n S F HI). exact Hi. }
      rewrite A. unfold local in LC. rewrite Ho, (cells_one o S x NS L) in LC. rewrite LC. cbn [always fst snd].
      assert (P0 : (0 <= p (cells_of (n_ins n) (I ++ S)) x)%R).
      { apply (HP _ (fine_told n S F HI) x). apply (DS o). apply lookup_In. exact L. }
      rewrite merged_nil_r by exact NS. rewrite xlog_mul by assumption.
      generalize (IH S (q * p (cells_of (n_ins n) (I ++ S)) x)%R NA RD F (Rmult_le_pos _ _ Q P0)). apply always_imp.
      intros r (T & q' & -> & Q' & XT & W & KT). exists T, q'. split; [reflexivity|]. split; [exact Q'|]. split; [exact XT|].
      split; [intros _ DN; exfalso; apply (DN o (or_introl eq_refl)); exact DM|].
      intros k. rewrite KT. cbn [app In]. apply memb_false in NAo. split; [tauto|]. intros [K|[K [<-|K2]]]; auto.
    + assert (NK : ~ In o (keys S)) by (intros X; apply dmem_true in X; congruence).
      rewrite <- cells_of_interd, (cells_no o S NK), TC. destruct (memb o all) eqn:M.
      * apply memb_In in M. specialize (HI (or_intror M)). assert (TD := fine_told n S F HI).
        assert (A : oassert (forallb (fun i => dmem i (cells_of (n_ins n) (I ++ S))) (n_ins n)) = Ok tt).
        { unfold oassert. replace (forallb _ _) with true; [reflexivity|]. symmetry. apply forallb_forall. intros i Hi.
          apply dmem_true. apply TD. exact Hi. }
        rewrite A. destruct (HL _ TD) as (_ & _ & _ & AL & _). unfold sobind at 1; apply always_bind. generalize AL. apply always_imp.
        intros r (x & Hx & ->). cbn [always fst snd].
        assert (FA := fine_add n o S x F Hn Ho NK Hx).
        rewrite merged_disj; [|exact NS|constructor; [intros []|constructor]|intros k [<-|[]]; exact NK].
        rewrite xadd_0_r. assert (KA : keys (S ++ [(o, x)]) = keys S ++ [o]) by (unfold keys; rewrite map_app; reflexivity).
        rewrite <- KA in RD. generalize (IH (S ++ [(o, x)]) q NA RD FA Q). apply always_imp.
        intros r (T & q' & -> & Q' & XT & W & KT). exists T, q'. split; [reflexivity|]. split; [exact Q'|]. split.
        { intros k y L. apply XT. rewrite lookup_app, L. reflexivity. }
        split.
        { intros ND DN. inversion ND; subst. apply W; [assumption|]. intros k Hk. rewrite KA. intros X. apply in_app_or in X.
          destruct X as [X|[<-|[]]]; [|auto]. apply (DN k); [now right|exact X]. }
        intros k. rewrite KT, KA, in_app_iff. cbn [app In]. split.
        -- intros [[K|[<-|[]]]|[K1 K2]]; auto.
        -- intros [K|[K1 [<-|K2]]]; auto.
      * cbn [always fst snd]. rewrite merged_nil_r by exact NS. rewrite xadd_0_r.
        generalize (IH S q NA RD F Q). apply always_imp.
        intros r (T & q' & -> & Q' & XT & W & KT). exists T, q'. split; [reflexivity|]. split; [exact Q'|]. split; [exact XT|].
        split; [intros ND DN; inversion ND; subst; apply W; [assumption|]; intros k Hk; apply DN; now right|].
        intros k. rewrite KT. cbn [app In]. apply memb_false in M. split; [tauto|]. intros [K|[K [<-|K2]]]; auto; contradiction.
Qed.

(** ** The columns a query samples *)

Section Topo.
Variable topo : list nat.
Hypothesis ND : NoDup (flat_map n_outs ns).
Hypothesis PM : Permutation (seq 0 (List.length ns)) topo.
Hypothesis BF : before (adjacency ns) topo.
Hypothesis EXT : forall i, In i (extraneous ns) -> In i (keys I).

Lemma single : forall n, In n ns -> exists o, n_outs n = [o].
Proof. intros n Hn. destruct (LW n Hn) as (o & _ & Ho & _). eauto. Qed.

Lemma topo_nth : forall l, In l topo -> exists n, nth_error ns l = Some n /\ In n ns.
Proof.
  intros l Hl. apply (Permutation_in _ (Permutation_sym PM)) in Hl. apply in_seq in Hl.
  destruct (nth_error ns l) as [n|] eqn:E; [eauto using nth_error_In|]. apply nth_error_None in E. lia.
Qed.

Lemma outs_topo : Permutation (outs_of topo) (flat_map n_outs ns).
Proof.
  unfold outs_of.
  transitivity (flat_map (fun l => match nth_error ns l with Some n => n_outs n | None => [] end) (seq 0 (List.length ns))).
  { apply Permutation_flat_map. symmetry. exact PM. }
  assert (G : forall pre l, ns = pre ++ l -> flat_map (fun l => match nth_error ns l with Some n => n_outs n | None => [] end)
     (seq (List.length pre) (List.length l)) = flat_map n_outs l).
  { intros pre l. revert pre. induction l as [|a l IH]; intros pre E; [reflexivity|]. cbn [List.length seq flat_map].
    assert (Ea : nth_error ns (List.length pre) = Some a).
    { rewrite E, nth_error_app2 by lia. rewrite Nat.sub_diag. reflexivity. }
    rewrite Ea. f_equal. specialize (IH (pre ++ [a])). rewrite app_length, Nat.add_1_r in IH.
    apply IH. rewrite <- app_assoc. exact E. }
  specialize (G [] ns eq_refl). cbn [List.length] in G. rewrite G. reflexivity.
Qed.

Lemma ready_intro : forall all S0, (forall k, In k all -> ~ In k S0 /\ In k (flat_map n_outs ns)) ->
  (forall n o, In n ns -> n_outs n = [o] -> In o S0 \/ In o all -> forall i, In i (n_ins n) -> In i (keys I) \/ In i S0 \/ In i all) ->
  ready all topo S0.
Proof.
  intros all S0 HA CL.
  assert (NT : NoDup topo) by (apply (Permutation_NoDup PM); apply seq_NoDup).
  assert (G : forall l2 l1, topo = l1 ++ l2 -> forall K, (forall k, In k K <-> In k S0 \/ In k all /\ In k (outs_of l1)) -> ready all l2 K).
  { induction l2 as [|l l2 IH]; intros l1 E K HK; [exact Logic.I|]. cbn [ready].
    assert (Hl : In l topo) by (rewrite E; apply in_or_app; right; now left).
    destruct (topo_nth l Hl) as (n & En & Hn). destruct (single n Hn) as (o & Ho). exists n, o.
    split; [exact En|]. split; [exact Ho|].
    assert (NO : In o all -> ~ In o K).
    { intros Ao X. apply HK in X. destruct (HA o Ao) as [H1 _]. destruct X as [X|[_ X]]; [auto|].
      apply in_flat_map in X. destruct X as (j & Hj & X). destruct (nth_error ns j) as [m|] eqn:Em; [|destruct X].
      assert (j <> l).
      { intros ->. rewrite E in NT. apply NoDup_remove_2 in NT. apply NT. apply in_or_app. now left. }
      apply (outs_disj n_outs ns j l m n o ND Em En); auto. rewrite Ho. now left. }
    split; [intros [X Y]; exact (NO Y X)|]. split.
    - intros W i Hi. assert (W' : In o S0 \/ In o all).
      { destruct W as [W|W]; [|auto]. apply HK in W. tauto. }
      destruct (CL n o Hn Ho W' i Hi) as [X|[X|X]]; [auto|right; apply HK; auto|]. right. apply HK. right. split; [exact X|].
      destruct (HA i X) as [_ X2]. apply in_flat_map in X2. destruct X2 as (m & Hm & X2). apply In_nth_error in Hm. destruct Hm as (j & Em).
      assert (Hj := parent_before ns topo ND PM BF l1 l l2 n i j m E En Hi Em X2).
      apply in_flat_map. exists j. rewrite Em. auto.
    - apply (IH (l1 ++ [l])); [rewrite <- app_assoc; exact E|]. intros k. unfold outs_of. rewrite flat_map_app. fold (outs_of l1).
      cbn [flat_map]. rewrite En, Ho, app_nil_r. destruct (memb o all) eqn:M.
      + apply memb_In in M. rewrite !in_app_iff, HK. cbn [In]. split; [intros [[X|[X Y]]|[<-|[]]]; auto 6|].
        intros [X|[X [Y|[<-|[]]]]]; auto.
      + apply memb_false in M. rewrite !in_app_iff, HK. cbn [In]. split; [tauto|].
        intros [X|[X [Y|[<-|[]]]]]; auto; contradiction. }
  apply (G topo []); [reflexivity|]. intros k. cbn. tauto.
Qed.

Lemma hidden_In : forall S k, In k (hidden ns S) <-> In k (flat_map n_outs ns) /\ ~ In k (keys S).
Proof.
  intros S k. unfold hidden. rewrite filter_In. split; intros [H1 H2]; (split; [exact H1|]).
  - intros X. apply negb_true_iff in H2. assert (Y : existsb (Z.eqb k) (keys S) = true); [|congruence].
    apply existsb_exists. exists k. split; [exact X|apply Z.eqb_refl].
  - apply negb_true_iff. destruct (existsb _ _) eqn:B; [|reflexivity]. exfalso. apply existsb_exists in B.
    destruct B as (y & Hy & B). apply Z.eqb_eq in B. subst. auto.
Qed.

Lemma input_known : forall n i, In n ns -> In i (n_ins n) -> In i (keys I) \/ In i (flat_map n_outs ns).
Proof.
  intros n i Hn Hi. destruct (in_dec Z.eq_dec i (flat_map n_outs ns)) as [|N]; [auto|]. left. apply EXT. apply extraneous_In.
  split; [apply in_flat_map; eauto|exact N].
Qed.

Lemma ready_full : forall S, ready (hidden ns S) topo (keys S).
Proof.
  intros S. apply ready_intro.
  - intros k Hk. apply hidden_In in Hk. tauto.
  - intros n o Hn Ho _ i Hi. destruct (input_known n i Hn Hi) as [|X]; [auto|]. right.
    destruct (in_dec Z.eq_dec i (keys S)) as [|N]; [auto|]. right. apply hidden_In. auto.
Qed.

Lemma required_mono : forall C l req v, In v req -> In v (fold_left (required_step ns C) l req).
Proof.
  intros C l. induction l as [|i l IH]; intros req v H; [exact H|]. cbn [fold_left]. apply IH. unfold required_step.
  destruct (nth_error ns i); [|exact H]. destruct (existsb _ _); [apply in_or_app; now left|exact H].
Qed.

Lemma required_new : forall C l req v, In v (fold_left (required_step ns C) l req) ->
  In v req \/ exists i n, In i l /\ nth_error ns i = Some n /\ In v (n_ins n).
Proof.
  intros C l. induction l as [|i l IH]; intros req v H; [auto|]. cbn [fold_left] in H. apply IH in H.
  destruct H as [H|(j & n & Hj & En & Hv)]; [|right; exists j, n; split; [now right|auto]].
  unfold required_step in H. destruct (nth_error ns i) as [n|] eqn:En; [|auto]. destruct (existsb _ _); [|auto].
  apply in_app_or in H. destruct H as [H|H]; [auto|]. right. exists i, n. split; [now left|auto].
Qed.

Lemma required_closed : forall C ts n o, In n ns -> n_outs n = [o] ->
  In o (keys C) \/ In o (fold_left (required_step ns C) (rev topo) ts) ->
  forall i, In i (n_ins n) -> In i (fold_left (required_step ns C) (rev topo) ts).
Proof.
  intros C ts n o Hn Ho W i Hi. apply In_nth_error in Hn. destruct Hn as (l & En).
  assert (Hl : In l topo).
  { apply (Permutation_in _ PM). apply in_seq. split; [lia|]. apply nth_error_Some. congruence. }
  apply in_split in Hl. destruct Hl as (l1 & l2 & E). pose proof (parent_before ns topo ND PM BF l1 l l2) as PB.
  assert (NT : NoDup topo) by (apply (Permutation_NoDup PM); apply seq_NoDup).
  rewrite E, rev_app_distr. cbn [rev]. rewrite !fold_left_app. cbn [fold_left].
  rewrite E, rev_app_distr in W. cbn [rev] in W. rewrite !fold_left_app in W. cbn [fold_left] in W.
  set (R0 := fold_left (required_step ns C) (rev l2) ts) in *. apply required_mono.
  assert (W' : In o (keys C) \/ In o R0).
  { destruct W as [W|W]; [auto|]. apply required_new in W. destruct W as [W|(j & m & Hj & Em & Hm)].
    - right. unfold required_step in W. rewrite En in W. destruct (existsb _ _); [|exact W]. apply in_app_or in W. destruct W as [W|W]; [exact W|].
      exfalso. assert (X := PB n o l n E En W En). rewrite Ho in X. specialize (X (or_introl eq_refl)).
      rewrite E in NT. apply NoDup_remove_2 in NT. apply NT. apply in_or_app. now left.
    - exfalso. apply in_rev in Hj. apply in_split in Hj. destruct Hj as (a & b & El).
      assert (X := parent_before ns topo ND PM BF a j (b ++ l :: l2) m o l n).
      rewrite Ho in X. assert (In l a).
      { apply X; auto; [|now left]. rewrite E, El, <- app_assoc. reflexivity. }
      rewrite E in NT. apply NoDup_remove_2 in NT. apply NT. apply in_or_app. left. rewrite El. apply in_or_app. now left. }
  unfold required_step. rewrite En, Ho. replace (existsb _ _) with true; [apply in_or_app; now right|].
  symmetry. cbn [existsb]. rewrite orb_false_r. apply orb_true_iff. destruct W' as [W'|W']; [right; apply dmem_true; exact W'|left; apply memb_In; exact W'].
Qed.

Lemma required_In : forall ts C v, In v (required ns topo ts C) <->
  In v (fold_left (required_step ns C) (rev topo) ts) /\ ~ In v ts /\ ~ In v (keys C) /\ ~ In v (extraneous ns).
Proof.
  intros ts C v. unfold required. rewrite filter_In. rewrite dedup_In, !andb_true_iff, !negb_true_iff, !memb_false.
  assert (X : dmem v C = false <-> ~ In v (keys C)).
  { rewrite <- dmem_true. split; [congruence|]. apply not_true_is_false. }
  rewrite X. tauto.
Qed.

Lemma all_ready : forall ts S, (forall k, In k ts -> ~ In k (keys S) /\ In k (flat_map n_outs ns)) ->
  let all := ts ++ required ns topo ts S in
  ready all topo (keys S) /\ forall k, In k all -> ~ In k (keys S) /\ In k (flat_map n_outs ns).
Proof.
  intros ts S HT all.
  assert (HA : forall k, In k all -> ~ In k (keys S) /\ In k (flat_map n_outs ns)).
  { intros k Hk. apply in_app_or in Hk. destruct Hk as [Hk|Hk]; [auto|]. apply required_In in Hk.
    destruct Hk as (K1 & K2 & K3 & K4). split; [exact K3|]. apply required_new in K1. destruct K1 as [K1|(i & n & Hi & En & Hv)]; [contradiction|].
    destruct (in_dec Z.eq_dec k (flat_map n_outs ns)) as [|N]; [auto|]. exfalso. apply K4. apply extraneous_In.
    split; [|exact N]. apply in_flat_map. eauto using nth_error_In. }
  split; [|exact HA]. apply ready_intro; [exact HA|]. intros n o Hn Ho W i Hi.
  assert (X : In i (fold_left (required_step ns S) (rev topo) ts)).
  { apply (required_closed S ts n o Hn Ho); [|exact Hi]. destruct W as [W|W]; [auto|]. right. apply in_app_or in W.
    destruct W as [W|W]; [apply required_mono; exact W|]. apply required_In in W. apply W. }
  destruct (in_dec Z.eq_dec i ts) as [K|K]; [right; right; apply in_or_app; auto|].
  destruct (in_dec Z.eq_dec i (keys S)) as [K'|K']; [auto|].
  destruct (in_dec Z.eq_dec i (extraneous ns)) as [K2|K2]; [left; apply EXT; exact K2|].
  right. right. apply in_or_app. right. apply required_In. auto.
Qed.

Lemma all_NoDup : forall ts S, NoDup ts -> NoDup (ts ++ required ns topo ts S).
Proof.
  intros ts S NT. apply NoDup_both; [exact NT|unfold required; apply NoDup_filter; apply dedup_NoDup|].
  intros k H1 H2. apply required_In in H2. tauto.
Qed.

(** ** The mean weight *)

Lemma value_total : forall f S, fine S ->
  (forall T T', (forall k, lookup k T = lookup k T') -> f T = f T') ->
  value f (hidden ns S) topo S = total ns dom rid S I f.
Proof.
  intros f S F RES. rewrite value_fillings; [|apply ready_full|exact F|].
  2:{ intros k Hk. apply outs_in_ns in Hk. destruct (in_dec Z.eq_dec k (keys S)); [auto|]. right. apply hidden_In. auto. }
  assert (PH : Permutation (filter (fun k => memb k (hidden ns S)) (outs_of topo)) (hidden ns S)).
  { apply NoDup_Permutation.
    - apply (ready_NoDup _ _ _ (ready_full S)).
    - apply NoDup_filter. exact ND.
    - intros k. rewrite filter_In, memb_In. split; [tauto|]. intros H. split; [|exact H].
      apply (Permutation_in _ (Permutation_sym outs_topo)). apply hidden_In in H. tauto. }
  assert (NH : NoDup (hidden ns S)) by (apply NoDup_filter; exact ND).
  assert (HC : forall k, In k (hidden ns S) -> In k (flat_map n_outs ns) /\ ~ In k (keys S)) by (intros k; apply hidden_In).
  assert (LK : forall cols D D', NoDup cols -> filled cols D -> Permutation D D' -> forall k, lookup k (S ++ D) = lookup k (S ++ D')).
  { intros cols D D' NC [PD DD] P k. rewrite !lookup_app. destruct (lookup k S); [reflexivity|]. apply lookup_perm; [exact P|].
    apply (Permutation_NoDup (Permutation_sym PD)). exact NC. }
  unfold total. rewrite <- (fillings_perm _ _ PH).
  - apply rsum_ext. intros D HD. f_equal. unfold joint.
    transitivity (rprod (map (fun l => density_at l (S ++ D)) (seq 0 (List.length ns)))).
    { apply rprod_perm. apply Permutation_map. symmetry. exact PM. }
    f_equal. clear. unfold density_at.
    assert (G : forall pre l, ns = pre ++ l -> map (fun l => match nth_error ns l with Some n => density n rid (S ++ D) I | None => 0%R end)
       (seq (List.length pre) (List.length l)) = map (fun n => density n rid (S ++ D) I) l).
    { intros pre l. revert pre. induction l as [|a l IH]; intros pre E; [reflexivity|]. cbn [List.length seq map].
      assert (Ea : nth_error ns (List.length pre) = Some a).
      { rewrite E, nth_error_app2 by lia. rewrite Nat.sub_diag. reflexivity. }
      rewrite Ea. f_equal. specialize (IH (pre ++ [a])). rewrite app_length, Nat.add_1_r in IH.
      apply IH. rewrite <- app_assoc. exact E. }
    apply (G [] ns eq_refl).
  - intros D D' FD P. assert (NC := Permutation_NoDup (Permutation_sym PH) NH). assert (L := LK _ D D' NC FD P).
    f_equal; [|apply RES; exact L]. unfold joint. f_equal. apply map_ext_in. intros n Hn.
    assert (HC' : forall k, In k (filter (fun k => memb k (hidden ns S)) (outs_of topo)) -> In k (flat_map n_outs ns) /\ ~ In k (keys S)).
    { intros k Hk. apply HC. apply (Permutation_in _ PH). exact Hk. }
    assert (FD' : filled (filter (fun k => memb k (hidden ns S)) (outs_of topo)) D').
    { destruct FD as [PD DD]. split; [transitivity (keys D); [apply Permutation_map; symmetry; exact P|exact PD]|].
      intros k x Hx. apply DD. apply (Permutation_in _ (Permutation_sym P)). exact Hx. }
    apply density_ext; [exact Hn|apply (fine_fill S D _ F FD NC HC')|apply (fine_fill S D' _ F FD' NC HC')| | |].
    + intros k _. apply L.
    + intros _ i Hi. destruct (input_known n i Hn Hi) as [|X]; [auto|]. right. unfold keys. rewrite map_app. apply in_or_app.
      destruct (in_dec Z.eq_dec i (keys S)) as [|N]; [auto|]. right. destruct FD as [PD _]. apply (Permutation_in _ (Permutation_sym PD)).
      apply (Permutation_in _ (Permutation_sym PH)). apply hidden_In. auto.
    + intros i _ _. apply L.
Qed.

Lemma weight_mean : forall acc ts S f, NoDup ts -> (forall k, In k ts -> ~ In k (keys S) /\ In k (flat_map n_outs ns)) -> fine S ->
  (forall T T', (forall k, In k ts \/ In k (keys S) -> lookup k T = lookup k T') -> f T = f T') ->
  expect (weighted_sample (mkChain ns acc topo) rid ts S I)
    (fun r => match r with Ok (T, w) => xexp w * f T | Err _ => 0 end)%R = total ns dom rid S I f.
Proof.
  intros acc ts S f NT HT F RES. destruct (all_ready ts S HT) as [RA HA]. unfold weighted_sample. cbn [ch_nodes ch_topo].
  set (all := ts ++ required ns topo ts S) in *. assert (NA : NoDup all) by (apply all_NoDup; exact NT).
  set (f' := fun T => if same_set (keys T) (keys S ++ all) then f T else 0%R).
  transitivity (1 * value f' all topo S)%R.
  - rewrite <- (levels_law f' all topo S 1%R NA RA F) by lra. rewrite expect_sobind. rewrite xlog_1. f_equal. apply functional_extensionality.
    intros [[T w]|e]; [|reflexivity]. cbn [expect fst]. unfold f', oassert. destruct (same_set _ _); cbn [obind]; [reflexivity|lra].
  - rewrite Rmult_1_l. rewrite <- value_total; [|exact F|intros T T' L; apply RES; intros k _; apply L].
    transitivity (value f all topo S).
    + apply value_keys. intros T HT'. unfold f'. replace (same_set _ _) with true; [reflexivity|]. symmetry. apply same_set_intro.
      intros k. rewrite HT', in_app_iff. split; [tauto|]. intros [K|K]; [auto|]. right. split; [exact K|].
      apply (Permutation_in _ (Permutation_sym outs_topo)). apply HA. exact K.
    + symmetry. apply (barren f (ts ++ keys S)); auto.
      * intros k Hk. apply hidden_In. destruct (HA k Hk). auto.
      * apply ready_full.
      * intros k x L. exact L.
      * intros l n o Hl En Ho. destruct (in_dec Z.eq_dec o (keys S)) as [|N]; [auto|]. right. apply hidden_In. split; [|exact N].
        apply in_flat_map. exists n. rewrite Ho. split; [eauto using nth_error_In|now left].
      * intros k Hk. apply in_app_or in Hk. destruct Hk as [Hk|Hk]; [|auto]. right. split; [apply in_or_app; auto|].
        destruct (HT k Hk) as [_ X]. apply (Permutation_in _ (Permutation_sym outs_topo)) in X. apply in_flat_map in X.
        destruct X as (l & Hl & X). destruct (topo_nth l Hl) as (n & En & Hn). rewrite En in X. destruct (single n Hn) as (o & Ho).
        rewrite Ho in X. destruct X as [<-|[]]. exists l, n. auto.
      * intros T T' XT HK. apply RES. intros k Hk. assert (K : In k (keys T')) by (apply HK; apply in_or_app; tauto).
        destruct (lookup_keys T' k K) as (x & Lx). rewrite Lx. apply XT. exact Lx.
Qed.

Lemma weight_returns : forall acc ts S, NoDup ts -> (forall k, In k ts -> ~ In k (keys S) /\ In k (flat_map n_outs ns)) -> fine S ->
  finite_choices (weighted_sample (mkChain ns acc topo) rid ts S I) /\
  always (weighted_sample (mkChain ns acc topo) rid ts S I) (fun r => exists T q, r = Ok (T, xlog q) /\ (0 <= q)%R /\ extends T S /\
    (S = [] -> q = 1%R) /\ forall k, In k ts \/ In k (keys S) -> In k (keys T)).
Proof.
  intros acc ts S NT HT F. destruct (all_ready ts S HT) as [RA HA]. unfold weighted_sample. cbn [ch_nodes ch_topo].
  set (all := ts ++ required ns topo ts S) in *. assert (NA : NoDup all) by (apply all_NoDup; exact NT). split.
  - apply choices_sobind; [apply levels_choices|intros; exact Logic.I].
  - unfold sobind at 1; apply always_bind. rewrite <- xlog_1. generalize (levels_return all topo S 1%R NA RA F ltac:(lra)). apply always_imp.
    intros r (T & q & -> & Q & XT & W & KT). cbn [always fst].
    assert (KT' : forall k, In k (keys T) <-> In k (keys S ++ all)).
    { intros k. rewrite KT, in_app_iff. split; [tauto|]. intros [K|K]; [auto|]. right. split; [exact K|].
      apply (Permutation_in _ (Permutation_sym outs_topo)). apply HA. exact K. }
    rewrite (same_set_intro _ _ KT'). cbn [oassert obind]. exists T, q. split; [reflexivity|]. split; [exact Q|]. split; [exact XT|]. split.
    { intros ->. apply W; [|intros k _ []]. apply (Permutation_NoDup (Permutation_sym outs_topo)). exact ND. }
    intros k Hk. apply KT'. unfold all. rewrite !in_app_iff. tauto.
Qed.

End Topo.
End Network.

(** ** Repeated draws *)

Lemma expect_zero : forall {A} (m : samp A) (g : A -> R), finite_choices m -> (forall a, 0 <= g a)%R -> expect m g = 0%R ->
  always m (fun a => g a = 0%R).
Proof.
  intros A m g. induction m as [a|ws k IH|l k IH|n p k IH|lo hi k IH|n k IH]; intros F NN E; cbn in *; try contradiction; auto.
  destruct F as (F1 & F2 & F3). intros i Hi Pi.
  assert (NE : forall m' : samp A, finite_choices m' -> (0 <= expect m' g)%R).
  { induction m' as [a|ws' k' IH'|l' k' IH'|n' p' k' IH'|lo' hi' k' IH'|n' k' IH']; cbn; intros F'; try contradiction; auto.
    destruct F' as (G1 & G2 & G3). apply rsum_nonneg. intros x Hx. apply in_map_iff in Hx. destruct Hx as (j & <- & Hj). apply in_seq in Hj.
    apply Rmult_le_pos; [|apply IH'; apply G3; lia]. apply Rmult_le_pos; [apply G1; apply nth_In; lia|left; apply Rinv_0_lt_compat; exact G2]. }
  apply IH; auto. assert (Z : (nth i ws 0 / rsum ws * expect (k i) g <= 0)%R).
  { apply Rle_trans with (2 := Req_le _ _ E). apply rsum_ge.
    - intros y Hy. apply in_map_iff in Hy. destruct Hy as (j & <- & Hj). apply in_seq in Hj.
      apply Rmult_le_pos; [|apply NE; apply F3; lia]. apply Rmult_le_pos; [apply F1; apply nth_In; lia|left; apply Rinv_0_lt_compat; exact F2].
    - apply in_map_iff. exists i. split; [reflexivity|apply in_seq; lia]. }
  assert (PP : (0 < nth i ws 0 / rsum ws)%R) by (apply Rdiv_lt_0_compat; assumption).
  assert (N := NE (k i) (F3 i Hi)). nra.
Qed.

Lemma expect_const : forall {A} (m : samp A) c, finite_choices m -> expect m (fun _ => c) = c.
Proof.
  intros A m c. induction m as [a|ws k IH|l k IH|n p k IH|lo hi k IH|n k IH]; cbn; intros F; try contradiction; auto.
  destruct F as (F1 & F2 & F3). transitivity (rsum (map (fun i => (c / rsum ws * nth i ws 0)%R) (seq 0 (List.length ws)))).
  - apply rsum_ext. intros i Hi. apply in_seq in Hi. rewrite IH by (apply F3; lia). field. lra.
  - rewrite rsum_scal. assert (G : forall l : list R, map (fun i => nth i l 0%R) (seq 0 (List.length l)) = l).
    { clear. induction l as [|x l IH]; [reflexivity|]. cbn [List.length seq map]. f_equal. rewrite <- seq_shift, map_map. exact IH. }
    change (c / rsum ws * rsum (map (fun i => nth i ws 0%R) (seq 0 (List.length ws))) = c)%R. rewrite G. field. lra.
Qed.

Lemma expect_plus : forall {A} (m : samp A) (f g : A -> R), expect m (fun a => f a + g a)%R = (expect m f + expect m g)%R.
Proof.
  intros A m f g. induction m as [a|ws k IH|l k IH|n p k IH|lo hi k IH|n k IH]; cbn; try lra.
  rewrite <- rsum_add. apply rsum_ext. intros i _. rewrite IH. lra.
Qed.

(** The mean of a function over [n] runs that never raise. *)
Lemma expect_repeat : forall {A} (m : samp (out A)) (h : A -> R) (P : A -> Prop) n, finite_choices m ->
  always m (fun r => exists a, r = Ok a /\ P a) ->
  expect (srepeat n m) (fun r => match r with Ok l => rsum (map h l) | Err _ => 0%R end)
  = (INR n * expect m (fun r => match r with Ok a => h a | Err _ => 0%R end))%R.
Proof.
  intros A m h P n F AL. induction n as [|n IH]; [cbn; lra|]. cbn [srepeat]. rewrite expect_sobind.
  assert (AN : always (srepeat n m) (fun r => exists l, r = Ok l)).
  { clear IH. induction n as [|n IH]; [cbn; eauto|]. cbn [srepeat]. unfold sobind at 1. apply always_bind. revert AL. apply always_imp.
    intros r (a & -> & _). unfold sobind. apply always_bind. revert IH. apply always_imp. intros r (l & ->). cbn. eauto. }
  assert (FN : finite_choices (srepeat n m)) by (apply choices_srepeat; exact F).
  set (En := expect (srepeat n m) (fun r => match r with Ok l => rsum (map h l) | Err _ => 0%R end)) in *.
  rewrite (expect_always m _ _ (fun r => (match r with Ok a => h a | Err _ => 0 end) + En)%R F AL).
  - rewrite expect_plus, (expect_const m En F), IH, S_INR. ring.
  - intros r (a & -> & _). rewrite expect_sobind. cbn [expect].
    rewrite (expect_always (srepeat n m) _ _ (fun r => h a + match r with Ok l => rsum (map h l) | Err _ => 0 end)%R FN AN).
    + rewrite expect_plus, (expect_const _ (h a) FN). reflexivity.
    + intros r (l & ->). reflexivity.
Qed.

Lemma always_repeat : forall {A} (m : samp (out A)) (P : A -> Prop) n, always m (fun r => exists a, r = Ok a /\ P a) ->
  always (srepeat n m) (fun r => exists l, r = Ok l /\ List.length l = n /\ forall a, In a l -> P a).
Proof.
  intros A m P n AL. induction n as [|n IH].
  - cbn. exists []. split; [reflexivity|]. split; [reflexivity|intros a []].
  - cbn [srepeat]. unfold sobind at 1. apply always_bind. revert AL. apply always_imp.
    intros r (a & -> & Pa). unfold sobind. apply always_bind. revert IH. apply always_imp. intros r (l & -> & L & PL). cbn.
    exists (a :: l). split; [reflexivity|]. split; [cbn; congruence|]. intros b [<-|Hb]; auto.
Qed.

Lemma xexp_logmeanexp : forall ws, ws <> [] -> (forall w, In w ws -> exists q, w = xlog q /\ (0 <= q)%R) ->
  xexp (logmeanexp ws) = (rsum (map xexp ws) / INR (List.length ws))%R.
Proof.
  intros ws NE H.
  assert (E : exists qs, ws = map xlog qs /\ forall q, In q qs -> (0 <= q)%R).
  { clear NE. induction ws as [|w ws IH]; [exists []; split; [reflexivity|intros q []]|].
    destruct (H w (or_introl eq_refl)) as (q & -> & Q). destruct IH as (qs & -> & QS); [intros; apply H; now right|].
    exists (q :: qs). split; [reflexivity|]. intros q' [<-|Hq]; auto. }
  destruct E as (qs & -> & QS). unfold logmeanexp. rewrite (logsumexp_xlog qs QS), map_length.
  assert (L : (0 < INR (List.length qs))%R) by (apply lt_0_INR; destruct qs; cbn in *; [congruence|lia]).
  assert (M : map xexp (map xlog qs) = qs).
  { rewrite map_map. rewrite <- (map_id qs) at 2. apply map_ext_in. intros q Hq. apply xexp_xlog. auto. }
  rewrite M. assert (R0 : (0 <= rsum qs)%R) by (apply rsum_nonneg; exact QS).
  destruct (Rle_lt_or_eq_dec _ _ R0) as [R1|R1].
  - rewrite xlog_pos by exact R1. cbn [xsub xadd xneg xexp]. unfold Rminus. rewrite exp_plus, exp_Ropp, !exp_ln by assumption. reflexivity.
  - rewrite <- R1. unfold xlog. destruct (Rlt_dec 0 0); [lra|]. cbn. unfold Rdiv. ring.
Qed.

(** ** Queries *)

Section Queries.
Variables (ns : list node) (dom : Z -> list val) (rid : option Z) (I : row).
Hypothesis LW : forall n, In n ns -> lawful dom rid n.
Hypothesis EX : exogenous ns I.
Hypothesis NI : NoDup (keys I).
Hypothesis DI : forall k x, In (k, x) I -> In x (dom k).
Hypothesis EXT : forall i, In i (extraneous ns) -> In i (keys I).

Lemma logpdf_mean : forall acc ch T, new_chain ns acc = Ok ch -> fine ns dom T ->
  finite_choices (chain_logpdf ch rid T [] I) /\
  always (chain_logpdf ch rid T [] I) (fun r => exists w, r = Ok w) /\
  expect (chain_logpdf ch rid T [] I) (fun r => match r with Ok w => xexp w | Err _ => 0%R end) = marginal ns dom rid T I.
Proof.
  intros acc ch T CH F. destruct (new_chain_inv _ _ _ CH) as (E1 & AC & ND & PM & BF).
  destruct ch as [ns' a topo]. cbn [ch_nodes ch_accuracy ch_topo] in *. subst ns'. pose proof F as (NT & _).
  unfold chain_logpdf. cbn [ch_accuracy]. rewrite (merged_nil_r T NT).
  assert (HT : forall k, In k [] -> ~ In k (keys T) /\ In k (flat_map n_outs ns)) by (intros k []).
  destruct (weight_returns ns dom rid I LW EX NI DI topo ND PM BF EXT a [] T (NoDup_nil _) HT F) as [FC AL].
  assert (AL' : always (weighted_sample (mkChain ns a topo) rid [] T I) (fun r => exists p, r = Ok p /\ exists q, snd p = xlog q /\ (0 <= q)%R)).
  { revert AL. apply always_imp. intros r (U & q & -> & Q & _). exists (U, xlog q). split; [reflexivity|]. exists q. auto. }
  assert (M := weight_mean ns dom rid I LW EX NI DI topo ND PM BF EXT a [] T (fun _ => 1%R) (NoDup_nil _) HT F (fun _ _ _ => eq_refl)).
  assert (FR := choices_srepeat _ a FC). assert (AR := always_repeat _ _ a AL').
  split; [|split].
  - apply choices_sobind; [exact FR|]. intros l. exact Logic.I.
  - unfold sobind at 1. apply always_bind. revert AR. apply always_imp. intros r (l & -> & _). cbn. eauto.
  - rewrite expect_sobind. etransitivity; [|exact M]. clear M.
    rewrite (expect_always _ _ _ (fun r => / INR a * match r with Ok l => rsum (map (fun p => xexp (snd p)) l) | Err _ => 0 end)%R FR AR).
    + rewrite expect_scale. rewrite (expect_repeat _ (fun p => xexp (snd p)) _ a FC AL').
      rewrite <- Rmult_assoc, Rinv_l, Rmult_1_l by (apply not_0_INR; lia). f_equal. apply functional_extensionality.
      intros [[U w]|e]; cbn [snd]; lra.
    + intros r (l & -> & L & PL).
      assert (LM : forall x, xsub x (logmeanexp [Fin 0]) = x).
      { intros x. change [Fin 0] with (repeat (Fin 0) 1). rewrite logmeanexp_repeat by lia. destruct x as [r| | |]; [|reflexivity..]. unfold xsub, xneg, xadd. f_equal. ring. }
      cbn [sobind sbind forallb is_inf andb expect]. rewrite LM, xexp_logmeanexp, map_map, map_length, L.
      * unfold Rdiv. ring.
      * destruct l; cbn in *; [lia|discriminate].
      * intros w Hw. apply in_map_iff in Hw. destruct Hw as (p & <- & Hp). apply PL. exact Hp.
Qed.

Lemma select_asked : forall ts (T : row), NoDup ts -> (forall k, In k ts -> In k (keys T)) -> select ts T = Ok (asked ts T).
Proof.
  intros ts T NT SUB. destruct (select_ok ts T NT SUB) as (s & -> & K & L). f_equal. subst ts.
  assert (G : forall s' : row, NoDup (keys s') -> (forall k, In k (keys s') -> lookup k s' = lookup k T) -> s' = asked (keys s') T).
  { induction s' as [|[k x] s' IH]; intros ND H; [reflexivity|]. cbn [keys map fst asked flat_map]. inversion ND as [|? ? Nk ND']; subst.
    rewrite <- (H k (or_introl eq_refl)), lookup_cons_eq. cbn [app]. f_equal. apply IH; [exact ND'|]. intros k' Hk'.
    rewrite <- (H k' (or_intror Hk')). cbn. destruct (eq_dec k' k) as [->|]; [contradiction|reflexivity]. }
  apply G; auto.
Qed.

Lemma nth_sum : forall {A} (h : A -> R) (l : list A),
  rsum (map (fun i => match nth_error l i with Some x => h x | None => 0%R end) (seq 0 (List.length l))) = rsum (map h l).
Proof.
  intros A h l. f_equal. induction l as [|a l IH]; [reflexivity|]. cbn [List.length seq map]. f_equal. rewrite <- seq_shift, map_map. exact IH.
Qed.

Lemma pick_one : forall {A} (l : list A) (h : out A -> R), (0 < List.length l)%nat ->
  expect (sobind (if Nat.eqb (List.length l) 1 then Ret (Ok 0%nat) else log_pflip (repeat (Fin 0) (List.length l)))
    (fun i => Ret (match nth_error l i with Some x => Ok x | None => Err IndexError end))) h
  = (/ INR (List.length l) * rsum (map (fun x => h (Ok x)) l))%R.
Proof.
  intros A l h L. rewrite expect_sobind. destruct (Nat.eqb (List.length l) 1) eqn:B.
  - apply Nat.eqb_eq in B. destruct l as [|x [|]]; try discriminate. cbn. lra.
  - assert (LP : log_pflip (repeat (Fin 0) (List.length l)) = Flip (repeat 1%R (List.length l)) (fun i => Ret (Ok i))).
    { unfold log_pflip. replace (existsb is_bad _) with false.
      2:{ symmetry. apply not_true_is_false. intros X. apply existsb_exists in X. destruct X as (y & Hy & X). apply repeat_spec in Hy. subst. discriminate. }
      replace (existsb is_fin _) with true.
      2:{ symmetry. apply existsb_exists. exists (Fin 0). split; [|reflexivity]. destruct l; [cbn in L; lia|now left]. }
      f_equal. rewrite map_repeat. cbn. rewrite exp_0. reflexivity. }
    rewrite LP. cbn [expect]. rewrite repeat_length.
    assert (SR : forall n, rsum (repeat 1%R n) = INR n).
    { induction n as [|n IH]; [reflexivity|]. cbn [repeat]. change (rsum (?a :: ?b)) with (a + rsum b)%R. rewrite IH, S_INR. lra. }
    rewrite SR, <- (nth_sum (fun x => h (Ok x))), <- rsum_scal. apply rsum_ext. intros i Hi. apply in_seq in Hi.
    rewrite (nth_indep _ 0%R 1%R) by (rewrite repeat_length; lia). rewrite nth_repeat. destruct (nth_error l i) eqn:E; [unfold Rdiv; ring|]. apply nth_error_None in E. lia.
Qed.

Lemma simulate_mean : forall acc ch ts g, new_chain ns acc = Ok ch -> NoDup ts -> (forall k, In k ts -> In k (flat_map n_outs ns)) ->
  finite_choices (chain_simulate1 ch rid ts [] I) /\
  always (chain_simulate1 ch rid ts [] I) (fun r => exists s, r = Ok s /\ keys s = ts) /\
  expect (chain_simulate1 ch rid ts [] I) g = total ns dom rid [] I (fun T => g (Ok (asked ts T))).
Proof.
  intros acc ch ts g CH NT SUB. destruct (new_chain_inv _ _ _ CH) as (E1 & AC & ND & PM & BF).
  destruct ch as [ns' a topo]. cbn [ch_nodes ch_accuracy ch_topo] in *. subst ns'.
  assert (F : fine ns dom []) by (split; [constructor|split; [intros k []|intros k x []]]).
  assert (HT : forall k, In k ts -> ~ In k (keys (@nil (Z * val))) /\ In k (flat_map n_outs ns)) by (intros k Hk; split; [intros []|auto]).
  destruct (weight_returns ns dom rid I LW EX NI DI topo ND PM BF EXT a ts [] NT HT F) as [FC AL].
  assert (AL' : always (weighted_sample (mkChain ns a topo) rid ts [] I)
     (fun r => exists p, r = Ok p /\ snd p = Fin 0 /\ select ts (fst p) = Ok (asked ts (fst p)) /\ keys (asked ts (fst p)) = ts)).
  { revert AL. apply always_imp. intros r (U & q & -> & Q & _ & Q1 & KU). rewrite (Q1 eq_refl), xlog_1. exists (U, Fin 0). split; [reflexivity|].
    split; [reflexivity|]. cbn [fst]. assert (SA := select_asked ts U NT (fun k Hk => KU k (or_introl Hk))). split; [exact SA|].
    destruct (select_ok ts U NT (fun k Hk => KU k (or_introl Hk))) as (s & E & K & _). congruence. }
  assert (FR := choices_srepeat _ a FC). assert (AR := always_repeat _ _ a AL').
  assert (EQ : forall l : list (row * xr), List.length l = a -> (forall p, In p l -> snd p = Fin 0 /\ select ts (fst p) = Ok (asked ts (fst p)) /\ keys (asked ts (fst p)) = ts) ->
     (if forallb is_inf (map snd l) then Ret (Err ValueError)
      else sobind (if Nat.eqb a 1 then Ret (Ok 0%nat) else log_pflip (map snd l)) (fun i =>
        Ret (match nth_error l i with None => Err IndexError | Some r => select ts (fst r) end)))
     = sobind (if Nat.eqb a 1 then Ret (Ok 0%nat) else log_pflip (repeat (Fin 0) a)) (fun i =>
        Ret (match nth_error (map (fun p => asked ts (fst p)) l) i with None => Err IndexError | Some r => Ok r end))).
  { intros l L PL. assert (M : map snd l = repeat (Fin 0) a).
    { rewrite <- L, <- (map_length snd). apply Forall_eq_repeat. apply Forall_forall. intros w Hw. apply in_map_iff in Hw.
      destruct Hw as (p & <- & Hp). symmetry. apply PL. exact Hp. }
    rewrite M, forallb_repeat by lia. cbn [is_inf]. f_equal. apply functional_extensionality. intros i. f_equal. rewrite nth_error_map.
    destruct (nth_error l i) as [p|] eqn:E; [|reflexivity]. cbn [option_map]. apply PL. eapply nth_error_In; eauto. }
  unfold chain_simulate1. cbn [ch_accuracy]. split; [|split].
  - apply choices_sobind; [exact FR|]. intros l. destruct (forallb _ _); [exact Logic.I|].
    apply choices_sobind; [destruct (Nat.eqb a 1); [exact Logic.I|apply choices_log_pflip]|intros; exact Logic.I].
  - unfold sobind at 1. apply always_bind. revert AR. apply always_imp. intros r (l & -> & L & PL). rewrite (EQ l L PL).
    unfold sobind. apply always_bind.
    assert (IN : always (if Nat.eqb a 1 then Ret (Ok 0%nat) else log_pflip (repeat (Fin 0) a)) (fun r => exists i, r = Ok i /\ (i < a)%nat)).
    { destruct (Nat.eqb a 1) eqn:B; [cbn; exists 0%nat; auto|]. generalize (choose_index (repeat (Fin 0) a)). rewrite repeat_length. intros X. apply X.
      - destruct a; [lia|discriminate].
      - exists 1%R. split; [lra|]. intros w Hw. apply repeat_spec in Hw. rewrite xlog_1. exact Hw. }
    revert IN. apply always_imp. intros r (i & -> & Hi). cbn [always]. rewrite nth_error_map.
    destruct (nth_error l i) as [p|] eqn:E; [|apply nth_error_None in E; lia]. cbn [option_map]. eexists. split; [reflexivity|].
    apply PL. eapply nth_error_In; eauto.
  - rewrite expect_sobind.
    rewrite (expect_always _ _ _ (fun r => / INR a * match r with Ok l => rsum (map (fun p => g (Ok (asked ts (fst p)))) l) | Err _ => 0 end)%R FR AR).
    + rewrite expect_scale, (expect_repeat _ (fun p => g (Ok (asked ts (fst p)))) _ a FC AL').
      rewrite <- Rmult_assoc, Rinv_l, Rmult_1_l by (apply not_0_INR; lia).
      etransitivity; [|apply (weight_mean ns dom rid I LW EX NI DI topo ND PM BF EXT a ts [] (fun T => g (Ok (asked ts T))) NT HT F)].
      * apply (expect_always _ _ _ _ FC AL'). intros r ([U w] & -> & W & _). cbn [fst snd] in *. rewrite W. cbn [xexp]. rewrite exp_0. lra.
      * intros T T' H. do 2 f_equal. unfold asked. rewrite !flat_map_concat_map. f_equal. apply map_ext_in. intros k Hk. rewrite (H k (or_introl Hk)). reflexivity.
    + intros r (l & -> & L & PL). rewrite (EQ l L PL). assert (L' : List.length (map (fun p => asked ts (fst p)) l) = a) by (rewrite map_length; exact L).
      assert (PO := pick_one (map (fun p => asked ts (fst p)) l) g). rewrite L', map_map in PO.
      apply PO. lia.
Qed.

End Queries.

(** ** Primitives as children *)

(** A primitive of column [o] with the values [K] that has not recorded the row. *)
Definition coin (o : Z) (K : list Z) (rid : option Z) (d : dist) : Prop :=
  dinv d /\ dist_o d = o /\ dist_support d = Ok K /\ unrecorded rid (dist_data d).

Lemma coin_law : forall o K rid d, coin o K rid d ->
  (forall x, In x (map vz K) -> dist_logpdf d rid [(o, x)] [] [] = Ok (xlog (cell_density d x))) /\
  rsum (map (cell_density d) (map vz K)) = 1%R /\
  (forall g, expect (dist_simulate d rid [o] [] [] None) g =
     rsum (map (fun x => cell_density d x * g (Ok (SOne [(o, x)])))%R (map vz K))) /\
  always (dist_simulate d rid [o] [] [] None) (fun r => exists x, In x (map vz K) /\ r = Ok (SOne [(o, x)])).
Proof.
  intros o K rid d (D & <- & SU & U). destruct (prim_draw d rid K D U SU) as (m & E & FC & L).
  assert (LAW : forall g, expect (dist_simulate d rid [dist_o d] [] [] None) g =
     rsum (map (fun x => cell_density d x * g (Ok (SOne [(dist_o d, x)])))%R (map vz K))).
  { intros g. rewrite (E None). cbn [simulate_many]. rewrite expect_sobind, L, map_map. reflexivity. }
  split; [intros x Hx; apply in_map_iff in Hx; destruct Hx as (z & <- & _); apply cell_logpdf; auto using crp_missing_vz|]. split; [rewrite map_map; apply support_sum; auto|]. split; [exact LAW|].
  set (g := fun r : out sres => match r with
     | Ok (SOne [(k, x)]) => if Z.eqb k (dist_o d) && memb x (map vz K) then 0%R else 1%R
     | _ => 1%R end).
  assert (G : always (dist_simulate d rid [dist_o d] [] [] None) (fun r => g r = 0%R)).
  { apply expect_zero.
    - rewrite (E None). apply choices_many. exact FC.
    - intros [[[|[k x] [|]]|]|]; cbn; try lra. destruct (_ && _); lra.
    - rewrite LAW. apply rsum_zero. intros y Hy. apply in_map_iff in Hy. destruct Hy as (x & <- & Hx). unfold g.
      rewrite Z.eqb_refl. replace (memb x (map vz K)) with true by (symmetry; apply memb_In; exact Hx). cbn. ring. }
  revert G. apply always_imp. intros [[[|[k x] [|]]|]|]; cbn; intros H; try lra.
  destruct (Z.eqb k (dist_o d)) eqn:B1; [|cbn in H; lra]. destruct (memb x (map vz K)) eqn:B2; [|cbn in H; lra].
  apply Z.eqb_eq in B1. subst. exists x. split; [apply memb_In; exact B2|reflexivity].
Qed.

Lemma prim_lawful : forall dom rid d K, coin (dist_o d) K rid d -> dom (dist_o d) = map vz K ->
  lawful dom rid (node_of (CDist d)).
Proof.
  intros dom rid d K CN DM. destruct (coin_law _ _ _ _ CN) as (LP & S1 & EX & AL). pose proof CN as (D & _ & SU & U).
  exists (dist_o d), (fun _ => cell_density d). split; [reflexivity|]. split.
  - intros ts C J. cbn [node_of n_simulate simulate]. apply dist_choices; [exact D|eauto].
  - intros J (NJ & KJ & _). assert (J = []) as ->.
    { destruct J as [|[k x] J]; [reflexivity|]. exfalso. destruct (proj1 (KJ k) (or_introl eq_refl)). }
    rewrite DM. cbn [node_of n_simulate n_logpdf simulate logpdf]. split; [|split; [|split; [|split]]]; auto.
    intros x Hx. split; [apply cell_nonneg; exact D|apply LP; exact Hx].
Qed.

Lemma lookup_map_val : forall {W} (cs : dict val cgpm) z (f : cgpm -> W),
  lookup z (map (fun p => let '(k, c') := p in (k, f c')) cs) = option_map f (lookup z cs).
Proof.
  intros W cs z f. rewrite <- lookup_map. f_equal. apply map_ext. intros [k c]. reflexivity.
Qed.

(** An array of such primitives. *)
Lemma array_lawful : forall dom rid ix o K b cs r2i, ix <> o -> coin o K rid b ->
  (forall k c, In (k, c) cs -> exists d, c = CDist d /\ coin o K rid d) -> dom o = map vz K ->
  lawful dom rid (node_of (CFlexArr ix (CDist b) cs r2i)).
Proof.
  intros dom rid ix o K b cs r2i NE CB CC DM.
  set (pick := fun J : row => match lookup ix J with
     | Some z => match lookup z cs with Some (CDist d) => d | _ => b end | None => b end).
  assert (CP : forall J, coin o K rid (pick J)).
  { intros J. unfold pick. destruct (lookup ix J) as [z|]; [|exact CB]. destruct (lookup z cs) as [c|] eqn:L; [|exact CB].
    apply lookup_In in L. destruct (CC _ _ L) as (d & -> & C). exact C. }
  assert (HC : forall J, told dom (node_of (CFlexArr ix (CDist b) cs r2i)) J ->
     (forall T C, logpdf (CFlexArr ix (CDist b) cs r2i) rid T C J = dist_logpdf (pick J) rid T C []) /\
     (forall ts C N, simulate (CFlexArr ix (CDist b) cs r2i) rid ts C J N = dist_simulate (pick J) rid ts C [] N)).
  { intros J (NJ & KJ & _). cbn [node_of n_ins inputs] in KJ.
    assert (E : exists z, J = [(ix, z)]).
    { destruct J as [|[k z] J]; [exfalso; destruct (proj2 (KJ ix) (or_introl eq_refl))|].
      destruct (proj1 (KJ k) (or_introl eq_refl)) as [<-|[]]. destruct J as [|[k' z'] J]; [eauto|]. exfalso.
      destruct (proj1 (KJ k') (or_intror (or_introl eq_refl))) as [<-|[]]. inversion NJ as [|? ? X]; subst. apply X. now left. }
    destruct E as (z & ->). unfold pick. cbn [logpdf simulate]. unfold flexarr_logpdf, flexarr_simulate.
    rewrite lookup_cons_eq. assert (DD : ddel ix [(ix, z)] = []) by (cbn; destruct (eq_dec ix ix); [reflexivity|congruence]). rewrite DD.
    split.
    - intros T C. rewrite (lookup_map_val cs z logpdf). destruct (lookup z cs) as [c|] eqn:L; [|reflexivity].
      apply lookup_In in L. destruct (CC _ _ L) as (d & -> & _). reflexivity.
    - intros ts C N. rewrite (lookup_map_val cs z simulate). destruct (lookup z cs) as [c|] eqn:L; [|reflexivity].
      apply lookup_In in L. destruct (CC _ _ L) as (d & -> & _). reflexivity. }
  exists o, (fun J => cell_density (pick J)). split; [cbn; f_equal; apply CB|]. split.
  - intros ts C J. cbn [node_of n_simulate simulate]. unfold flexarr_simulate. destruct (lookup ix J) as [z|]; [|exact Logic.I].
    rewrite (lookup_map_val cs z simulate). destruct (lookup z cs) as [c|] eqn:L; cbn [option_map].
    + apply lookup_In in L. destruct (CC _ _ L) as (d & -> & D & _ & SU & _). apply dist_choices; eauto.
    + destruct CB as (D & _ & SU & _). apply dist_choices; eauto.
  - intros J TJ. destruct (HC J TJ) as [HL HS]. destruct (coin_law _ _ _ _ (CP J)) as (LP & S1 & EX & AL).
    cbn [node_of n_simulate n_logpdf]. rewrite DM, HS. split; [|split; [|split; [|split]]]; auto.
    + intros x Hx. rewrite HL. split; [apply cell_nonneg; apply (CP J)|apply LP; exact Hx].
    + intros J' _ L. unfold pick. rewrite L. reflexivity.
Qed.
