(** Proof of C79: hyperparameter inference on all columns converges in each of them. *)
From Coq Require Import List ZArith QArith Qcanon Reals Bool String Permutation FunctionalExtensionality Lia Lra.
From Verif Require Import Base Xr Samp Lgamma Prims Cgpm Lib SpecPrims PrimsInv SpecComp CompInv CompDens CompThm SimShape SimLaw
  SpecTable SpecHist Table Gibbs Hist Walks SpecWalks WalksThm Trans Views ViewsThm ViewsThm2 ViewsThm3 ViewsThm4 ViewsThm5
  Hypers SpecHypers HypersThm Progress SpecProgress Crosscat HypersThm2 PropHypers CrosscatThm CrosscatThm2.
From Verif Require Import SpecViews SpecCrosscat ConvThm PropConv SpecHypers SpecConv SpecPasses.
From Verif Require ChainLaw PrimsThm2.
Import ListNotations.
Local Open Scope Z_scope.

(** ** Fixed permutations *)

Lemma settle_free : forall {A B D} (m : samp A) (f : A -> samp B) (K : B -> samp D) ls F, finite_choices m ->
  expect (settle ls (sbind (sbind m f) K)) F = expect m (fun a => expect (settle ls (sbind (f a) K)) F).
Proof.
  induction m as [a|ws k IH|l k IH|n p k IH|lo hi k IH|n k IH]; intros f K ls F FC; cbn [sbind settle expect finite_choices] in *; try contradiction; [reflexivity|].
  apply rsum_ext. intros i Hi. apply in_seq in Hi. f_equal. apply IH. apply FC. lia.
Qed.

Lemma agreed_free : forall {A B D} (m : samp A) (f : A -> samp B) (K : B -> samp D) ls, finite_choices m ->
  (agreed ls (sbind (sbind m f) K) <-> always m (fun a => agreed ls (sbind (f a) K))).
Proof.
  induction m as [a|ws k IH|l k IH|n p k IH|lo hi k IH|n k IH]; intros f K ls FC; cbn [sbind agreed always finite_choices] in *; try contradiction; [reflexivity|].
  split; intros X i Hi W; apply IH; auto; apply FC; exact Hi.
Qed.

Lemma some_outcome : forall {A} (m : samp A) (P : A -> Prop), finite_choices m -> always m P -> exists a, P a.
Proof.
  induction m as [a|ws k IH|l k IH|n p k IH|lo hi k IH|n k IH]; intros P FC AL; cbn [always finite_choices] in *; try contradiction; [eauto|].
  destruct FC as (W & T & FC).
  assert (X : exists i, (i < List.length ws)%nat /\ (0 < nth i ws 0)%R).
  { clear - W T. induction ws as [|w ws IH]; [cbn in T; lra|]. destruct (Rlt_le_dec 0 w) as [P|P]; [exists 0%nat; cbn; split; [lia|exact P]|].
    destruct IH as (i & Hi & P'); [intros x Hx; apply W; now right|cbn in T |- *; change (fold_right Rplus 0%R ws) with (rsum ws) in T; lra|].
    exists (S i). cbn. split; [lia|exact P']. }
  destruct X as (i & Hi & P'). exact (IH i P (FC i Hi) (AL i Hi P')).
Qed.

Section Passes.
Variables (X : list cgpm) (Os : list Z) (gr : Z -> out grids) (o : Z) (ds rest : list dist) (d0 : dist) (gs : grids).
Hypotheses (C : crosscat X)
  (TUN : forall x, In x Os -> exists ds1 d1 gs1, get_cgpms_by_output_index (CProd X) x = Ok ds1 /\ tunable ds1 d1 /\ gr x = Ok gs1 /\ good_grids d1 gs1)
  (Ho : In o Os) (EO : get_cgpms_by_output_index (CProd X) o = Ok ds) (ED : ds = d0 :: rest)
  (CL : forall d, In d ds -> same_class d d0 = true) (NU : forall s, d0 <> DNuc s) (DI : forall d, In d ds -> dinv d)
  (EG : gr o = Ok gs) (GG : good_grids d0 gs).

(** The models inference goes through, and where it is in column [o]. *)
Definition inv (Y : list cgpm) : Prop := crosscat Y /\ hypers_moved Os X Y.
Definition col (Y : list cgpm) (h : hypers) : Prop :=
  exists ds', get_cgpms_by_output_index (CProd Y) o = Ok ds' /\ Forall2 adjusted ds ds' /\ common ds' = h.

Lemma class_trans : forall a b c, same_class a b = true -> same_class c b = true -> same_class a c = true.
Proof. intros a b c A B. destruct a, b; try discriminate A; destruct c; try discriminate B; reflexivity. Qed.

(** A call on one of the columns. *)
Lemma visit_facts : forall o', In o' Os -> exists gs1 nh, gr o' = Ok gs1 /\
  forall Y, inv Y -> exists ds2 d2, get_cgpms_by_output_index (CProd Y) o' = Ok ds2 /\ first_of ds2 = Ok d2 /\
    List.length (dist_get_hypers d2) = nh /\ transition_hypers ds2 gs1 = DrawPerm nh (fun l => in_order l (transition_hypers ds2 gs1)) /\
    forall l, Permutation (seq 0 nh) l -> let m := in_order l (transition_hypers ds2 gs1) in
      finite_choices m /\ always m (fun r => exists h, r = (map (retune h) ds2, Ok h)).
Proof.
  intros o' Ho'. destruct (TUN o' Ho') as (ds1 & d1 & gs1 & E1 & ((rest1 & ED1) & CL1 & NU1) & L1 & G1).
  exists gs1, (List.length (hyper_names d1)). split; [exact L1|].
  intros Y (CY & (_ & _ & M3)). destruct (M3 o' ds1 E1) as (ds2 & E2 & F2). subst ds1. inversion F2 as [|? d2 ? rest2 U F2' A B]; subst.
  assert (CL2 : forall d, In d (d2 :: rest2) -> same_class d d1 = true).
  { clear - F2 CL1. intros d Hd. revert CL1 Hd. generalize (d2 :: rest2), (d1 :: rest1), F2. clear F2. intros l2 l1 F2.
    induction F2 as [|a b l1 l2 (_ & _ & S & _) F IH]; intros CL Hd; [destruct Hd|]. destruct Hd as [<-|Hd].
    - assert (Q := CL a (or_introl eq_refl)). clear - Q S. destruct b, a; try discriminate S; destruct d1; try discriminate Q; reflexivity.
    - apply IH; auto. intros x Hx. apply CL. now right. }
  assert (C21 := CL2 d2 (or_introl eq_refl)).
  assert (T2 : tunable (d2 :: rest2) d2).
  { split; [eexists; reflexivity|]. split; [intros d Hd; apply (class_trans d d1 d2); auto|]. intros s ->. destruct d1; try discriminate C21. eapply NU1. reflexivity. }
  assert (GG2 : good_grids d2 gs1) by (destruct d2, d1; try discriminate C21; exact G1).
  exists (d2 :: rest2), d2. split; [exact E2|]. assert (FO : first_of (d2 :: rest2) = Ok d2) by (apply (first_tunable _ _ rest2); [reflexivity|apply T2]).
  split; [exact FO|].
  assert (D2 := column_dinv (CProd Y) (crosscat_wf Y CY) o' _ E2 d2 (or_introl eq_refl)).
  destruct (own_hypers_good d2 (proj1 D2) (proj2 (proj2 T2))) as [GH KH].
  assert (LN : List.length (dist_get_hypers d2) = List.length (hyper_names d1)).
  { rewrite <- (proj1 (class_names _ _ C21)), <- KH. unfold keys. rewrite map_length. reflexivity. }
  split; [exact LN|]. split; [unfold transition_hypers; rewrite FO, LN; reflexivity|].
  intros l HP. cbn zeta. assert (R := C41_returns (CProd Y) o' _ d2 gs1 (crosscat_grown Y CY) E2 T2 GG2).
  unfold transition_hypers in R |- *. rewrite FO in *. cbn [in_order always] in *. rewrite LN in R. split; [|exact (R l HP)].
  apply (C41_law (CProd Y) o' _ d2 gs1 (crosscat_grown Y CY) E2 T2 GG2 _ (fun _ => 0%R)). rewrite KH. apply permuted_names.
  rewrite (proj1 (class_names _ _ C21)). exact HP.
Qed.

Lemma col_facts : forall Y h, inv Y -> col Y h -> exists ds' d1, get_cgpms_by_output_index (CProd Y) o = Ok ds' /\ Forall2 adjusted ds ds' /\
  first_of ds' = Ok d1 /\ dist_get_hypers d1 = h /\ keys h = hyper_names d0 /\ good_hypers d0 h.
Proof.
  intros Y h (CY & _) (ds' & E & AD & CO). rewrite ED in AD. inversion AD as [|? d1 ? rest1 A1 F1 E1 E2]; subst ds'.
  assert (CL2 : forall d, In d (d1 :: rest1) -> same_class d d0 = true).
  { rewrite ED in CL. clear - AD CL. intros d Hd. revert CL Hd. generalize (d1 :: rest1), (d0 :: rest), AD. clear AD. intros l2 l1 F2.
    induction F2 as [|a b l1 l2 A F IH]; intros CL Hd; [destruct Hd|]. destruct (adjusted_untouched _ _ A) as (_ & _ & S & _). destruct Hd as [<-|Hd].
    - assert (Q := CL a (or_introl eq_refl)). clear - Q S. destruct b, a; try discriminate S; destruct d0; try discriminate Q; reflexivity.
    - apply IH; auto. intros x Hx. apply CL. now right. }
  assert (C1 := CL2 d1 (or_introl eq_refl)). exists (d1 :: rest1), d1. split; [exact E|]. split; [rewrite ED; exact AD|].
  split; [apply (first_tunable _ _ rest1); [reflexivity|intros d Hd; apply (class_trans d d0 d1); auto]|].
  split; [exact CO|]. cbn [common] in CO.
  assert (D1 := column_dinv (CProd Y) (crosscat_wf Y CY) o _ E d1 (or_introl eq_refl)).
  destruct (own_hypers_good d1 (proj1 D1)) as [GH KH].
  { intros s ->. destruct d0; try discriminate C1. eapply NU. reflexivity. }
  rewrite CO in *. destruct (class_names _ _ C1) as [N1 N2]. split; [congruence|]. unfold good_hypers in *. rewrite N1, N2 in GH. exact GH.
Qed.

Lemma retuned_all : forall h l, Forall2 adjusted l (map (retune h) l).
Proof. intros h l. induction l; constructor; auto. right. eauto. Qed.

Lemma after : forall Y o' ds2 h, inv Y -> In o' Os -> get_cgpms_by_output_index (CProd Y) o' = Ok ds2 ->
  exists Y2, fst (put_column o' (CProd Y) (map (retune h) ds2)) = CProd Y2 /\ inv Y2 /\
    get_cgpms_by_output_index (CProd Y2) o' = Ok (map (retune h) ds2) /\
    forall o2, o2 <> o' -> get_cgpms_by_output_index (CProd Y2) o2 = get_cgpms_by_output_index (CProd Y) o2.
Proof.
  intros Y o' ds2 h (CY & MY) Ho' E. destruct (put_moved Os Y o' ds2 _ CY Ho' E (retuned_all h ds2)) as (W & P & CW & MW & EW).
  exists W. split; [exact P|]. split; [split; [exact CW|eapply hypers_moved_trans; eauto]|]. split; [exact EW|].
  destruct (puts_all o' (CProd Y) ds2 E _ [] (retuned_all h ds2)) as (c' & P1 & _ & _ & _ & P5 & _). rewrite app_nil_r in P1. rewrite P1 in P. cbn [fst] in P.
  subst c'. exact P5.
Qed.

Notation w := (weight ds).
Definition perms (ords : list (list string)) : Prop := forall x, In x ords -> Permutation (hyper_names d0) x.
Definition visited (os : list Z) : list (Z * out grids) := map (fun o' => (o', gr o')) os.

(** What is known of the rest of the computation. *)
Definition rest_ok (n : nat) (f : hypers -> R) (F : cgpm * out unit -> R) (K : cgpm * out unit -> samp (cgpm * out unit)) : Prop :=
  forall ls Y, inv Y -> agreed ls (K (CProd Y, Ok tt)) -> exists ords, perms ords /\ List.length ords = n /\
    forall Y' h', inv Y' -> col Y' h' -> expect (settle ls (K (CProd Y', Ok tt))) F = laws w gs ords f h'.

Lemma visits : forall f F K n, rest_ok n f F K -> forall os ls Y, (forall x, In x os -> In x Os) -> inv Y ->
  agreed ls (sbind (hypers_each (CProd Y) (visited os)) K) ->
  exists ords, perms ords /\ List.length ords = (count_occ Z.eq_dec os o + n)%nat /\
    forall Y' h', inv Y' -> col Y' h' -> expect (settle ls (sbind (hypers_each (CProd Y') (visited os)) K)) F = laws w gs ords f h'.
Proof.
  intros f F K n RK. induction os as [|o' os IH]; intros ls Y HI IY AG.
  - cbn [visited map hypers_each sbind] in *. exact (RK ls Y IY AG).
  - assert (Ho' := HI o' (or_introl eq_refl)). destruct (visit_facts o' Ho') as (gs1 & nh & Eg & VF).
    cbn [visited map hypers_each] in AG |- *. rewrite Eg in AG |- *. cbn [obind] in AG |- *. fold (visited os) in AG |- *.
    destruct (VF Y IY) as (ds2 & d2 & E2 & FO & LN & TH & V2). rewrite E2 in AG. cbn [obind] in AG. rewrite TH in AG. cbn [sbind agreed] in AG.
    destruct ls as [|l ls]; [contradiction|]. destruct AG as [HP AG]. destruct (V2 l HP) as [FC AL].
    apply (agreed_free _ _ _ _ FC) in AG. destruct (some_outcome _ _ FC (always_and _ _ _ AL AG)) as (r & (h & ->) & AG'). cbn [fst snd] in AG'.
    destruct (after Y o' ds2 h IY Ho' E2) as (Y2 & P2 & I2 & _). rewrite P2 in AG'.
    destruct (IH ls Y2 (fun x Hx => HI x (or_intror Hx)) I2 AG') as (ords & PO & LO & LAW). clear Y ds2 d2 E2 FO LN TH V2 FC AL AG AG' IY P2 I2 Y2 h.
    cbn [count_occ]. destruct (Z.eq_dec o' o) as [->|N].
    + (* the column itself *)
      assert (gs1 = gs) by congruence. subst gs1. exists (renamed d0 l :: ords).
      assert (HL : Permutation (seq 0 (List.length (hyper_names d0))) l).
      { destruct (VF X (conj C (hypers_moved_refl _ X))) as (ds2 & d2 & E2 & FO & LN & _). rewrite EO in E2. injection E2 as <-.
        rewrite (first_tunable ds d0 rest ED CL) in FO. injection FO as <-. rewrite <- LN in HP.
        destruct (own_hypers_good d0 (DI d0 ltac:(rewrite ED; now left)) NU) as [_ KH]. rewrite <- KH. unfold keys. rewrite map_length. exact HP. }
      split; [intros x [<-|Hx]; [apply renamed_perm; exact HL|apply PO; exact Hx]|]. split; [cbn [List.length]; lia|].
      intros Y' h' I' C'. destruct (VF Y' I') as (ds2 & d2 & E2 & FO & LN & TH & V2). rewrite E2. cbn [obind]. rewrite TH. cbn [sbind settle].
      destruct (V2 l HP) as [FC AL]. rewrite (settle_free _ _ _ _ _ FC).
      destruct (col_facts Y' h' I' C') as (ds' & d1 & E3 & AD & FO' & EH & KH & GH). rewrite E2 in E3. injection E3 as <-.
      destruct (one_call ds d0 gs CL DI GG ds2 d1 h' l AD FO' EH KH GH HL) as [AL' LW].
      rewrite LW. cbn [laws fst snd]. apply (law_ext w gs (hyper_names d0)).
      * intros k Hk. apply (Permutation_in k (Permutation_sym (renamed_perm d0 l HL)) Hk).
      * exact KH.
      * intros k Hk Nk. exfalso. apply Nk. apply (Permutation_in k (renamed_perm d0 l HL) Hk).
      * intros h2 Ph. assert (RS := restart d0 h2 NU (on_grids_good d0 gs h2 GG Ph) (proj1 Ph)).
        assert (RT : map (retune h2) ds = map (retune h2) ds2).
        { assert (G2 := on_grids_good d0 gs h2 GG Ph). clear - AD G2 CL. revert CL. induction AD as [|a b la lb A AD IH]; intros CL; [reflexivity|]. cbn [map]. f_equal.
          - destruct (dist_set_hypers a h2) as [a' res] eqn:E. destruct (PrimsThm2.set_hypers_spec _ _ _ _ E) as (S1 & _).
            assert (res = Ok tt) by (apply S1; eapply good_class; [apply CL; now left|exact G2]). subst res.
            unfold retune. rewrite E, (adjusted_ok' _ _ _ _ _ A E). reflexivity.
          - apply IH. intros d Hd. apply CL. now right. }
        rewrite RT. destruct (after Y' o ds2 h2 I' Ho E2) as (Y2 & P2 & I2 & G2 & _). rewrite P2. apply LAW; [exact I2|].
        exists (map (retune h2) ds2). split; [exact G2|]. rewrite <- RT. split; [apply retuned_all|]. rewrite ED. exact RS.
    + exists ords. split; [exact PO|]. split; [exact LO|]. intros Y' h' I' C'. destruct (VF Y' I') as (ds2 & d2 & E2 & FO & LN & TH & V2).
      rewrite E2. cbn [obind]. rewrite TH. cbn [sbind settle]. destruct (V2 l HP) as [FC AL]. rewrite (settle_free _ _ _ _ _ FC).
      rewrite (expect_always _ _ _ (fun _ => laws w gs ords f h') FC AL); [apply ChainLaw.expect_const; exact FC|].
      intros r (h2 & ->). cbn [fst snd]. destruct (after Y' o' ds2 h2 I' Ho' E2) as (Y2 & P2 & I2 & _ & G2). rewrite P2. apply LAW; [exact I2|].
      destruct C' as (ds' & E' & R'). exists ds'. split; [rewrite G2 by congruence; exact E'|exact R'].
Qed.

Lemma orders_exist : forall K ls0, (forall Y, inv Y -> agreed ls0 (K (CProd Y, Ok tt))) -> forall os, (forall x, In x os -> In x Os) ->
  exists ls, forall Y, inv Y -> agreed ls (sbind (hypers_each (CProd Y) (visited os)) K : samp (cgpm * out unit)).
Proof.
  intros K ls0 HK. induction os as [|o' os IH]; intros HI; [exists ls0; intros Y IY; cbn [visited map hypers_each sbind]; auto|].
  destruct (IH (fun x Hx => HI x (or_intror Hx))) as (ls & HL). assert (Ho' := HI o' (or_introl eq_refl)).
  destruct (visit_facts o' Ho') as (gs1 & nh & Eg & VF). exists (seq 0 nh :: ls). intros Y IY.
  cbn [visited map hypers_each]. rewrite Eg. cbn [obind]. fold (visited os). destruct (VF Y IY) as (ds2 & d2 & E2 & FO & LN & TH & V2).
  rewrite E2. cbn [obind]. rewrite TH. cbn [sbind agreed]. split; [apply Permutation_refl|]. destruct (V2 _ (Permutation_refl _)) as [FC AL].
  apply (agreed_free _ _ _ _ FC). eapply always_imp; [|exact AL]. intros r (h & ->). cbn [fst snd].
  destruct (after Y o' ds2 h IY Ho' E2) as (Y2 & -> & I2 & _). apply HL. exact I2.
Qed.

(** Kernels that visit the outputs given with them, each once in any order, or do nothing. *)
Definition visiting (p : kernel cgpm * list Z) : Prop :=
  (forall x, In x (snd p) -> In x Os) /\
  ((snd p = [] /\ forall c, fst p c = Ret (c, Ok tt)) \/
   forall Y, inv Y -> fst p (CProd Y) = any_order (snd p) (fun os => hypers_each (CProd Y) (visited os))).
Definition following (ps : list (kernel cgpm * list Z)) (r : cgpm * out unit) : samp (cgpm * out unit) :=
  match snd r with Err e => Ret (fst r, Err e) | Ok _ => run_all (map fst ps) (fst r) end.
Definition times (ps : list (kernel cgpm * list Z)) : nat := list_sum (map (fun p => count_occ Z.eq_dec (snd p) o) ps).

Lemma shuffled : forall (l : list Z) p, Permutation (seq 0 (List.length l)) p ->
  Permutation l (flat_map (fun i => match nth_error l i with Some a => [a] | None => [] end) p).
Proof.
  intros l p HP. rewrite <- HP. clear HP. match goal with |- Permutation ?a ?b => assert (E : a = b); [|rewrite <- E; apply Permutation_refl] end.
  induction l as [|a l IH]; [reflexivity|]. cbn [List.length seq flat_map nth_error app]. rewrite <- seq_shift. f_equal.
  rewrite flat_map_concat_map, map_map, <- flat_map_concat_map. exact IH.
Qed.

Lemma passes_law : forall f ps, (forall p, In p ps -> visiting p) -> rest_ok (times ps) f (fun r => f (hypers_of (fst r) o)) (following ps).
Proof.
  intros f. induction ps as [|[k cols] ps IH]; intros VP ls Y IY AG.
  - unfold following in *. cbn [snd fst map run_all agreed] in *. subst ls. exists []. split; [intros ? []|]. split; [reflexivity|].
    intros Y' h' I' (ds' & E' & _ & CO). cbn [settle expect fst laws]. unfold hypers_of. rewrite E', CO. reflexivity.
  - specialize (IH (fun p Hp => VP p (or_intror Hp))). destruct (VP (k, cols) (or_introl eq_refl)) as [IO KI]. cbn [fst snd] in IO, KI.
    change (agreed ls (sbind (k (CProd Y)) (following ps))) in AG. unfold times. cbn [map snd list_sum fold_right]. fold (list_sum (map (fun p : kernel cgpm * list Z => count_occ Z.eq_dec (snd p) o) ps)). fold (times ps).
    destruct KI as [[-> KI]|KI].
    { rewrite KI in AG. cbn [sbind] in AG. destruct (IH ls Y IY AG) as (ords & PO & LO & LAW). exists ords. split; [exact PO|]. split; [exact LO|].
      intros Y' h' I' C'. change (expect (settle ls (sbind (k (CProd Y')) (following ps))) (fun r => f (hypers_of (fst r) o)) = laws w gs ords f h').
      rewrite KI. cbn [sbind]. apply LAW; assumption. }
    rewrite (KI Y IY) in AG. unfold any_order in AG. cbn [sbind agreed] in AG.
    destruct ls as [|p ls]; [contradiction|]. destruct AG as [HP AG]. assert (SH := shuffled _ p HP).
    set (os := flat_map (fun i => match nth_error cols i with Some a => [a] | None => [] end) p) in *.
    assert (HI : forall x, In x os -> In x Os).
    { intros x Hx. apply (Permutation_in x (Permutation_sym SH)) in Hx. exact (IO x Hx). }
    destruct (visits f _ (following ps) (times ps) IH os ls Y HI IY AG) as (ords & PO & LO & LAW). exists ords. split; [exact PO|]. split.
    + rewrite LO, (proj1 (Permutation_count_occ Z.eq_dec cols os) SH o). reflexivity.
    + intros Y' h' I' C'. change (expect (settle (p :: ls) (sbind (k (CProd Y')) (following ps))) (fun r => f (hypers_of (fst r) o)) = laws w gs ords f h').
      rewrite (KI Y' I'). unfold any_order. cbn [sbind settle]. fold os. apply LAW; assumption.
Qed.

Lemma passes_orders : forall ps, (forall p, In p ps -> visiting p) -> exists ls, forall Y, inv Y -> agreed ls (following ps (CProd Y, Ok tt)).
Proof.
  induction ps as [|[k cols] ps IH]; intros VP; [exists []; intros Y _; reflexivity|].
  destruct (IH (fun p Hp => VP p (or_intror Hp))) as (ls0 & H0). destruct (VP (k, cols) (or_introl eq_refl)) as [IO KI]. cbn [fst snd] in IO, KI.
  destruct KI as [[-> KI]|KI].
  { exists ls0. intros Y IY. change (agreed ls0 (sbind (k (CProd Y)) (following ps))). rewrite KI. cbn [sbind]. apply H0. exact IY. }
  assert (SH := shuffled cols _ (Permutation_refl _)).
  set (os := flat_map (fun i => match nth_error cols i with Some a => [a] | None => [] end) (seq 0 (List.length cols))) in *.
  destruct (orders_exist (following ps) ls0 H0 os) as (ls & HL).
  { intros x Hx. apply (Permutation_in x (Permutation_sym SH)) in Hx. exact (IO x Hx). }
  exists (seq 0 (List.length cols) :: ls). intros Y IY. change (agreed (seq 0 (List.length cols) :: ls) (sbind (k (CProd Y)) (following ps))).
  rewrite (KI Y IY). unfold any_order. cbn [sbind agreed]. split; [apply Permutation_refl|]. apply HL. exact IY.
Qed.
End Passes.

(** ** The two kernels *)

Lemma same_outputs : forall Os X Y outs, crosscat X -> inv X Os Y -> outputs_or (CProd Y) outs = outputs_or (CProd X) outs.
Proof.
  intros Os X Y outs C (CY & (F & _)). unfold outputs_or. assert (E : get_distribution_outputs (CProd Y) = get_distribution_outputs (CProd X)).
  { rewrite !distribution_outputs by assumption. clear - F. induction F as [|m m' l l' ((_ & E & _) & _) F IH]; [reflexivity|]. cbn [flat_map]. rewrite E, IH. reflexivity. }
  destruct outs as [[|? ?]|]; auto.
Qed.

Lemma any_order_ext : forall {A B} (l : list A) (k k' : list A -> samp B), (forall os, (forall x, In x os -> In x l) -> k os = k' os) -> any_order l k = any_order l k'.
Proof.
  intros A B l k k' E. unfold any_order. f_equal. apply functional_extensionality. intros p. apply E. intros x Hx.
  apply in_flat_map in Hx. destruct Hx as (i & _ & Hx). destruct (nth_error l i) as [a|] eqn:N; [|destruct Hx]. destruct Hx as [<-|[]]. eapply nth_error_In; eauto.
Qed.

Lemma visited_ext : forall gr gr' os, (forall x, In x os -> gr x = gr' x) -> visited gr os = visited gr' os.
Proof. intros gr gr' os E. apply map_ext_in. intros x Hx. rewrite E by exact Hx. reflexivity. Qed.

Lemma kernel_columns : forall X g outs gr Os, crosscat X -> columns_given X outs -> (forall x, In x (flat_map columns_of X) -> gr x = dget x (grids_columns g)) ->
  forall Y, inv X Os Y ->
  transition_hypers_distributions g (CProd Y) outs = any_order (nodup Z.eq_dec (outputs_or (CProd X) outs)) (fun os => hypers_each (CProd Y) (visited gr os)).
Proof.
  intros X g outs gr Os C HO EG Y IY. unfold transition_hypers_distributions. rewrite (same_outputs _ X Y outs C IY).
  destruct (oseq_ok (get_cgpms_by_output_index (CProd Y)) (outputs_or (CProd X) outs)) as (bs & -> & _).
  - intros x Hx. destruct (column_components X x C (outputs_or_columns X outs x C HO Hx)) as (ds & _ & _ & E & _).
    destruct IY as (_ & (_ & _ & M3)). destruct (M3 x ds E) as (ds' & E' & _). eauto.
  - apply any_order_ext. intros os IO. f_equal. apply (visited_ext (fun x => dget x (grids_columns g))). intros x Hx. symmetry. apply EG.
    apply (outputs_or_columns X outs x C HO). apply (nodup_In Z.eq_dec). apply IO. exact Hx.
Qed.

Lemma same_index : forall Os X Y o, inv X Os Y -> get_cgpm_current_view_index (CProd Y) [o] = get_cgpm_current_view_index (CProd X) [o].
Proof.
  intros Os X Y o (_ & (F & _)). unfold get_cgpm_current_view_index. cbn [views_of flat_map].
  replace (map fst (filter (fun p => memb o (outputs (snd p))) (enum_from 0 Y))) with (map fst (filter (fun p => memb o (outputs (snd p))) (enum_from 0 X))); [reflexivity|].
  generalize 0%nat. induction F as [|m m' l l' ((E & _) & _) F IH]; intros i; [reflexivity|]. cbn [enum_from filter snd]. rewrite E.
  destruct (memb o (outputs m)); cbn [map fst]; rewrite IH; reflexivity.
Qed.

Lemma same_label : forall Os X Y i, inv X Os Y -> (do v <- item Y i; first_output v) = (do v <- item X i; first_output v).
Proof.
  intros Os X Y i (_ & (F & _)). revert i. unfold item, first_output. induction F as [|m m' l l' ((E & _) & _) F IH]; intros [|i]; cbn [nth_error obind]; try reflexivity.
  - rewrite E. reflexivity.
  - apply IH.
Qed.

Lemma kernel_dividers : forall X g outs, crosscat X -> columns_given X outs -> exists labels, NoDup labels /\
  (forall x, In x labels -> exists m, In m X /\ x = label_of m) /\ (forall m, In m X -> chosen outs m -> In (label_of m) labels) /\
  forall gr Os Y, (forall x, In x labels -> gr x = Ok (grids_dividers g)) -> inv X Os Y ->
  transition_hypers_row_divide g (CProd Y) outs = any_order labels (fun os => hypers_each (CProd Y) (visited gr os)).
Proof.
  intros X g outs C HO. destruct (view_indexes_ok X outs C HO) as (is & EI & NI & HI). assert (CH := view_indexes_chosen X outs is C HO EI).
  destruct (labels_ok X is C NI HI) as (labels & EL & NL & HL & IL). exists labels. split; [exact NL|]. split; [exact HL|]. split.
  - intros m Hm Hc. destruct (In_nth_error _ _ Hm) as (i & N). destruct (IL i (proj2 (CH i m N) Hc)) as (m' & N' & I'). congruence.
  - intros gr Os Y EG IY. unfold transition_hypers_row_divide.
    assert (EV : view_indexes (CProd Y) outs = Ok is).
    { rewrite <- EI. unfold view_indexes. rewrite (same_outputs Os X Y outs C IY). f_equal. f_equal. apply map_ext. intros o. apply (same_index Os). exact IY. }
    rewrite EV. cbn [obind views_of]. rewrite (map_ext _ _ (fun i => same_label Os X Y i IY)), EL. cbn [obind].
    destruct (oseq_ok (get_cgpms_by_output_index (CProd Y)) labels) as (bs & -> & _);
      [|cbn [obind]; apply any_order_ext; intros os IO; f_equal; apply (visited_ext (fun _ => Ok (grids_dividers g))); intros x Hx; symmetry; auto].
    intros x Hx. destruct (HL x Hx) as (m & Hm & ->). destruct (label_components X m C Hm) as (s & E).
    destruct IY as (_ & (_ & _ & M3)). destruct (M3 _ _ E) as (ds' & E' & _). eauto.
Qed.

(** A single hyperparameter is drawn afresh. *)
Lemma laws_one : forall w gs k f ords, (forall h, 0 < w h)%R -> grid_of gs k <> [] -> ords <> [] -> (forall x, In x ords -> Permutation [k] x) ->
  forall h, keys h = [k] -> laws w gs ords f h =
    (rsum (map (fun v => w [(k, v)] * f [(k, v)]) (grid_of gs k)) / rsum (map (fun v => w [(k, v)]) (grid_of gs k)))%R.
Proof.
  intros w gs k f ords W GN NE HP h KH. set (A := rsum (map (fun v => w [(k, v)] * f [(k, v)])%R (grid_of gs k))).
  set (Z := rsum (map (fun v => w [(k, v)]) (grid_of gs k))).
  assert (ZP : (0 < Z)%R) by (apply rsum_pos; [exact GN|auto]).
  assert (ONE : forall F h, keys h = [k] -> gibbs_law w gs [k] F h = (rsum (map (fun v => w [(k, v)] * F [(k, v)])%R (grid_of gs k)) / Z)%R).
  { intros F h1 K1. destruct h1 as [|[k1 v1] [|? ?]]; try discriminate K1. injection K1 as ->. cbn [gibbs_law].
    assert (D : forall v, dset k v [(k, v1)] = [(k, v)]) by (intros v; cbn [dset]; destruct (eq_dec k k); [reflexivity|congruence]).
    rewrite (map_ext (fun g => w (dset k g [(k, v1)])) (fun v => w [(k, v)])) by (intros v; now rewrite D). fold Z.
    transitivity (rsum (map (fun v => / Z * (w [(k, v)] * F [(k, v)]))%R (grid_of gs k))); [|rewrite rsum_scal; unfold Rdiv; ring].
    apply rsum_ext. intros v _. rewrite D. unfold Rdiv. ring. }
  revert h KH. induction ords as [|x ords IH]; [congruence|]. intros h KH. cbn [laws].
  rewrite (Permutation_length_1_inv (HP x (or_introl eq_refl))). rewrite ONE by exact KH. destruct ords as [|y ords]; [reflexivity|].
  assert (IH' : forall h, keys h = [k] -> laws w gs (y :: ords) f h = (A / Z)%R) by (apply IH; [discriminate|intros z Hz; apply HP; now right]).
  transitivity (rsum (map (fun v => A / Z * w [(k, v)])%R (grid_of gs k)) / Z)%R.
  - f_equal. apply rsum_ext. intros v _. rewrite IH' by reflexivity. ring.
  - rewrite rsum_scal. fold Z. field. lra.
Qed.

(** ** The kernels for hyperparameters together *)

Lemma label_no_column : forall X m o, crosscat X -> In m X -> In o (flat_map columns_of X) -> label_of m <> o.
Proof.
  intros X m o C Hm Ho E. apply in_flat_map in Ho. destruct Ho as (m' & Hm' & Ho). destruct (in_split _ _ Hm) as (l & r & ->).
  assert (Sm := crosscat_views _ m C Hm). assert (Sm' := crosscat_views _ m' C Hm').
  assert (Om : In o (outputs m)) by (rewrite (sheet_outputs m) by apply Sm; now left).
  assert (ND := proj2 C). apply in_app_or in Hm'. cbn [In] in Hm'.
  assert (D : m' = m \/ In m' (l ++ r)) by (rewrite in_app_iff; destruct Hm' as [H1|[H1|H1]]; auto). destruct D as [->|D].
  - rewrite flat_map_app in ND. cbn [flat_map] in ND. apply NoDup_app_parts, proj2, NoDup_app_parts, proj1 in ND.
    rewrite (sheet_outputs m) in ND by apply Sm. inversion ND as [|? ? NI _]. apply NI. rewrite E. exact Ho.
  - apply (one_view l m r m' o C Om D). rewrite (sheet_outputs m') by apply Sm'. now right.
Qed.

(** What each kernel visits. *)
Definition tour (X : list cgpm) (g : sampler) (outs : option (list Z)) (labels : list Z) (nm : string) : kernel cgpm * list Z :=
  if String.eqb nm "hypers_distributions"%string then (fun c => transition_hypers_distributions g c outs, nodup Z.eq_dec (outputs_or (CProd X) outs))
  else if String.eqb nm "hypers_row_divide"%string then (fun c => transition_hypers_row_divide g c outs, labels)
  else (fun c => Ret (c, Ok tt), []).
Definition targets (X : list cgpm) (names : list string) : list Z :=
  (if in_dec string_dec "hypers_distributions"%string names then flat_map columns_of X else []) ++ map label_of X.
Definition their_grids (X : list cgpm) (g : sampler) (x : Z) : out grids :=
  if in_dec Z.eq_dec x (map label_of X) then Ok (grids_dividers g) else dget x (grids_columns g).

Lemma column_grids : forall X g x, crosscat X -> In x (flat_map columns_of X) -> their_grids X g x = dget x (grids_columns g).
Proof.
  intros X g x C Hx. unfold their_grids. destruct (in_dec Z.eq_dec x (map label_of X)) as [I|_]; [|reflexivity].
  apply in_map_iff in I. destruct I as (m & E & Hm). destruct (label_no_column X m x C Hm Hx E).
Qed.

Lemma label_grids : forall X g m, In m X -> their_grids X g (label_of m) = Ok (grids_dividers g).
Proof. intros X g m Hm. unfold their_grids. destruct (in_dec Z.eq_dec (label_of m) (map label_of X)) as [_|N]; [reflexivity|]. destruct N. now apply in_map. Qed.

Lemma crp_tunable : forall s, tunable [DCrp s] (DCrp s).
Proof. intros s. split; [eexists; reflexivity|]. split; [intros d [<-|[]]; reflexivity|discriminate]. Qed.

Lemma targets_tunable : forall X g names, crosscat X -> (In "hypers_distributions"%string names -> no_normal_uc X) -> grids_for X (grids_columns g) (grids_dividers g) ->
  forall x, In x (targets X names) -> exists ds1 d1 gs1, get_cgpms_by_output_index (CProd X) x = Ok ds1 /\ tunable ds1 d1 /\ their_grids X g x = Ok gs1 /\ good_grids d1 gs1.
Proof.
  intros X g names C NUC GF x Hx. apply in_app_or in Hx. destruct Hx as [Hx|Hx].
  - destruct (in_dec string_dec "hypers_distributions"%string names) as [I|_]; [|destruct Hx].
    destruct (column_tunable X x C (NUC I) Hx) as (ds1 & d1 & E1 & TU1 & T1). destruct (proj1 GF x d1 T1) as (gs1 & L1 & G1).
    exists ds1, d1, gs1. split; [exact E1|]. split; [exact TU1|]. split; [rewrite column_grids by assumption; unfold dget; rewrite L1; reflexivity|exact G1].
  - apply in_map_iff in Hx. destruct Hx as (m & <- & Hm). destruct (label_components X m C Hm) as (s & E).
    exists [DCrp s], (DCrp s), (grids_dividers g). split; [exact E|]. split; [apply crp_tunable|]. split; [apply label_grids; exact Hm|apply (proj2 GF)].
Qed.

Lemma tours : forall X g outs names, crosscat X -> columns_given X outs -> exists labels, NoDup labels /\
  (forall x, In x labels -> exists m, In m X /\ x = label_of m) /\ (forall m, In m X -> chosen outs m -> In (label_of m) labels) /\
  forall nm, In nm names -> visiting X (targets X names) (their_grids X g) (tour X g outs labels nm).
Proof.
  intros X g outs names C HO. destruct (kernel_dividers X g outs C HO) as (labels & NL & HL & CH & KI). exists labels.
  split; [exact NL|]. split; [exact HL|]. split; [exact CH|]. intros nm Hn. unfold tour.
  destruct (String.eqb_spec nm "hypers_distributions"%string) as [->|_]; [|destruct (String.eqb nm "hypers_row_divide"%string)]; split; cbn [fst snd].
  - intros x Hx. apply nodup_In in Hx. apply in_or_app. left. destruct (in_dec string_dec "hypers_distributions"%string names) as [_|N]; [|contradiction].
    exact (outputs_or_columns X outs x C HO Hx).
  - right. intros Y IY. exact (kernel_columns X g outs (their_grids X g) _ C HO (fun x Hx => column_grids X g x C Hx) Y IY).
  - intros x Hx. apply in_or_app. right. destruct (HL x Hx) as (m & Hm & ->). now apply in_map.
  - right. intros Y IY. apply (KI (their_grids X g) (targets X names) Y); [|exact IY]. intros x Hx. destruct (HL x Hx) as (m & Hm & ->). apply label_grids. exact Hm.
  - intros x [].
  - left. split; reflexivity.
Qed.

Lemma in_rounds : forall {A} (l : list A) n x, In x (List.concat (repeat l n)) -> In x l.
Proof. intros A l n x. induction n as [|n IH]; [intros []|]. cbn [repeat List.concat]. intros I. apply in_app_or in I. destruct I; auto. Qed.

Lemma times_rounds : forall o L n, times o (List.concat (repeat L n)) = (n * times o L)%nat.
Proof.
  intros o L n. induction n as [|n IH]; [reflexivity|]. cbn [repeat List.concat Nat.mul]. rewrite <- IH. unfold times. rewrite map_app, list_sum_app. reflexivity.
Qed.

Lemma map_rounds : forall {A B} (f : A -> B) L n, List.concat (repeat (map f L) n) = map f (List.concat (repeat L n)).
Proof. intros A B f L n. induction n as [|n IH]; [reflexivity|]. cbn [repeat List.concat]. rewrite map_app, IH. reflexivity. Qed.

Lemma toured : forall X g outs rowids labels names, (forall nm, In nm names -> In nm hypers_kernels) ->
  oseq (map (kernel_lookup g outs rowids) names) = Ok (map fst (map (tour X g outs labels) names)).
Proof.
  intros X g outs rowids labels. induction names as [|nm names IH]; intros HN; [reflexivity|]. cbn [map oseq]. rewrite IH by (intros x Hx; apply HN; now right).
  destruct (HN nm (or_introl eq_refl)) as [<-|[<-|[<-|[]]]]; reflexivity.
Qed.

(** A column is visited once by each round of the kernels. *)
Lemma times_column : forall X g outs labels names o, crosscat X -> NoDup names -> In "hypers_distributions"%string names ->
  (forall x, In x labels -> exists m, In m X /\ x = label_of m) -> In o (flat_map columns_of X) -> In o (outputs_or (CProd X) outs) ->
  times o (map (tour X g outs labels) names) = 1%nat.
Proof.
  intros X g outs labels names o C ND HI HL Ho OI.
  assert (L0 : count_occ Z.eq_dec labels o = 0%nat).
  { apply count_occ_not_In. intros I. destruct (HL o I) as (m & Hm & E). exact (label_no_column X m o C Hm Ho (eq_sym E)). }
  assert (N0 : forall nm, nm <> "hypers_distributions"%string -> count_occ Z.eq_dec (snd (tour X g outs labels nm)) o = 0%nat).
  { intros nm N. unfold tour. destruct (String.eqb_spec nm "hypers_distributions"%string) as [E|_]; [contradiction|]. destruct (String.eqb nm "hypers_row_divide"%string); [exact L0|reflexivity]. }
  assert (N1 : count_occ Z.eq_dec (snd (tour X g outs labels "hypers_distributions"%string)) o = 1%nat).
  { apply NoDup_count_occ'; [apply NoDup_nodup|]. apply nodup_In. exact OI. }
  assert (Z0 : forall l, ~ In "hypers_distributions"%string l -> times o (map (tour X g outs labels) l) = 0%nat).
  { induction l as [|a l IH]; intros NI; [reflexivity|]. change (times o (map (tour X g outs labels) (a :: l))) with (count_occ Z.eq_dec (snd (tour X g outs labels a)) o + times o (map (tour X g outs labels) l))%nat.
    rewrite N0 by (intros ->; apply NI; now left). apply IH. intros I. apply NI. now right. }
  induction ND as [|a l NI ND IH]; [destruct HI|]. change (times o (map (tour X g outs labels) (a :: l))) with (count_occ Z.eq_dec (snd (tour X g outs labels a)) o + times o (map (tour X g outs labels) l))%nat.
  destruct (string_dec a "hypers_distributions"%string) as [->|N].
  - rewrite N1, (Z0 l NI). reflexivity.
  - rewrite (N0 a N). apply IH. destruct HI as [->|HI]; [congruence|exact HI].
Qed.

(** A row divider asked for is visited by the kernel for row dividers. *)
Lemma times_label : forall X g outs labels names o, In "hypers_row_divide"%string names -> In o labels -> (1 <= times o (map (tour X g outs labels) names))%nat.
Proof.
  intros X g outs labels names o HI HO. induction names as [|a l IH]; [destruct HI|].
  change (times o (map (tour X g outs labels) (a :: l))) with (count_occ Z.eq_dec (snd (tour X g outs labels a)) o + times o (map (tour X g outs labels) l))%nat.
  destruct HI as [->|HI]; [|specialize (IH HI); lia]. apply (count_occ_In Z.eq_dec) in HO. unfold tour at 1. cbn [String.eqb Ascii.eqb Bool.eqb fst snd].
  lia.
Qed.
