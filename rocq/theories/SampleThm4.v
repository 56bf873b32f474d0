(** What is rendered of a view (for C53), and import of whole states (for C54). *)
From Coq Require Import List ZArith QArith Qcanon Reals Bool String Permutation Sorted Lia Lra.
From Verif Require Import Base Xr Samp Lgamma Prims Cgpm Lib SpecPrims PrimsInv PrimsDens PrimsThm PrimsThm2
  SpecComp CompInv CompDens CompThm SpecSim SimShape SpecBook Book SpecTable Trans SpecHist Table Gibbs Hist Walks SpecWalks WalksThm Views SpecViews ViewsThm ViewsThm2
  Sample SpecSample SampleThm2 SampleThm3.
Import ListNotations.
Local Open Scope Z_scope.

(** ** The statements of the components *)

Lemma primitive_got : forall d r, get_primitive_observes d r = got r d.
Proof. reflexivity. Qed.

Lemma product_got : forall ds r, NoDup (map dist_o ds) -> get_product_observes (CProd (map CDist ds)) r = Ok (flat_map (got r) ds).
Proof.
  intros ds r ND. cbn [get_product_observes]. rewrite map_map. rewrite (oseq_map_ok _ (got r)) by reflexivity. cbn [omap]. f_equal.
  rewrite flat_map_concat_map. apply mergedl_concat. rewrite <- flat_map_concat_map. apply (got_keys r ds ND).
Qed.

Lemma only_nonempty : forall (g : val -> row) k (cs : dict val cgpm), NoDup (keys cs) -> In k (keys cs) -> g k <> [] -> (forall k', k' <> k -> g k' = []) ->
  filter (fun d : row => match d with [] => false | _ => true end) (map (fun p : val * cgpm => g (fst p)) cs) = [g k].
Proof.
  intros g k cs NDk Hk NEk EMP. induction cs as [|[k' c'] cs IH]; [destruct Hk|]. cbn [map filter fst]. cbn [keys map fst] in NDk, Hk. inversion NDk as [|? ? NI ND]; subst.
  destruct Hk as [<-|Hk].
  - destruct (g k') eqn:E; [congruence|]. f_equal. clear IH E. assert (Y : forall p, In p cs -> g (fst p) = []).
    { intros q Hp. apply EMP. intros E. apply NI. rewrite <- E. now apply in_map. }
    clear - Y. induction cs as [|p cs IH]; [reflexivity|]. cbn [map filter]. rewrite Y by now left. apply IH. intros; apply Y; now right.
  - rewrite EMP; [apply IH; assumption|]. intros ->. contradiction.
Qed.

Lemma components_got : forall s bs cs r2i r2c r k, let m := mkview s bs cs r2i r2c in
  wf m -> shaped bs cs -> kept_well s bs cs r2i r2c -> lookup r r2c = Some k -> (exists c x, cell m r c = Some x) ->
  get_components_observes (CFlexArr (crp_o s) (CProd (map CDist bs)) cs r2i) r = Ok (flat_map (got r) (cols bs cs k)).
Proof.
  intros s bs cs r2i r2c r k m W SH KW Lk (c & x & CX). assert (SH0 := SH). destruct SH0 as (NB & B & C).
  destruct (view_parts _ _ _ _ _ W) as (D & Db & NDb & NI & NDk & Dc). assert (KW0 := KW). destruct KW0 as (N1 & N2 & A3 & A4 & A5 & A6).
  unfold m in CX. rewrite cell_parts in CX by exact SH. rewrite Lk in CX.
  assert (LK : lookup k cs <> None).
  { intros X. unfold cols in CX. rewrite X in CX. unfold in_column in CX. destruct (find _ bs) as [d|] eqn:F; [|discriminate].
    apply find_some in F. destruct F as [F _]. destruct (B d F) as [_ E]. rewrite E in CX. discriminate. }
  assert (NEk : flat_map (got r) (cols bs cs k) <> []).
  { intros X. assert (Y := got_lookup r (cols bs cs k) (proj1 (proj2 (cols_good s bs cs r2i r2c W B C k))) c). rewrite X, CX in Y. discriminate. }
  assert (EMP : forall k', k' <> k -> flat_map (got r) (cols bs cs k') = []).
  { intros k' NE. assert (Y : forall d, In d (cols bs cs k') -> got r d = []).
    { intros d Hd. unfold got. destruct (lookup r (dist_data d)) as [y|] eqn:L; [|reflexivity]. exfalso. apply NE.
      assert (X := A6 r k' d Hd). rewrite Lk in X. assert (In r (keys (dist_data d))) by (apply lookup_In in L; apply (in_map fst) in L; exact L). assert (Some k = Some k') by auto. congruence. }
    induction (cols bs cs k') as [|d l IH]; [reflexivity|]. cbn [flat_map]. rewrite Y by now left. apply IH. intros; apply Y; now right. }
  cbn [get_components_observes]. rewrite (oseq_map_ok _ (fun p => flat_map (got r) (cols bs cs (fst p)))).
  2:{ intros [k' c'] H. cbn [fst snd]. destruct (C _ _ H) as (ds & -> & A).
      assert (Ek : cols bs cs k' = ds) by (unfold cols; rewrite (In_lookup _ _ _ NDk H); apply leaves_prod). rewrite Ek. apply product_got. rewrite <- Ek. apply (cols_good s bs cs r2i r2c W B C k'). }
  cbn [obind]. unfold the_only.
  assert (X : filter (fun d : row => match d with [] => false | _ => true end) (map (fun p : val * cgpm => flat_map (got r) (cols bs cs (fst p))) cs) = [flat_map (got r) (cols bs cs k)]).
  { assert (Hk : In k (keys cs)) by (destruct (in_dec eq_dec k (keys cs)) as [Y|Y]; [exact Y|exfalso; apply LK; apply lookup_None; exact Y]).
    apply (only_nonempty (fun k0 => flat_map (got r) (cols bs cs k0))); assumption. }
  match goal with |- match filter ?f ?l with _ => _ end = _ => change (filter f l) with (filter (fun d : row => match d with [] => false | _ => true end) (map (fun p : val * cgpm => flat_map (got r) (cols bs cs (fst p))) cs)) end.
  rewrite X. reflexivity.
Qed.

(** ** The statements of the row divider *)

Lemma divider_stmts : forall s l, dist_data (DCrp s) = as_data l -> NoDup (map fst l) ->
  map (divider_observes (DCrp s)) (keys (dist_data (DCrp s))) = stmts (crp_o s) (map snd l).
Proof.
  intros s l DD ND. rewrite DD. unfold stmts. assert (EK : keys (as_data l) = map fst l) by (unfold keys, as_data; rewrite map_map; reflexivity).
  rewrite EK, !map_map. apply map_ext_in. intros [r t] Hp. cbn [fst snd]. unfold divider_observes, get_primitive_observes. rewrite DD.
  rewrite (In_lookup (as_data l) r (vz t)).
  - cbn [map fst snd dist_o]. unfold vz. rewrite trunc_qz. reflexivity.
  - rewrite EK. exact ND.
  - unfold as_data. apply in_map_iff. exists (r, t). auto.
Qed.

Lemma at_index_id : forall (l : list (dict Z Z)) rows, NoDup rows -> List.length l = List.length rows ->
  oseq (map (at_index l rows) rows) = Ok l.
Proof.
  intros l rows ND EL. assert (X : forall pre rows' l1 l', rows = pre ++ rows' -> l = l1 ++ l' -> List.length pre = List.length l1 -> List.length l' = List.length rows' -> oseq (map (at_index l rows) rows') = Ok l').
  { intros pre rows'. revert pre. induction rows' as [|r rows' IH]; intros pre l1 l' E1 E2 EP E3; destruct l' as [|d l']; cbn in E3; try lia; [reflexivity|].
    cbn [map oseq]. unfold at_index at 1. rewrite (position_of_at rows (List.length pre) r 0 ND).
    - cbn [obind]. rewrite Z.add_0_l, Nat2Z.id. assert (NE : nth_error l (List.length pre) = Some d) by (rewrite E2, EP, nth_error_app2, Nat.sub_diag by lia; reflexivity). rewrite NE. rewrite (IH (pre ++ [r]) (l1 ++ [d]) l').
      + reflexivity.
      + rewrite E1, <- app_assoc. reflexivity.
      + rewrite E2, <- app_assoc. reflexivity.
      + rewrite !app_length. cbn. lia.
      + lia.
    - rewrite E1, nth_error_app2, Nat.sub_diag by lia. reflexivity. }
  apply (X [] rows [] l); auto.
Qed.

Lemma combine_map_snd : forall {A B C} (f : B -> C) (a : list A) (b : list B), combine a (map f b) = map (fun p => (fst p, f (snd p))) (combine a b).
Proof. induction a as [|x a IH]; intros [|y b]; cbn; try reflexivity. f_equal. apply IH. Qed.

Lemma combine_fst_snd : forall (l : list (Z * Z)), combine (map fst l) (map snd l) = l.
Proof. induction l as [|[a b] l IH]; cbn; congruence. Qed.

(** Everything about the rendered statements. *)
Lemma rendered : forall m l, grown m -> sheet m -> consistent m -> recorded_rows m l -> l <> [] -> no_empty_rows m ->
  exists f lo d, renumbering f (map snd l) /\ (forall t u, In t (map snd l) -> In u (map snd l) -> t < u -> f t < f u) /\
    ordered_by_table (map (fun p => (fst p, f (snd p))) l) lo /\
    get_view_observes m = Ok d /\ map fst d = map fst lo /\
    Forall2 (fun e p => NoDup (keys (snd e)) /\ names_cluster m (f (snd p)) (snd e) /\ cells_of_row m (fst e) (snd e)) d l.
Proof.
  intros m l GR Sh K RR NE NR. assert (W := grown_wf _ GR). destruct (sheet_inv m Sh) as (s & bs & cs & r2i & r2c & -> & NB & B & C).
  assert (SH : shaped bs cs) by (split; auto). assert (KW := proj1 (consistent_parts _ _ _ _ _ SH) K).
  assert (KW0 := KW). destruct KW0 as (N1 & N2 & A3 & A4 & A5 & A6). destruct (view_parts _ _ _ _ _ W) as (D & Db & NDb & NI & NDk & Dc).
  destruct RR as (dv & ED & DD). cbn [divider mkview] in ED. injection ED as <-. change (dist_data (DCrp s) = as_data l) in DD.
  assert (EK : keys (dist_data (DCrp s)) = map fst l) by (rewrite DD; unfold keys, as_data; rewrite map_map; reflexivity).
  assert (NDl : NoDup (map fst l)) by (rewrite <- EK; apply dinv_keys; exact D).
  set (ts := map snd l). assert (NEt : ts <> []) by (destruct l; [congruence|discriminate]).
  set (f := number (zsort (dedup ts))). destruct (reindex_renumbering ts) as [RN INC]. fold f in RN, INC.
  set (l' := map (fun p => (fst p, f (snd p))) l).
  assert (S' : map snd l' = map f ts) by (unfold l', ts; rewrite !map_map; reflexivity).
  assert (F' : map fst l' = map fst l) by (unfold l'; rewrite map_map; reflexivity).
  destruct (sorted_rowids_ok (crp_o s) (map fst l) (map f ts)) as (lo & ES & ORD).
  { intros X. apply map_eq_nil in X. contradiction. }
  { unfold ts. rewrite !map_length. reflexivity. }
  assert (EC : combine (map fst l) (map f ts) = l') by (rewrite <- S', <- F'; apply combine_fst_snd). rewrite EC in ORD.
  assert (P := proj1 ORD). assert (Pf : Permutation (map fst lo) (map fst l)) by (rewrite <- F'; apply Permutation_map; exact P).
  assert (NDlo : NoDup (map fst lo)) by (apply (Permutation_NoDup (Permutation_sym Pf)); exact NDl).
  assert (LEN : List.length lo = List.length l) by (rewrite (Permutation_length P); unfold l'; apply map_length).
  set (comp := fun r => match lookup r r2c with Some k => flat_map (got r) (cols bs cs k) | None => [] end).
  assert (CO : forall r, In r (map fst lo) -> get_components_observes (CFlexArr (crp_o s) (CProd (map CDist bs)) cs r2i) r = Ok (comp r) /\
     NoDup (keys (comp r)) /\ ~ In (crp_o s) (keys (comp r)) /\ forall c, lookup c (comp r) = cell (mkview s bs cs r2i r2c) r c).
  { intros r Hr. apply (Permutation_in _ Pf) in Hr. rewrite <- EK in Hr. destruct (lookup r r2c) as [k|] eqn:Lk.
    2:{ exfalso. assert (X := A3 r). rewrite Lk in X. apply lookup_None in X. contradiction. }
    unfold comp. rewrite Lk. assert (CG := cols_good s bs cs r2i r2c W B C k). destruct CG as (_ & CN & CO).
    split; [apply (components_got s bs cs r2i r2c); auto; apply NR; cbn [seat mkview]; congruence|].
    split; [apply got_keys; exact CN|]. split; [intros X; apply NI; rewrite <- CO; apply (proj2 (got_keys r _ CN)); exact X|].
    intros c. rewrite (got_lookup r _ CN). rewrite cell_parts by exact SH. rewrite Lk. reflexivity. }
  exists f, lo, (map (fun t : Z * (dict Z Z * row) => (fst t, merged (as_row (fst (snd t))) (snd (snd t)))) (combine (map fst lo) (combine (stmts (crp_o s) (map f ts)) (map comp (map fst lo))))).
  split; [exact RN|]. split; [exact INC|]. split; [exact ORD|].
  assert (L1 : List.length (combine (stmts (crp_o s) (map f ts)) (map comp (map fst lo))) = List.length (map fst lo)).
  { rewrite combine_length. unfold stmts, ts. rewrite !map_length. lia. }
  split; [|split].
  - unfold get_view_observes, mkview. change (get_rowids (CMix true (DCrp s) (CFlexArr (crp_o s) (CProd (map CDist bs)) cs r2i) r2c)) with (Ok (keys (dist_data (DCrp s)))). cbn [obind].
    rewrite (divider_stmts s l DD NDl). fold ts. rewrite (reindex_ok (crp_o s) ts NEt). fold f. cbn [obind]. rewrite EK, ES. cbn [obind].
    rewrite (at_index_id (stmts (crp_o s) (map f ts)) (map fst lo) NDlo); [|unfold stmts, ts; rewrite !map_length; lia]. cbn [obind].
    rewrite (oseq_map_ok _ comp) by (intros r Hr; apply CO; exact Hr). reflexivity.
  - rewrite map_map. cbn [fst]. apply map_fst_combine. symmetry. exact L1.
  - assert (LL : forall r, In r (map fst lo) -> forall t, NoDup (keys (merged (as_row [(crp_o s, t)]) (comp r))) /\
        names_cluster (mkview s bs cs r2i r2c) t (merged (as_row [(crp_o s, t)]) (comp r)) /\ cells_of_row (mkview s bs cs r2i r2c) r (merged (as_row [(crp_o s, t)]) (comp r))).
    { intros r Hr t. destruct (CO r Hr) as (_ & N3 & NC & LC). split; [apply NoDup_merged|]. split.
      - unfold names_cluster. cbn [label_of mkview dist_o]. rewrite lookup_merged; [|repeat constructor; intros []|exact N3].
        rewrite (proj2 (lookup_None _ _) NC). cbn [as_row map lookup fst snd]. destruct (eq_dec (crp_o s) (crp_o s)); [reflexivity|congruence].
      - intros c Nc. cbn [label_of mkview dist_o] in Nc. rewrite lookup_merged; [|repeat constructor; intros []|exact N3]. rewrite LC.
        destruct (cell _ r c); [reflexivity|]. cbn [as_row map lookup fst]. destruct (eq_dec c (crp_o s)); [congruence|reflexivity]. }
    unfold ts. rewrite map_map. clearbody comp f. clear - LL LEN. revert l LEN. induction lo as [|p lo IH]; intros l LEN; destruct l as [|q l]; cbn in LEN; try lia; [constructor|].
    cbn [map stmts combine]. constructor; [apply LL; now left|]. apply IH; [intros; apply LL; now right|lia].
Qed.

(** ** Rows recorded in the order of their clusters *)

Lemma sorted_same_seq : forall (l l' : list Z), StronglySorted Z.le l -> StronglySorted Z.le l' -> Permutation l l' -> l = l'.
Proof.
  induction l as [|a l IH]; intros l' S1 S2 P; [apply Permutation_nil in P; congruence|]. destruct l' as [|b l']; [symmetry in P; apply Permutation_nil in P; discriminate|].
  inversion S1 as [|? ? S1' F1]; subst. inversion S2 as [|? ? S2' F2]; subst. rewrite Forall_forall in F1, F2.
  assert (a = b).
  { assert (Ha : In a (b :: l')) by (apply (Permutation_in _ P); now left). assert (Hb : In b (a :: l)) by (apply (Permutation_in _ (Permutation_sym P)); now left).
    destruct Ha as [->|Ha]; [reflexivity|]. destruct Hb as [->|Hb]; [reflexivity|]. assert (X := F1 b Hb). assert (Y := F2 a Ha). lia. }
  subst b. f_equal. apply IH; auto. apply Permutation_cons_inv in P. exact P.
Qed.

Lemma sorted_map_snd : forall (l : list (Z * Z)), StronglySorted (fun p q => snd p <= snd q) l <-> StronglySorted Z.le (map snd l).
Proof.
  intros l. induction l as [|p l IH]; cbn [map]; [split; constructor|]. split; intros H; inversion H as [|? ? H1 H2]; subst; constructor; try (apply IH; assumption).
  - apply Forall_map. exact H2.
  - apply (proj1 (Forall_map _ _ _)) in H2. exact H2.
Qed.

(** A list ordered by its tables is not moved. *)
Lemma ordered_fixed : forall l lo, StronglySorted (fun p q : Z * Z => snd p <= snd q) l -> ordered_by_table l lo -> lo = l.
Proof.
  intros l lo S1 (P & S2 & F).
  assert (X : forall l l' : list (Z * Z), StronglySorted (fun p q => snd p <= snd q) l -> map snd l = map snd l' -> (forall t, at_table t l = at_table t l') -> l = l').
  { clear. induction l as [|p l IH]; intros l' S1 E F; destruct l' as [|q l']; cbn in E; try discriminate; [reflexivity|]. injection E as E1 E2.
    assert (Y := F (snd p)). unfold at_table in Y. cbn [filter] in Y. rewrite <- E1, Z.eqb_refl in Y. injection Y as -> Y. f_equal. inversion S1; subst.
    apply IH; auto. intros t. assert (Y2 := F t). unfold at_table in *. cbn [filter] in Y2. destruct (snd q =? t); congruence. }
  apply X; auto. apply sorted_same_seq; [apply sorted_map_snd; exact S2|apply sorted_map_snd; exact S1|apply Permutation_map; exact P].
Qed.

Lemma F2_pairs : forall {A B} (P : A -> B -> Prop) l l', Forall2 P l l' -> List.length l = List.length l'.
Proof. intros A B P l l' F. induction F; cbn; congruence. Qed.

Lemma names_once : forall m t u obs, names_cluster m t obs -> names_cluster m u obs -> t = u.
Proof. unfold names_cluster. intros m t u obs A B. apply qz_inj. unfold vz in *. congruence. Qed.

(** ** VentureScript *)

Lemma crp_vs_eq : forall m l, grown m -> sheet m -> consistent m -> recorded_rows m l ->
  get_view_observes_crp_vs m = Ok (map (fun p => (fst p, number (zsort (dedup (map snd l))) (snd p))) l).
Proof.
  intros m l GR Sh K (dv & ED & DD). assert (W := grown_wf _ GR). destruct (sheet_inv m Sh) as (s & bs & cs & r2i & r2c & -> & _).
  destruct (view_parts _ _ _ _ _ W) as (D & _). cbn [divider mkview] in ED. injection ED as <-. change (dist_data (DCrp s) = as_data l) in DD.
  assert (EK : keys (dist_data (DCrp s)) = map fst l) by (rewrite DD; unfold keys, as_data; rewrite map_map; reflexivity).
  assert (NDl : NoDup (map fst l)) by (rewrite <- EK; apply dinv_keys; exact D).
  unfold get_view_observes_crp_vs, mkview. change (get_rowids _) with (Ok (keys (dist_data (DCrp s)))). cbn [obind].
  rewrite (divider_stmts s l DD NDl), EK. destruct l as [|p l]; [reflexivity|]. rewrite reindex_ok by discriminate.
  set (f := number _). cbn [obind].
  set (l0 := p :: l). change (match map fst l0 with [] => Ok [] | _ :: _ => ?a end) with a. clearbody l0 f. clear. unfold stmts. rewrite map_map.
  assert (X : forall l0 : list (Z * Z), oseq (map (fun p : Z * dict Z Z => match values (snd p) with v :: _ => Ok (fst p, v) | [] => Err IndexError end)
     (combine (map fst l0) (map (fun x : Z => [(crp_o s, x)]) (map f (map snd l0))))) = Ok (map (fun p => (fst p, f (snd p))) l0)).
  { clear l0. induction l0 as [|q l0 IH]; [reflexivity|]. cbn [map combine oseq]. rewrite IH. reflexivity. }
  rewrite <- (X l0). rewrite !map_map. reflexivity.
Qed.

Lemma crp_vs_ok : forall m l, grown m -> sheet m -> consistent m -> recorded_rows m l ->
  exists f, renumbering f (map snd l) /\ (forall t u, In t (map snd l) -> In u (map snd l) -> t < u -> f t < f u) /\
    get_view_observes_crp_vs m = Ok (map (fun p => (fst p, f (snd p))) l).
Proof.
  intros m l GR Sh K RR. destruct (reindex_renumbering (map snd l)) as [RN INC]. exists (number (zsort (dedup (map snd l)))).
  split; [exact RN|]. split; [exact INC|]. now apply crp_vs_eq.
Qed.

(** Every cell is there once, each under the name of the last row. *)
Lemma data_vs_ok : forall m l r, grown m -> sheet m -> consistent m -> recorded_rows m (l ++ [r]) -> no_empty_rows m ->
  exists d, get_view_observes_data_vs m = Ok d /\ (forall e, In e d -> fst (fst e) = fst r) /\
    forall c x, In (fst r, c, x) d <-> exists p, In p (l ++ [r]) /\ cell m (fst p) c = Some x.
Proof.
  intros m l r GR Sh K (dv & ED & DD) NR. assert (W := grown_wf _ GR). destruct (sheet_inv m Sh) as (s & bs & cs & r2i & r2c & -> & NB & B & C).
  assert (SH : shaped bs cs) by (split; auto). assert (KW := proj1 (consistent_parts _ _ _ _ _ SH) K).
  assert (KW0 := KW). destruct KW0 as (N1 & N2 & A3 & A4 & A5 & A6).
  cbn [divider mkview] in ED. injection ED as <-. change (dist_data (DCrp s) = as_data (l ++ [r])) in DD.
  assert (EK : keys (dist_data (DCrp s)) = map fst (l ++ [r])) by (rewrite DD; unfold keys, as_data; rewrite map_map; reflexivity).
  set (comp := fun r => match lookup r r2c with Some k => flat_map (got r) (cols bs cs k) | None => [] end).
  assert (CO : forall r0, In r0 (map fst (l ++ [r])) -> get_components_observes (CFlexArr (crp_o s) (CProd (map CDist bs)) cs r2i) r0 = Ok (comp r0) /\
     NoDup (keys (comp r0)) /\ forall c, lookup c (comp r0) = cell (mkview s bs cs r2i r2c) r0 c).
  { intros r0 Hr. rewrite <- EK in Hr. destruct (lookup r0 r2c) as [k|] eqn:Lk.
    2:{ exfalso. assert (X := A3 r0). rewrite Lk in X. apply lookup_None in X. contradiction. }
    unfold comp. rewrite Lk. assert (CG := cols_good s bs cs r2i r2c W B C k). destruct CG as (_ & CN & CO).
    split; [apply (components_got s bs cs r2i r2c); auto; apply NR; cbn [seat mkview]; congruence|].
    split; [apply got_keys; exact CN|].
    intros c. rewrite (got_lookup r0 _ CN). rewrite cell_parts by exact SH. rewrite Lk. reflexivity. }
  exists (flat_map (fun obs : row => map (fun e : Z * val => (fst r, fst e, snd e)) obs) (map comp (map fst (l ++ [r])))).
  split; [|split].
  - unfold get_view_observes_data_vs, mkview. change (get_rowids _) with (Ok (keys (dist_data (DCrp s)))). cbn [obind]. rewrite EK.
    rewrite (oseq_map_ok _ comp) by (intros r0 Hr; apply CO; exact Hr). cbn [obind].
    assert (Y : forall d, last (map fst (l ++ [r])) d = fst r) by (intros d; rewrite map_app; apply last_last).
    destruct (map fst (l ++ [r])) as [|r0 l0] eqn:EL; [rewrite map_app in EL; destruct (map fst l); discriminate|]. rewrite Y. reflexivity.
  - intros e He. apply in_flat_map in He. destruct He as (obs & _ & He). apply in_map_iff in He. destruct He as (e' & <- & _). reflexivity.
  - intros c x. rewrite in_flat_map. split.
    + intros (obs & Ho & He). apply in_map_iff in Ho. destruct Ho as (r0 & <- & Hr). apply in_map_iff in He. destruct He as ([c' x'] & E & He). cbn in E. injection E as -> ->.
      assert (CR := CO r0 Hr). apply in_map_iff in Hr. destruct Hr as (p & <- & Hp). exists p. split; [exact Hp|].
      rewrite <- (proj2 (proj2 CR)). apply In_lookup; [apply CR|exact He].
    + intros (p & Hp & CX). assert (Hr : In (fst p) (map fst (l ++ [r]))) by (now apply in_map). assert (CR := CO _ Hr). exists (comp (fst p)). split; [now apply in_map|].
      apply in_map_iff. exists (c, x). split; [reflexivity|]. apply lookup_In. rewrite (proj2 (proj2 CR)). exact CX.
Qed.

(** ** Import of a state *)

Lemma import_views : forall order vs, lists order -> (forall v, In v vs -> convertible v) ->
  exists X, convert_views order vs = Ret (Ok X) /\ Forall2 imported vs X.
Proof.
  intros order vs LO. induction vs as [|v vs IH]; intros H; [exists []; split; [reflexivity|constructor]|].
  destruct IH as (X & E & F); [intros; apply H; now right|]. destruct (import_view order v LO (H v (or_introl eq_refl))) as (m & Em & IM).
  exists (m :: X). split; [|constructor; assumption]. cbn [convert_views]. rewrite Em. unfold sobind. cbn [sbind]. rewrite E. reflexivity.
Qed.

Lemma imported_outputs : forall v m, imported v m -> outputs m = dim_output (cv_crp v) :: map dim_output (cv_dims v).
Proof.
  intros v m ((GR & Sh & K) & EL & EC & _). rewrite <- EL, <- EC. apply sheet_outputs. exact Sh.
Qed.

Lemma import_state : forall order vs, lists order -> (forall v, In v vs -> convertible v) ->
  NoDup (flat_map (fun v => dim_output (cv_crp v) :: map dim_output (cv_dims v)) vs) ->
  exists X, convert_cgpm_state_to_cgpm2 order vs = Ret (Ok (CProd X)) /\ crosscat X /\ Forall2 imported vs X.
Proof.
  intros order vs LO H ND. destruct (import_views order vs LO H) as (X & E & F). exists X.
  assert (G : forall m, In m X -> grown m /\ sheet m /\ consistent m).
  { intros m Hm. destruct (F2_in_r _ _ _ F m Hm) as (v & _ & IM). apply IM. }
  assert (O : flat_map outputs X = flat_map (fun v => dim_output (cv_crp v) :: map dim_output (cv_dims v)) vs).
  { clear - F. induction F as [|v m vs X IM F IH]; [reflexivity|]. cbn [flat_map]. rewrite (imported_outputs v m IM), IH. reflexivity. }
  assert (CC : crosscat X) by (split; [exact G|rewrite O; exact ND]).
  split; [|split; [exact CC|exact F]]. unfold convert_cgpm_state_to_cgpm2. rewrite E. unfold sobind. cbn [sbind].
  rewrite product_again; [|intros c Hc; apply grown_wf; apply G; exact Hc|rewrite O; exact ND].
  rewrite MetaThm.flatten_flat; [reflexivity|]. intros c Hc. destruct (sheet_inv c (proj1 (proj2 (G c Hc)))) as (s & bs & cs & r2i & r2c & -> & _). reflexivity.
Qed.

(** ** Replaying the statements *)

Lemma replay_list : forall (Q : Z * row -> Z * Z -> Prop) f d l, Forall2 Q d l -> map fst d = map fst l ->
  exists L : list (Z * Z * row), map (fun e => (fst (fst e), snd e)) L = d /\ map (@fst (Z * Z) row) L = map (fun p => (fst p, f (snd p))) l /\
    forall r t obs, In (r, t, obs) L -> exists p, In p l /\ fst p = r /\ t = f (snd p) /\ Q (r, obs) p.
Proof.
  intros Q f d l F. induction F as [|[r obs] p d l H F IH]; intros E; [exists []; split; [reflexivity|split; [reflexivity|intros ? ? ? []]]|].
  cbn [map fst] in E. injection E as E1 E2. destruct (IH E2) as (L & L1 & L2 & L3). exists ((r, f (snd p), obs) :: L). split; [cbn [map fst snd]; f_equal; exact L1|].
  split; [cbn [map fst snd]; rewrite L2, E1; reflexivity|]. intros r' t obs' [X|X].
  - injection X as <- <- <-. exists p. repeat split; auto. now left.
  - destruct (L3 _ _ _ X) as (q & Hq & Y). exists q. split; [now right|exact Y].
Qed.

Lemma cell_typed : forall m r o x, good m -> cell m r o = Some x -> exists K, kind_at m o = Some K /\ in_domain K [] x.
Proof.
  intros m r o x G CX. assert (Ho : In o (columns_of m)) by (apply (holds_column m r o x); assumption).
  destruct (column_data m o G Ho) as (K & EK & NK & HD & _ & HC & _). exists K. split; [exact EK|].
  destruct (proj2 (HC r x) CX) as (d & Hd & Hx). destruct (HD d Hd) as (_ & D & KD). rewrite <- KD. apply (leaf_typed d r x D); [congruence|].
  apply In_lookup; [apply D|exact Hx].
Qed.

Lemma replay_set : forall m l v0, good m -> recorded_rows m l -> l <> [] -> no_empty_rows m -> StronglySorted (fun p q : Z * Z => snd p <= snd q) l ->
  new_view v0 -> label_of v0 = label_of m -> columns_of v0 = columns_of m -> (forall o, kind_at v0 o = kind_at m o) ->
  exists f d v, renumbering f (map snd l) /\ get_view_observes m = Ok d /\ observe_rows v0 d = Ret (v, Ok tt) /\ good v /\ same_columns v0 v /\
    (forall r, seat v r = option_map (fun t => vz (f t)) (lookup r l)) /\ (forall r o, cell v r o = cell m r o) /\
    (forall s0 bs0, v0 = new_flexmix (DCrp s0) (CProd (map CDist bs0)) -> set_like s0 bs0 v) /\
    forall r obs, In (r, obs) d -> obs <> [] /\ forall k, In k (keys obs) -> In k (label_of m :: columns_of m).
Proof.
  intros m l v0 G RR NE NR ST NV EL EC EKs. assert (G0 := G). destruct G0 as (GR & Sh & K).
  destruct (rendered m l GR Sh K RR NE NR) as (f & lo & d & RN & INC & ORD & EG & EF & F2).
  set (l' := map (fun p => (fst p, f (snd p))) l) in *.
  assert (ST' : StronglySorted (fun p q : Z * Z => snd p <= snd q) l').
  { apply sorted_map_snd. unfold l'. rewrite map_map. cbn [snd]. rewrite <- map_map. apply sorted_map_snd in ST. clear - ST INC.
    assert (X : forall ts, (forall t, In t ts -> In t (map snd l)) -> StronglySorted Z.le ts -> StronglySorted Z.le (map f ts)).
    { intros ts Ht S1. induction S1 as [|t ts S1 IH F]; [constructor|]. cbn [map]. constructor; [apply IH; intros; apply Ht; now right|].
      apply Forall_forall. intros y Hy. apply in_map_iff in Hy. destruct Hy as (u & <- & Hu). rewrite Forall_forall in F. assert (t <= u) by (apply F; exact Hu).
      destruct (Z.eq_dec t u) as [->|]; [lia|]. assert (f t < f u) by (apply INC; [apply Ht; now left|apply Ht; now right|lia]). lia. }
    apply X; auto. }
  assert (lo = l') as -> by (apply ordered_fixed; assumption).
  assert (F' : map fst l' = map fst l) by (unfold l'; rewrite map_map; reflexivity). rewrite F' in EF.
  destruct (replay_list _ f d l F2 EF) as (L & L1 & L2 & L3). fold l' in L2.
  assert (NDl : NoDup (map fst l)).
  { destruct RR as (dv & ED & DD). assert (W := grown_wf _ GR). destruct (sheet_inv m Sh) as (s & bs & cs & r2i & r2c & -> & _). destruct (view_parts _ _ _ _ _ W) as (D & _).
    cbn [divider mkview] in ED. injection ED as <-. apply dinv_keys in D. rewrite DD in D. unfold keys in D. rewrite map_map in D. exact D. }
  assert (WO : well_ordered l').
  { apply (ordered_well l' l' f (map snd l)); [exact ORD|rewrite F'; exact NDl|unfold l'; rewrite !map_map; reflexivity|exact RN]. }
  destruct (new_view_good _ NV) as (RE & Sh0 & K0 & RC).
  assert (Gv : good v0) by (split; [apply creachable_grown; exact RE|split; assumption]).
  assert (INP := NV). destruct INP as (s0 & bs0 & -> & _ & DE & _).
  destruct (rows_in s0 bs0 L [] _ Gv) as (v & E & Gm & SL & DV & SC & OS & CL).
  - exists s0, [], [], []. split; [reflexivity|]. split; [reflexivity|]. intros k c [].
  - exists (DCrp s0). split; [reflexivity|exact DE].
  - cbn [app]. rewrite L2. exact WO.
  - intros r t obs H. destruct (L3 _ _ _ H) as (p & Hp & E1 & -> & ND & NC & CR). cbn [fst snd] in *. split; [exact ND|]. split; [rewrite EL; exact NC|].
    intros o x Ho Lx. rewrite EKs. apply (cell_typed m r o x G). rewrite <- CR; [exact Lx|]. rewrite EC in Ho.
    intros ->. assert (X := label_outside m (good_wf m G) Sh). contradiction.
  - cbn [app] in DV. rewrite L2 in DV. exists f, d, v. split; [exact RN|]. split; [exact EG|]. rewrite L1 in E. split; [exact E|]. split; [exact Gm|]. split; [exact SC|].
    destruct DV as (dv & EDv & DDv). split.
    + intros r. rewrite (seat_divider v dv r (proj2 (proj2 Gm)) EDv), DDv. unfold l', as_data. clear. induction l as [|[r0 t0] l IH]; [reflexivity|].
      cbn [map lookup fst snd]. destruct (eq_dec r r0); [reflexivity|exact IH].
    + split; [|split].
      { intros r o. destruct (in_dec Z.eq_dec r (map fst l)) as [Hr|Hr].
      * destruct (in_dec Z.eq_dec o (columns_of m)) as [Ho|Ho].
        -- rewrite <- F' in Hr. rewrite <- L2 in Hr. apply in_map_iff in Hr. destruct Hr as ((r' & t) & Er & Hr). cbn in Er. subst r'. apply in_map_iff in Hr. destruct Hr as ((rt & obs) & Er & Hr). cbn in Er. subst rt.
           rewrite (CL r t obs Hr o) by (rewrite EC; exact Ho). destruct (L3 _ _ _ Hr) as (p & _ & _ & _ & _ & _ & CR). apply CR.
           intros ->. assert (X := label_outside m (good_wf m G) Sh). contradiction.
        -- transitivity (@None val); [|symmetry].
           ++ destruct (cell v r o) as [x|] eqn:CX; [|reflexivity]. exfalso. apply Ho. rewrite <- EC, <- (proj1 (proj2 SC)). apply (holds_column v r o x); assumption.
           ++ destruct (cell m r o) as [x|] eqn:CX; [|reflexivity]. exfalso. apply Ho. apply (holds_column m r o x); assumption.
      * rewrite OS by (rewrite L2, F'; exact Hr). transitivity (@None val); [reflexivity|]. symmetry.
        destruct (cell m r o) as [x|] eqn:CX; [|reflexivity]. exfalso. apply Hr.
        destruct RR as (dv' & ED' & DD'). assert (X := seat_divider m dv' r K ED'). destruct m as [| | | |fl dvv arr r2c]; try discriminate. cbn [cell seat] in *.
        destruct (lookup r r2c) as [k|]; [|discriminate]. rewrite DD' in X. symmetry in X. apply lookup_In in X. apply (in_map fst) in X. rewrite map_map in X. exact X. }
      { intros s1 bs1 E1. unfold new_flexmix in E1. injection E1 as E1 _ E3. subst s1. enough (bs1 = bs0) as -> by exact SL.
        clear - E3. revert bs1 E3. induction bs0 as [|b bs0 IH]; intros [|b1 bs1] E3; cbn in E3; try discriminate; [reflexivity|].
        injection E3 as -> E3. f_equal. now apply IH. }
      { intros r obs Hd. destruct (F2_in_l _ _ _ F2 _ Hd) as (p & _ & _ & NC & CR). cbn [fst snd] in NC, CR.
        split; [intros ->; discriminate NC|]. intros k Hk. destruct (Z.eq_dec k (label_of m)) as [->|NL]; [now left|right].
        destruct (lookup k obs) as [x|] eqn:LX; [|apply lookup_None in LX; contradiction].
        rewrite (CR k NL) in LX. apply (holds_column m r k x G LX). }
Qed.

Lemma replay : forall m l v0, good m -> recorded_rows m l -> l <> [] -> no_empty_rows m -> StronglySorted (fun p q : Z * Z => snd p <= snd q) l ->
  new_view v0 -> label_of v0 = label_of m -> columns_of v0 = columns_of m -> (forall o, kind_at v0 o = kind_at m o) ->
  exists f d v, renumbering f (map snd l) /\ get_view_observes m = Ok d /\ observe_rows v0 d = Ret (v, Ok tt) /\ good v /\ same_columns v0 v /\
    (forall r, seat v r = option_map (fun t => vz (f t)) (lookup r l)) /\ forall r o, cell v r o = cell m r o.
Proof.
  intros m l v0 G RR NE NR ST NV EL EC EK. destruct (replay_set m l v0 G RR NE NR ST NV EL EC EK) as (f & d & v & A1 & A2 & A3 & A4 & A5 & A6 & A7 & _).
  exists f, d, v. auto 10.
Qed.
