(** Summing or integrating a column out of a model. *)
From Coq Require Import List ZArith QArith Qcanon Reals Bool Lia Lra.
From Coquelicot Require Import Coquelicot.
From Verif Require Import Base Xr Samp Lgamma Prims Cgpm Lib SpecPrims PrimsInv PrimsDens CompInv SpecComp CompDens CompThm SpecDensity.
Import ListNotations.
Local Open Scope R_scope.

(** What an index selects in an array, whatever the other cells. *)
Lemma arr_at : forall ix arr x, is_array ix arr -> exists oc, (forall c, oc = Some c -> In c (components arr)) /\
  forall S, lookup ix S = Some x -> dens arr S = match oc with Some c => dens c S | None => 0 end.
Proof.
  intros ix arr x A. destruct arr as [| |i cs m|i b cs m|]; try contradiction; cbn in A; subst i.
  - destruct x as [|q]; [exists None; split; [discriminate|]; intros S L; cbn [dens]; rewrite L; reflexivity|].
    destruct (is_int q && (0 <=? trunc q)%Z)%bool eqn:E.
    + exists (nth_error cs (Z.to_nat (trunc q))). split; [intros c N; apply nth_error_In in N; exact N|]. intros S L. cbn [dens]. rewrite L, E. apply nth_map_error.
    + exists None. split; [discriminate|]. intros S L. cbn [dens]. rewrite L, E. reflexivity.
  - exists (Some (match lookup x cs with Some c => c | None => b end)). split.
    + intros c [= <-]. destruct (lookup x cs) eqn:L; [right|now left]. apply lookup_In in L. apply (in_map snd) in L. exact L.
    + intros S L. cbn [dens]. rewrite L, lookup_dict_map. destruct (lookup x cs); reflexivity.
Qed.

Lemma nodup_app_not : forall {A} (l l' : list A), NoDup (l ++ l') -> forall x, In x l -> ~ In x l'.
Proof.
  induction l as [|y l IH]; intros l' N x X; [destruct X|]. inversion N as [|? ? NI N']; subst. destruct X as [->|X]; [intros Y; apply NI; apply in_or_app; now right|apply IH; assumption].
Qed.

Lemma modelled_comp : forall o P arr, modelled o P arr -> forall c, In c (components arr) -> modelled o P c.
Proof.
  intros o P arr U c Hc. destruct arr as [| |i cs m|i b cs m|]; try contradiction; cbn [modelled components] in U, Hc.
  - rewrite each_In in U. auto.
  - destruct U as [Ub U]. destruct Hc as [<-|Hc]; [auto|]. rewrite each_In in U.
    unfold values in Hc. apply in_map_iff in Hc. destruct Hc as ([k c'] & <- & Hk). apply (U (k, c')). exact Hk.
Qed.

Section Averages.
  Variables (M : (Qc -> R) -> R -> Prop) (o : Z) (P : dist -> Prop).
  Hypothesis M_ext : forall f g v, (forall q, f q = g q) -> M f v -> M g v.
  Hypothesis M_scal : forall k f v, 0 <= k -> M f v -> M (fun q => k * f q) (k * v).
  Hypothesis M_plus : forall f g v w, M f v -> M g w -> M (fun q => f q + g q) (v + w).
  Hypothesis M_zero : M (fun _ => 0) 0.
  Hypothesis M_leaf : forall d, dinv d -> P d -> M (prim_density d) 1.

  Lemma M_sum : forall (l : list Z) (f : Z -> Qc -> R) (v : Z -> R), (forall z, In z l -> M (f z) (v z)) ->
    M (fun q => rsum (map (fun z => f z q) l)) (rsum (map v l)).
  Proof.
    induction l as [|z l IH]; intros f v X; [exact M_zero|].
    apply (M_plus (f z) (fun q => rsum (map (fun z => f z q) l)) (v z) (rsum (map v l))); [apply X; now left|apply IH; intros; apply X; now right].
  Qed.

  Lemma marginal : forall c, wf c -> forall S, modelled o P c -> In o (outputs c) -> lookup o S = None ->
    M (fun q => dens c ((o, VQ q) :: S)) (dens c S).
  Proof.
    assert (MIX : forall flex div arr r2c, wf (CMix flex div arr r2c) ->
      (forall c, In c (components arr) -> forall S, modelled o P c -> In o (outputs c) -> lookup o S = None -> M (fun q => dens c ((o, VQ q) :: S)) (dens c S)) ->
      forall S, modelled o P (CMix flex div arr r2c) -> In o (outputs (CMix flex div arr r2c)) -> lookup o S = None ->
      M (fun q => dens (CMix flex div arr r2c) ((o, VQ q) :: S)) (dens (CMix flex div arr r2c) S)).
    { intros flex div arr r2c W IH S [NO MO] HO LO. destruct (wf_mix _ _ _ _ W) as (D & (K & SU) & A & NI & CO & CE & _).
      assert (HO' : In o (outputs arr)) by (destruct HO as [X|X]; [contradiction|exact X]).
      assert (ARR : forall x S', lookup (dist_o div) S' = Some x -> lookup o S' = None -> M (fun q => dens arr ((o, VQ q) :: S')) (dens arr S')).
      { intros x S' L L'. destruct (arr_at _ arr x A) as (oc & IC & E). rewrite (E S' L).
        apply (M_ext (fun q => match oc with Some c => dens c ((o, VQ q) :: S') | None => 0 end)).
        - intros q. symmetry. apply E. rewrite lookup_cons_neq by exact NO. exact L.
        - destruct oc as [c|]; [|exact M_zero]. specialize (IC c eq_refl). destruct (CO c IC) as [_ Oc].
          apply IH; [exact IC|apply (modelled_comp _ _ arr MO c IC)|rewrite Oc; exact HO'|exact L']. }
      cbn [dens]. destruct (lookup (dist_o div) S) as [x|] eqn:L.
      - apply (M_ext (fun q => cell_density div x * dens arr ((o, VQ q) :: S))).
        + intros q. rewrite lookup_cons_neq by exact NO. rewrite L. reflexivity.
        + apply M_scal; [apply cell_nonneg; exact D|]. apply (ARR x); assumption.
      - rewrite SU. apply (M_ext (fun q => rsum (map (fun z => cell_density div (vz z) * dens arr ((o, VQ q) :: (dist_o div, vz z) :: S)) K))).
        + intros q. rewrite lookup_cons_neq by exact NO. rewrite L. apply rsum_ext. intros z _. f_equal.
          destruct (arr_at _ arr (vz z) A) as (oc & IC & E). rewrite !E; [|apply lookup_cons_eq|rewrite lookup_cons_neq by exact NO; apply lookup_cons_eq].
          destruct oc as [c|]; [|reflexivity]. apply dens_ext; [apply (CO c (IC c eq_refl))|]. intros k _. cbn [lookup].
          destruct (eq_dec k o) as [->|N1]; destruct (eq_dec _ (dist_o div)) as [E2|N2]; try reflexivity. exfalso. apply NO. symmetry. exact E2.
        + apply M_sum. intros z _. apply M_scal; [apply cell_nonneg; exact D|]. apply (ARR (vz z)); [apply lookup_cons_eq|]. rewrite lookup_cons_neq by (intros X; apply NO; symmetry; exact X). exact LO. }
    induction 1 as [d D|cs Wc IH ND|div cs r2i r2c D F SU NE Wc IH O|div b cs r2i r2c D HS Wb IHb NI ND Wc IH O]; intros S MO HO LO.
    - destruct HO as [E|[]]. cbn [dens]. rewrite E, LO. apply (M_ext (prim_density d)); [|apply M_leaf; [exact D|apply MO; exact E]].
      intros q. rewrite lookup_cons_eq. reflexivity.
    - cbn [dens outputs modelled] in *. rewrite each_In in MO. clear - M_ext M_scal Wc IH ND MO HO LO.
      induction cs as [|c cs IHcs]; [destruct HO|]. cbn [flat_map] in HO, ND. apply in_app_or in HO.
      assert (OUT : forall c', wf c' -> ~ In o (outputs c') -> forall q, dens c' ((o, VQ q) :: S) = dens c' S).
      { intros c' W' N q. apply dens_ext; [exact W'|]. intros k Hk. apply lookup_cons_neq. intros ->. contradiction. }
      assert (PN : forall l, (forall c', In c' l -> wf c') -> 0 <= rprod (map (fun c' => dens c' S) l)).
      { intros l Wl. apply rprod_nonneg. intros p Hp. apply in_map_iff in Hp. destruct Hp as (c' & <- & Hc). apply dens_nonneg. auto. }
      destruct HO as [HO|HO].
      + apply (M_ext (fun q => rprod (map (fun c' => dens c' S) cs) * dens c ((o, VQ q) :: S))).
        * intros q. cbn [map]. change (rprod (?a :: ?l)) with (a * rprod l). rewrite Rmult_comm. f_equal. f_equal. apply map_ext_in. intros c' Hc'. symmetry. apply OUT; [apply Wc; now right|].
          intros X. assert (NX := nodup_app_not _ _ ND). apply (NX o HO). apply in_flat_map. exists c'. auto.
        * change (rprod (map (fun c' => dens c' S) (c :: cs))) with (dens c S * rprod (map (fun c' => dens c' S) cs)). rewrite Rmult_comm. apply M_scal; [apply PN; intros; apply Wc; now right|].
          apply IH; [now left|apply MO; now left|exact HO|exact LO].
      + assert (NX := nodup_app_not _ _ ND). apply (M_ext (fun q => dens c S * rprod (map (fun c' => dens c' ((o, VQ q) :: S)) cs))).
        * intros q. cbn [map]. change (rprod (?a :: ?l)) with (a * rprod l). f_equal. symmetry. apply OUT; [apply Wc; now left|]. intros X. exact (NX o X HO).
        * change (rprod (map (fun c' => dens c' S) (c :: cs))) with (dens c S * rprod (map (fun c' => dens c' S) cs)). apply M_scal; [apply dens_nonneg; apply Wc; now left|].
          apply IHcs; [intros; apply Wc; now right|intros; apply IH; [now right| | |]; assumption|apply NoDup_app_parts in ND; apply ND|intros; apply MO; now right|exact HO].
    - apply MIX; auto. constructor; auto.
    - apply MIX; auto; [constructor; auto|]. intros c [<-|Hc]; [exact IHb|]. apply in_map_iff in Hc. destruct Hc as ([k c'] & <- & Hk). cbn. eauto.
  Qed.
End Averages.

(** ** Questions *)

Lemma labelled_more : forall c o P S q, modelled o P c -> (forall d, P d -> forall s, d <> DCrp s) -> labelled c S -> labelled c ((o, VQ q) :: S).
Proof.
  intros c o P S q MO NC LB. revert MO LB. induction c as [d|cs IH|ix cs m IH|ix b cs m IHb IH|fl d arr m IH] using cgpm_ind_In; cbn [modelled labelled]; intros MO LB.
  - destruct d; try exact LB. cbn [dist_o] in MO. cbn [lookup]. destruct (eq_dec (crp_o s) o) as [E|N]; [discriminate|exact LB].
  - rewrite each_In in *. intros c Hc. apply IH; auto.
  - rewrite each_In in *. intros c Hc. apply IH; auto.
  - rewrite each_In in *. destruct MO as [MB MO]. destruct LB as [LB LO]. split; [apply IHb; assumption|]. intros [k c] Hk. apply (IH k c Hk); [apply (MO (k, c) Hk)|apply (LO (k, c) Hk)].
  - destruct MO as [NO MO]. destruct LB as [LB LO]. split; [|apply IH; assumption]. intros x L. rewrite lookup_cons_neq in L by exact NO. apply LB. exact L.
Qed.
