(** C69: the score of a Chain of models and regressions. *)
From Coq Require Import List ZArith QArith Qcanon Reals Bool String Permutation Lia Lra.
From Verif Require PropPrims.
From Verif Require Import Base Xr Samp Prims Cgpm Lib SpecPrims PrimsInv PrimsDens SpecComp CompInv CompDens CompThm SpecWalks WalksThm Book SpecBook
  Chain SpecChain ChainThm Regress SpecRegress PropRegress RegressMeta SpecReload PropReload SpecNetScore NetScoreThm.
Import ListNotations.
Local Open Scope Z_scope.

(** Observing a new row adds to the score exactly the log density that logpdf answered for it,
    when the row tells every child it touches all its inputs. *)
Theorem C69_observe_adds_logpdf : forall nw rid obs inp s l ms', (forall m, In m (nw_parts nw) -> scorable m) -> fits (nw_parts nw) rid obs inp ->
  network_score nw = Ok (Fin s) -> network_logpdf nw (Some rid) obs [] inp = Ret (Ok (Fin l)) ->
  possible (network_observe (nw_parts nw) rid obs inp) (fun r => r = (ms', Ok tt)) ->
  network_score (mkNetwork ms' (nw_accuracy nw)) = Ok (Fin (s + l)).
Proof. intros nw rid obs inp s l ms' SC FI S L P. exact (proj2 (network_gains nw rid obs inp l ms' SC FI L P) s (nw_accuracy nw) S). Qed.
Print Assumptions C69_observe_adds_logpdf.

(** Through any history of such rows; without data the score is 0. *)
Theorem C69_chain_rule : forall nw t nw' s, (forall m, In m (nw_parts nw) -> scorable m) -> gathered nw t nw' ->
  network_score nw = Ok (Fin s) ->
  network_score nw' = Ok (Fin (s + t)) /\ ((forall m, In m (nw_parts nw) -> blank m) -> s = 0%R).
Proof.
  intros nw t nw' s SC G S. split; [exact (proj2 (network_rows nw t nw' SC G) s S)|].
  intros B. apply (blank_score (nw_parts nw)); [intros m Hm; split; [apply SC|apply B]; exact Hm|exact S].
Qed.
Print Assumptions C69_chain_rule.

(** A Chain with a forest in it cannot be scored, whatever it has observed. *)
Theorem C69_forest_refuted : forall fit nw f, sound_network fit nw -> In (PForest f) (nw_parts nw) ->
  (forall x, network_score nw <> Ok x) /\
  ((forall m, In m (nw_parts nw) -> (exists f', m = PForest f') \/ exists x, part_score m = Ok x) -> network_score nw = Err TypeError).
Proof.
  intros fit nw f _ H. unfold network_score. induction (nw_parts nw) as [|m ms IH]; [destruct H|]. cbn [map oseq].
  destruct H as [->|H].
  - cbn [part_score]. split; [intros x E; discriminate|reflexivity].
  - destruct (IH H) as [A B]. split.
    + intros x. destruct (part_score m) as [y|e]; [|discriminate]. specialize (A x). destruct (oseq (map part_score ms)) as [l|e] eqn:E; [|discriminate].
      exfalso. destruct (IH H) as [A' _]. apply (A' (xsum l)). reflexivity.
    + intros K. destruct (K m (or_introl eq_refl)) as [(f' & ->)|(x & ->)]; [reflexivity|].
      specialize (B (fun m' Hm => K m' (or_intror Hm))). destruct (oseq (map part_score ms)) as [l|e]; cbn [omap] in *; [discriminate|]. exact B.
Qed.
Print Assumptions C69_forest_refuted.

(** ** Worked cases *)

(** A category of four values, and a regression on it. *)
Definition pair : list part := [PModel (CDist (DCat (cat_new 1 4 1))); PLinreg line].

Definition both : row := [(1, vz 1); (0, vz 1)].

Lemma pair_scorable : forall m, In m pair -> scorable m /\ blank m.
Proof.
  intros m [<-|[<-|[]]]; cbn [scorable blank].
  - split; [|reflexivity]. split; [|split; exact Logic.I]. apply gr_prim. exists (DCat (cat_new 1 4 1)), []. split; [apply fresh_cat; [lia|exact PropPrims.one_pos]|reflexivity].
  - assert (F : fresh_linreg line) by (exists [0], [1], [None], None, None, None, None; reflexivity). split; [exists line; split; [exact F|constructor]|exact F].
Qed.

Lemma pair_fits : fits pair 7 both [].
Proof.
  split; [|split; [|split]].
  - intros m [<-|[<-|[]]]; [|exact Logic.I]. split; [exact (fun x => x)||exact Logic.I||reflexivity|]. cbv zeta. intros _. split; exact Logic.I.
  - unfold disjoint_rows, both. cbn. repeat constructor; cbn; intuition discriminate.
  - intros i [].
  - intros n [<-|[<-|[]]] _ i Hi; cbn in Hi; [destruct Hi|]. destruct Hi as [<-|[]]. now left.
Qed.

Lemma category_fresh : fresh (DCat (cat_new 1 4 1)).
Proof. apply fresh_cat; [lia|exact PropPrims.one_pos]. Qed.

Lemma category_weight : exists l, logpdf (CDist (DCat (cat_new 1 4 1))) (Some 7) [(1, vz 1)] [] [] = Ok (Fin l).
Proof.
  assert (X := cat_pred_fin (cat_new 1 4 1) 1 (fresh_dinv _ category_fresh) ltac:(cbn; lia)). eexists. exact X.
Qed.

Lemma line_weight : linreg_score line = Ok (Fin 0) /\ exists l, linreg_logpdf line (Some 7) [(0, vz 1)] [] [(1, vz 1)] = Ok (Fin l).
Proof.
  destruct C57_chain_case as (_ & _ & S & g & l & _ & P). split; [exact S|]. exists l. cbn [predictions] in P.
  destruct (linreg_logpdf line (Some 7) [(0, vz 1)] [] [(1, vz 1)]) as [[x| | |]|e]; try discriminate.
  injection P as ->. reflexivity.
Qed.

Lemma category_score : score (CDist (DCat (cat_new 1 4 1))) = Ok (Fin 0).
Proof.
  assert (G : grown (CDist (DCat (cat_new 1 4 1)))) by (apply gr_prim; exists (DCat (cat_new 1 4 1)), []; split; [exact category_fresh|reflexivity]).
  rewrite (score_total _ (grown_wf _ G) Logic.I). do 2 f_equal. apply total_vacant; [apply grown_wf; exact G|reflexivity].
Qed.

(** One row of both columns, then the score is the log density of the row. *)
Example C69_case : exists nw l ms', new_network pair None = Ok nw /\ (forall m, In m (nw_parts nw) -> scorable m /\ blank m) /\
  fits (nw_parts nw) 7 both [] /\ network_score nw = Ok (Fin 0) /\ network_logpdf nw (Some 7) both [] [] = Ret (Ok (Fin l)) /\
  possible (network_observe (nw_parts nw) 7 both []) (fun r => r = (ms', Ok tt)) /\ gathered nw (0 + l) (mkNetwork ms' (nw_accuracy nw)) /\ ms' <> pair.
Proof.
  destruct category_weight as (a & A). destruct line_weight as (S & b & B).
  assert (NN : new_network pair None = Ok (mkNetwork pair 1)) by reflexivity.
  exists (mkNetwork pair 1), (a + (b + 0))%R. eexists. split; [exact NN|]. split; [exact pair_scorable|]. split; [exact pair_fits|].
  assert (L : network_logpdf (mkNetwork pair 1) (Some 7) both [] [] = Ret (Ok (Fin (a + (b + 0))))).
  { unfold network_logpdf. cbn [nw_parts nw_accuracy]. destruct (new_chain (map part_node pair) (Some 1%nat)) as [ch|e] eqn:CH; [|discriminate].
    destruct pair_fits as (_ & DJ & EX & DT).
    rewrite (logpdf_given _ _ ch (Some 7) both [] [] [Fin a; Fin b] [Fin 0; Fin 0] CH); rewrite ?app_nil_r; auto.
    - intros n Hn C. exfalso. apply C. reflexivity.
    - constructor; [exact A|]. constructor; [exact B|constructor].
    - repeat constructor. }
  assert (P : possible (network_observe pair 7 both []) (fun r => r = (map PModel [CDist (DCat (mkCat 1 4 [(7, vz 1)] 1 [0; 1; 0; 0] 1))] ++ [PLinreg (fst (linreg_observe line 7 [(0, vz 1)] [(1, vz 1)]))], Ok tt))) by reflexivity.
  split; [unfold network_score; cbn [nw_parts pair map part_score oseq]; rewrite category_score, S; cbn; do 2 f_equal; lra|].
  split; [exact L|]. split; [exact P|]. split; [|discriminate].
  apply (gathered_row (mkNetwork pair 1) 0 (mkNetwork pair 1) 7 both []); [constructor|exact pair_fits|exact L|exact P].
Qed.

(** A forest next to a category. *)
Example C69_forest_case : exists nw, sound_network demo_fit nw /\ In (PForest demo_forest) (nw_parts nw) /\
  forall m, In m (nw_parts nw) -> (exists f', m = PForest f') \/ exists x, part_score m = Ok x.
Proof.
  exists (mkNetwork [PModel (CDist (DCat (cat_new 2 3 1))); PForest demo_forest] 1). split; [|split; [right; now left|]].
  - apply (network_new demo_fit [PModel (CDist (DCat (cat_new 2 3 1))); PForest demo_forest] None); [|reflexivity]. intros m [<-|[<-|[]]].
    + apply gr_prim. exists (DCat (cat_new 2 3 1)), []. split; [apply fresh_cat; [lia|exact PropPrims.one_pos]|reflexivity].
    + exists false. exact (proj1 (proj2 C58_case)).
  - intros m [<-|[<-|[]]]; [right|left; eexists; reflexivity].
    assert (G : grown (CDist (DCat (cat_new 2 3 1)))) by (apply gr_prim; exists (DCat (cat_new 2 3 1)), []; split; [apply fresh_cat; [lia|exact PropPrims.one_pos]|reflexivity]).
    eexists. exact (score_total _ (grown_wf _ G) Logic.I).
Qed.
