(** C71: the moves of GibbsCrossCat that are left to the external engine. *)
From Coq Require Import List ZArith QArith Qcanon Reals Bool String Permutation Lia Sorted.
From Verif Require Import Base Xr Samp Lgamma Prims Cgpm Lib SpecPrims PrimsInv SpecComp CompInv CompDens CompThm SimShape
  SpecTable SpecHist Table Gibbs Hist Walks SpecWalks WalksThm Trans Views ViewsThm ViewsThm2 ViewsThm3 ViewsThm4 ViewsThm5
  Hypers SpecHypers HypersThm Progress SpecProgress Crosscat HypersThm2 PropHypers PropPrims DemoComp PropComp PropTable PropViews PropCpp CrosscatThm CrosscatThm2 CrosscatThm3.
From Verif Require Import Meta MetaThm Cpp CppThm CppThm2 CppThm3 DependThm DependThm2 DependThm3 DemoDepend.
From Verif Require Import SpecViews SpecCrosscat SpecCpp Depend SpecDepend.
Import ListNotations.
Local Open Scope Z_scope.

(** The three moves: which kernels the engine is to run, on which rows and columns. *)
Definition row_kernels : list string :=
  ["row_partition_hyperparameters"; "column_hyperparameters"; "row_partition_hyperparameters"; "row_partition_assignments"]%string.
Definition view_kernels : list string := ["column_partition_assignments"; "column_partition_hyperparameter"]%string.

(** Each move is the call [move]; given are its kernels, rows and columns. *)
Inductive move : Type := Rows (rowids : option (list Z)) | Columns (outs : option (list Z)) | Structure (outs : option (list Z)).
Definition move_kernels (a : move) : option (list string) := match a with Rows _ => Some row_kernels | Columns _ => Some view_kernels | Structure _ => None end.
Definition move_rows (a : move) : option (list Z) := match a with Rows l => l | _ => None end.
Definition move_columns (a : move) : option (list Z) := match a with Rows _ => None | Columns l => l | Structure l => l end.
Definition make_move srt order scc engine (g : gibbs) (c : cgpm) (N : option Z) (S : option Qc) (a : move) : samp (out cgpm) :=
  match a with
  | Rows l => transition_row_assignments_cpp srt order scc engine g c N S l
  | Columns l => transition_view_assignments_cpp srt order scc engine g c N S l
  | Structure l => transition_structure_cpp srt order scc engine g c N S l
  end.

(** If the engine answers properly, a move returns a model with the same table, whose views
    and clusters are those of an answer of the engine to a request of this model, and which
    obeys the constraints; it does return if the labels drawn for new views are new (the first
    draw is the seed) and the sampler has grids for the columns and the row dividers. *)
Theorem C71_moves : forall srt order scc engine g X N S a rows, (forall l, Permutation (srt l) l) -> set_order order -> importable X -> rows_of X rows ->
  sensible X N S (move_rows a) (move_columns a) (gibbs_Cd g) (scc (gibbs_Ci g)) ->
  well_named X (gibbs_Cd g) (gibbs_Ci g) -> NoDup (List.concat (gibbs_Cd g)) -> NoDup (map fst (scc (gibbs_Ci g))) ->
  (forall v w, In [v; w] (gibbs_Ci g) -> exists b, In (v, b) (scc (gibbs_Ci g)) /\ In w b) ->
  (forall seed rq obs, cpp_request srt scc (CProd X) N S (move_kernels a) (move_rows a) (move_columns a) (gibbs_Cd g) (gibbs_Ci g) (Some seed) = Ok (Some (rq, obs)) ->
     proper (List.length (flat_map columns_of X)) (List.length rows) rq (engine rq)) ->
  forall draws res, outcome (make_move srt order scc engine g (CProd X) N S a) draws res ->
    (forall c, res = Ok c -> exists X' seed rq obs, c = CProd X' /\ 0 <= seed < 2 ^ 32 - 1 /\
       cpp_request srt scc (CProd X) N S (move_kernels a) (move_rows a) (move_columns a) (gibbs_Cd g) (gibbs_Ci g) (Some seed) = Ok (Some (rq, obs)) /\
       same_data X X' /\ obeys X' (gibbs_Cd g) (gibbs_Ci g) /\
       grouped (flat_map columns_of X) rows (assignments (fst (engine rq))) (snd (engine rq)) X') /\
    (NoDup (tl draws) -> (forall z, In z (tl draws) -> ~ In z (flat_map outputs X)) ->
     grids_for X (grids_columns (gibbs_sampler g)) (grids_dividers (gibbs_sampler g)) -> exists c, res = Ok c).
Proof. intros srt order scc engine g X N S [l|l|l] rows; apply engine_move_ok. Qed.
Print Assumptions C71_moves.

(** An engine that puts columns 0 and 1 together, with the rows together, and column 2 alone,
    with the rows apart. *)
Definition steady_engine (rq : request) : latents * list (list Z) :=
  (mkLatents [] [1; 1; 0] [] [mkViewState 0 [] [] 0%Qc; mkViewState 0 [] [] 0%Qc] None None, [[1; 0]; [0; 0]]).
Definition pairs_only (Ci : list (list Z)) : list (Z * list Z) :=
  flat_map (fun p => match p with [a; b] => [(a, [b])] | _ => [] end) Ci.

Lemma demo_rows : rows_of demo_views [4; 6].
Proof.
  split; [repeat constructor; lia|]. intros r. split.
  - intros Hr. exists 0. apply views_cells; [cbn in Hr; intuition|now left].
  - intros (v & x & m & Hm & E). assert (Y := views_seats m r Hm (cell_seat m r v x E)). cbn. intuition.
Qed.

Lemma demo_sensible : forall a, a = Rows (Some [6]) \/ a = Columns (Some [1]) \/ a = Structure None ->
  sensible demo_views (Some 5) None (move_rows a) (move_columns a) [[0; 1]] (pairs_only [[0; 2]]).
Proof.
  intros a Ha. assert (E : flat_map columns_of demo_views = [0; 1; 2]) by (vm_compute; reflexivity). split; [left; discriminate|]. split; [|split; [|split]].
  - intros l o El Ho. rewrite E. destruct Ha as [->|[->| ->]]; cbn in El; try discriminate. injection El as <-. cbn in *. intuition.
  - intros l r El Hr. destruct Ha as [->|[->| ->]]; cbn in El; try discriminate. injection El as <-. exists 0. apply views_cells; [cbn in Hr; intuition|now left].
  - intros b o [<-|[]] Ho. rewrite E. cbn in *. intuition.
  - intros o b [[= <- <-]|[]]. rewrite E. cbn. intuition.
Qed.

Lemma demo_proper : forall a seed rq obs, a = Rows (Some [6]) \/ a = Columns (Some [1]) \/ a = Structure None ->
  cpp_request (fun l => l) pairs_only (CProd demo_views) (Some 5) None (move_kernels a) (move_rows a) (move_columns a) [[0; 1]] [[0; 2]] (Some seed) = Ok (Some (rq, obs)) ->
  proper 3 2 rq (steady_engine rq).
Proof.
  intros a seed rq obs Ha E. destruct (request_constraints _ _ _ _ _ _ _ _ _ _ _ _ _ demo_views_ok E) as [(d & ED & RD) (i & EI & RI)].
  replace (flat_map columns_of demo_views) with [0; 1; 2] in ED, EI by (vm_compute; reflexivity). vm_compute in ED, EI. injection ED as <-. injection EI as <-. split; [|split; [reflexivity|split]].
  - split; [reflexivity|]. split; [intros z; cbn; split; [intuition lia|intros Hz; lia]|]. intros part [<-|[<-|[]]]; reflexivity.
  - intros D k js j EQ L Hj. rewrite RD in EQ. injection EQ as <-. cbn in L. destruct k as [|[|k]]; cbn in L; try discriminate; injection L as <-; destruct Hj as [<-|[<-|[]]]; reflexivity.
  - intros D k js j EQ L Hj. rewrite RI in EQ. injection EQ as <-. cbn in L. destruct k as [|k]; cbn in L; try discriminate; injection L as <-; destruct Hj as [<-|[]]; discriminate.
Qed.

Example C71_moves_case : exists g, new_gibbs (fun _ _ _ => Ok tt) check_partition flat_space [[0; 1]] [[0; 2]] (CProd demo_views) = Ok g /\
  set_order by_size /\ importable demo_views /\ rows_of demo_views [4; 6] /\ well_named demo_views (gibbs_Cd g) (gibbs_Ci g) /\
  NoDup (List.concat (gibbs_Cd g)) /\ NoDup (map fst (pairs_only (gibbs_Ci g))) /\
  (forall v w, In [v; w] (gibbs_Ci g) -> exists b, In (v, b) (pairs_only (gibbs_Ci g)) /\ In w b) /\
  grids_for demo_views (grids_columns (gibbs_sampler g)) (grids_dividers (gibbs_sampler g)) /\
  forall a, a = Rows (Some [6]) \/ a = Columns (Some [1]) \/ a = Structure None ->
    sensible demo_views (Some 5) None (move_rows a) (move_columns a) (gibbs_Cd g) (pairs_only (gibbs_Ci g)) /\
    forall seed rq obs, cpp_request (fun l => l) pairs_only (CProd demo_views) (Some 5) None (move_kernels a) (move_rows a) (move_columns a) (gibbs_Cd g) (gibbs_Ci g) (Some seed) = Ok (Some (rq, obs)) ->
      proper 3 2 rq (steady_engine rq).
Proof.
  destruct (new_sampler_ok flat_space true demo_views C41_spaced_case demo_views_ok ltac:(discriminate) (importable_no_uc _ views_importable)) as (s & Es & _ & GF).
  exists (mkGibbs s [[0; 1]] [[0; 2]]). split.
  { unfold new_gibbs. rewrite sheet_validated by exact demo_views_ok. cbn [obind].
    replace (validate_crosscat_dependencies (fun _ _ _ => Ok tt) check_partition (CProd demo_views) [[0; 1]] [[0; 2]]) with (Ok tt : out unit) by (vm_compute; reflexivity).
    cbn [obind some_constraint]. rewrite Es. reflexivity. }
  cbn [gibbs_Cd gibbs_Ci gibbs_sampler]. split; [exact by_size_ok|]. split; [exact views_importable|]. split; [exact demo_rows|]. split; [exact views_named|].
  split; [repeat constructor; cbn; intuition lia|]. split; [repeat constructor; cbn; intuition|]. split; [intros v w [[= <- <-]|[]]; exists [2]; cbn; auto|]. split; [exact GF|].
  intros a Ha. split; [apply demo_sensible; exact Ha|]. intros seed rq obs. apply demo_proper. exact Ha.
Qed.

(** The engine is asked what is documented: the kernels of the move, a seed from 0 up to
    2^32 - 2, the steps (150000 if only a time is given) and the time (-1 if only steps are
    given), the positions of the rows and columns, and the constraints by the positions of the
    columns. Engines that answer such requests alike make the same moves. *)
Theorem C71_asked : forall srt order scc engine engine' g X N S a rows (n : Z) (t : Qc), (forall l, Permutation (srt l) l) -> importable X -> rows_of X rows ->
  sensible X N S (move_rows a) (move_columns a) (gibbs_Cd g) (scc (gibbs_Ci g)) -> NoDup (List.concat (gibbs_Cd g)) -> NoDup (map fst (scc (gibbs_Ci g))) ->
  (N = Some n /\ S = None /\ t = qz (-1)) \/ (N = None /\ S = Some t /\ n = 150000) \/ (N = Some n /\ S = Some t) ->
  (forall rq, asks X rows n t (match move_kernels a with Some k => k | None => [] end) (move_rows a) (move_columns a) (gibbs_Cd g) (gibbs_Ci g) (scc (gibbs_Ci g)) rq -> engine rq = engine' rq) ->
  forall draws res, outcome (make_move srt order scc engine g (CProd X) N S a) draws res <-> outcome (make_move srt order scc engine' g (CProd X) N S a) draws res.
Proof.
  intros srt order scc engine engine' g X N S a rows n t SP IM RO SE ND NS HN HA draws res.
  assert (ES : steps_and_time N S = Ok (n, t)) by (destruct HN as [(-> & -> & ->)|[(-> & -> & ->)|(-> & ->)]]; reflexivity).
  assert (HA' : forall rq, asks X rows n t (match move_kernels a with Some k => k | None => [] end) (move_rows a) (move_columns a) (gibbs_Cd g) (gibbs_Ci g) (scc (gibbs_Ci g)) rq -> engine' rq = engine rq) by (intros rq Hq; symmetry; apply HA; exact Hq).
  assert (M : forall e1 e2, (forall rq, asks X rows n t (match move_kernels a with Some k => k | None => [] end) (move_rows a) (move_columns a) (gibbs_Cd g) (gibbs_Ci g) (scc (gibbs_Ci g)) rq -> e1 rq = e2 rq) ->
    outcome (engine_move srt order scc e1 g (CProd X) N S (move_kernels a) (move_rows a) (move_columns a)) draws res -> outcome (engine_move srt order scc e2 g (CProd X) N S (move_kernels a) (move_rows a) (move_columns a)) draws res)
    by (intros e1 e2 He; exact (engine_asked srt order scc e1 e2 g X N S _ _ _ rows n t SP IM RO SE ND NS ES He draws res)).
  assert (EM : forall e, make_move srt order scc e g (CProd X) N S a = engine_move srt order scc e g (CProd X) N S (move_kernels a) (move_rows a) (move_columns a)) by (intros e; destruct a; reflexivity).
  rewrite !EM. split; [exact (M engine engine' HA)|exact (M engine' engine HA')].
Qed.
Print Assumptions C71_asked.

(** An engine that answers differently when asked for 6 steps. *)
Example C71_asked_case : exists engine', importable demo_views /\ rows_of demo_views [4; 6] /\
  sensible demo_views (Some 5) None (move_rows (Columns (Some [1]))) (move_columns (Columns (Some [1]))) [[0; 1]] (pairs_only [[0; 2]]) /\
  (forall rq, asks demo_views [4; 6] 5 (qz (-1)) view_kernels None (Some [1]) [[0; 1]] [[0; 2]] (pairs_only [[0; 2]]) rq -> steady_engine rq = engine' rq) /\
  exists rq, steady_engine rq <> engine' rq.
Proof.
  exists (fun rq => if Z.eqb (rq_steps rq) 6 then (fst (steady_engine rq), []) else steady_engine rq). split; [exact views_importable|]. split; [exact demo_rows|].
  split; [apply demo_sensible; auto|]. split.
  - intros rq (E & _). rewrite E. reflexivity.
  - destruct (cpp_request (fun l => l) pairs_only (CProd demo_views) (Some 6) None None None None [] [] None) as [[[rq obs]|]|] eqn:E; try (vm_compute in E; discriminate).
    exists rq. replace (rq_steps rq) with 6 by (vm_compute in E; injection E as <- _; reflexivity). discriminate.
Qed.

(** The default inference program of an ensemble, on a model that obeys constraints that the
    library finds legal: it ends in a model with the same table that obeys them. *)
Theorem C71_program : forall legal respects logspace srt order scc engine X Cd Ci N S outs rows, partition_check respects -> spaced logspace ->
  (forall l, Permutation (srt l) l) -> set_order order -> importable X -> rows_of X rows ->
  sensible X N S None outs Cd (scc Ci) -> well_named X Cd Ci -> NoDup (List.concat Cd) -> NoDup (map fst (scc Ci)) ->
  (forall v w, In [v; w] Ci -> exists b, In (v, b) (scc Ci) /\ In w b) ->
  obeys X Cd Ci -> (Cd <> [] \/ Ci <> [] -> Permutation (flat_map columns_of X) (zrange (List.length (flat_map columns_of X))) /\ legal (List.length (flat_map columns_of X)) Cd Ci = Ok tt) ->
  (forall seed rq obs, cpp_request srt scc (CProd X) N S None None outs Cd Ci (Some seed) = Ok (Some (rq, obs)) ->
     proper (List.length (flat_map columns_of X)) (List.length rows) rq (engine rq)) ->
  forall draws res, outcome (default_program legal respects logspace srt order scc engine Cd Ci N S outs (CProd X)) draws res ->
    (forall c, res = Ok c -> exists X', c = CProd X' /\ same_data X X' /\ obeys X' Cd Ci) /\
    (NoDup (tl draws) -> (forall z, In z (tl draws) -> ~ In z (flat_map outputs X)) -> exists c, res = Ok c).
Proof. exact program_ok. Qed.
Print Assumptions C71_program.

Example C71_program_case : partition_check check_partition /\ spaced flat_space /\ obeys demo_views [[0; 1]] [[0; 2]] /\
  Permutation (flat_map columns_of demo_views) (zrange (List.length (flat_map columns_of demo_views))) /\
  sensible demo_views (Some 5) None None None [[0; 1]] (pairs_only [[0; 2]]) /\
  forall seed rq obs, cpp_request (fun l => l) pairs_only (CProd demo_views) (Some 5) None None None None [[0; 1]] [[0; 2]] (Some seed) = Ok (Some (rq, obs)) -> proper 3 2 rq (steady_engine rq).
Proof.
  split; [exact check_partition_ok|]. split; [exact C41_spaced_case|]. split; [exact views_obey|].
  split; [replace (flat_map columns_of demo_views) with [0; 1; 2] by (vm_compute; reflexivity); apply Permutation_refl|].
  split; [apply (demo_sensible (Structure None)); auto|]. intros seed rq obs. apply (demo_proper (Structure None)). auto.
Qed.

(** Called with neither a number of steps nor a time, as their signatures allow, the moves and
    the default inference program always raise AssertionError: there is no default amount of
    inference. *)
Theorem C71_defaults_refuted : forall srt order scc engine g c,
  (forall a, always (make_move srt order scc engine g c None None a) (fun r => r = Err AssertionError)) /\
  (forall legal respects logspace Cd Ci outs, new_gibbs legal respects logspace Cd Ci c = Ok g ->
     always (default_program legal respects logspace srt order scc engine Cd Ci None None outs c) (fun r => r = Err AssertionError)).
Proof.
  intros srt order scc engine g c.
  assert (M : forall k rowids cols, always (engine_move srt order scc engine g c None None k rowids cols) (fun r => r = Err AssertionError)) by (intros k rowids cols z _; reflexivity).
  split; [intros [l|l|l]; apply M|]. intros legal respects logspace Cd Ci outs E. unfold default_program. rewrite E. apply M.
Qed.
Print Assumptions C71_defaults_refuted.

Example C71_defaults_refuted_case : exists g, new_gibbs (fun _ _ _ => Ok tt) check_partition flat_space [] [] (CProd demo_views) = Ok g.
Proof. eexists. vm_compute. reflexivity. Qed.
