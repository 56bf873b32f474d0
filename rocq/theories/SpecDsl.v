(** Specification of the languages in which models are written. *)
From Coq Require Import List ZArith QArith Qcanon Reals Bool String Ascii Permutation Sorted.
From Verif Require Import Base Xr Samp Lgamma Prims Cgpm SpecPrims SpecComp SpecTable Walks SpecWalks SpecHist SpecViews Sample SpecSample Dsl.
Import ListNotations.
Local Open Scope string_scope.
Local Open Scope Z_scope.

(** ** Numbers *)

(** [q] can be written with four decimals. *)
Definition four_decimals (q : Qc) : Prop := exists z, q = (qz z / qz 10000)%Qc.

(** [x] is [q] to four decimals. *)
Definition rounded (q x : Qc) : Prop := four_decimals x /\ (Rabs (qr x - qr q) <= / 20000)%R.

(** ** ASTs *)

(** Small letters, digits and the underscore. *)
Definition letter (a : ascii) : Prop := (97 <= nat_of_ascii a <= 122)%nat.
Definition word_char (a : ascii) : Prop :=
  letter a \/ (48 <= nat_of_ascii a <= 57)%nat \/ nat_of_ascii a = 95%nat.

(** The words that YAML does not read as text. *)
Definition reserved : list string := ["null"; "true"; "false"; "yes"; "no"; "on"; "off"]%string.

(** A text of such characters that starts with a letter, and that YAML reads as text. *)
Definition word (s : string) : Prop :=
  (exists a s', s = String a s' /\ letter a /\ forall b, In b (list_ascii_of_string s') -> word_char b) /\
  ~ In s reserved.

(** The names of the arguments are words, and different. *)
Definition proper_args (d : dict string Qc) : Prop := NoDup (keys d) /\ forall k, In k (keys d) -> word k.

(** A distribution that can be written down: its name is a word; the names of its arguments
    are words; it has a dict of hyperparameters. *)
Definition writable_primitive (p : ast_primitive) : Prop :=
  word (ast_name p) /\ (forall d, ast_distargs p = Some d -> proper_args d) /\
  exists h, ast_hypers p = Some h /\ proper_args h.

(** A view that can be written down; it has a column. *)
Definition writable_view (v : ast_view) : Prop :=
  writable_primitive (fst v) /\ snd v <> [] /\ forall p, In p (snd v) -> writable_primitive p.

(** The same arguments to four decimals. *)
Definition rounded_args (d d' : dict string Qc) : Prop :=
  Forall2 (fun e e' : string * Qc => fst e' = fst e /\ rounded (snd e) (snd e')) d d'.

(** Nothing is written for an empty dict, and it is read as None. *)
Definition rounded_option (d d' : option (dict string Qc)) : Prop :=
  match d, d' with
  | None, None => True
  | Some [], None => True
  | Some d, Some d' => d <> [] /\ rounded_args d d'
  | _, _ => False
  end.

(** The same column, distribution and arguments, to four decimals. *)
Definition rounded_primitive (p p' : ast_primitive) : Prop :=
  ast_output p' = ast_output p /\ ast_name p' = ast_name p /\
  rounded_option (ast_distargs p) (ast_distargs p') /\ rounded_option (ast_hypers p) (ast_hypers p').

(** The same view to four decimals. *)
Definition rounded_view (v v' : ast_view) : Prop :=
  rounded_primitive (fst v) (fst v') /\ Forall2 rounded_primitive (snd v) (snd v').

(** All arguments are numbers with four decimals, and no dict of arguments is empty. *)
Definition exact_option (d : option (dict string Qc)) : Prop :=
  forall l, d = Some l -> l <> [] /\ forall k q, In (k, q) l -> four_decimals q.
Definition exact_view (v : ast_view) : Prop :=
  forall p, In p (fst v :: snd v) -> exact_option (ast_distargs p) /\ exact_option (ast_hypers p).

(** ** Models that ASTs describe *)

(** Large enough not to be written as 0. *)
Definition visible (q : Qc) : Prop := (/ 20000 < qr q)%R.

Definition no_args (d : option (dict string Qc)) : Prop := d = None \/ d = Some [].
Definition args_of (d : option (dict string Qc)) : dict string Qc := match d with Some l => l | None => [] end.

(** A column that can be built, and its type. *)
Inductive describes_column (p : ast_primitive) : kind -> Prop :=
| describes_categorical : forall n alpha,
    ast_name p = "categorical"%string -> ast_distargs p = Some [("k"%string, qz n)] -> 0 < n ->
    ast_hypers p = Some [("alpha"%string, alpha)] -> visible alpha -> describes_column p (KCategory n)
| describes_poisson : forall h a b,
    ast_name p = "poisson"%string -> no_args (ast_distargs p) -> ast_hypers p = Some h ->
    Permutation h [("a"%string, a); ("b"%string, b)] -> visible a -> visible b -> describes_column p KCount
| describes_normal : forall h m r s nu,
    ast_name p = "normal"%string -> no_args (ast_distargs p) -> ast_hypers p = Some h ->
    Permutation h [("m"%string, m); ("r"%string, r); ("s"%string, s); ("nu"%string, nu)] ->
    visible r -> visible s -> visible nu -> describes_column p (KReal true).

(** A row divider that can be built. *)
Definition describes_rows (p : ast_primitive) : Prop :=
  exists alpha, ast_name p = "crp"%string /\ no_args (ast_distargs p) /\
    ast_hypers p = Some [("alpha"%string, alpha)] /\ visible alpha.

(** An AST that can be built: at least one view; every view has a column; no two names of
    columns or row dividers are the same. *)
Definition describes_model (ast : list ast_view) : Prop :=
  ast <> [] /\ NoDup (map ast_output (flat_map (fun v : ast_view => fst v :: snd v) ast)) /\
  forall v, In v ast -> describes_rows (fst v) /\ snd v <> [] /\ forall p, In p (snd v) -> exists k, describes_column p k.

(** [d] is the column that [p] describes, to four decimals. *)
Definition shows (p : ast_primitive) (d : dist) : Prop :=
  dist_o d = ast_output p /\ (forall k, describes_column p k -> kind_of d = k) /\
  forall k q, lookup k (args_of (ast_hypers p)) = Some q -> exists x, lookup k (dist_get_hypers d) = Some x /\ rounded q x.

(** [m] is a new view, without rows, as [v] describes it. *)
Definition shows_view (v : ast_view) (m : cgpm) : Prop :=
  new_view m /\ exists s bs, m = new_flexmix (DCrp s) (CProd (map CDist bs)) /\ shows (fst v) (DCrp s) /\ Forall2 shows (snd v) bs.

(** The columns of the base of a view, from which new clusters are made. *)
Definition base_columns (m : cgpm) : list dist :=
  match m with CMix _ _ (CFlexArr _ base _ _) _ => leaves base | _ => [] end.

(** A column that the languages can describe. *)
Definition in_language (d : dist) : Prop :=
  (exists k, kind_of d = KCategory k) \/ kind_of d = KCount \/ kind_of d = KReal true.

(** All hyperparameters but the mean are large enough to be written. *)
Definition visible_hypers (d : dist) : Prop := forall k q, In (k, q) (dist_get_hypers d) -> k <> "m"%string -> visible q.

Definition hypers_rounded (d d' : dist) : Prop :=
  Forall2 (fun e e' : string * Qc => fst e' = fst e /\ rounded (snd e) (snd e')) (dist_get_hypers d) (dist_get_hypers d').

(** [m'] is the view [m] without its rows; the hyperparameters to four decimals. *)
Definition emptied (m m' : cgpm) : Prop :=
  new_view m' /\ label_of m' = label_of m /\ columns_of m' = columns_of m /\ (forall o, kind_at m' o = kind_at m o) /\
  (exists s s', divider m = Some s /\ divider m' = Some s' /\ hypers_rounded s s') /\
  Forall2 hypers_rounded (base_columns m) (base_columns m').

(** ** Traces *)

(** The rows were recorded in the order of their clusters; there is a row. *)
Definition in_cluster_order (m : cgpm) : Prop :=
  exists l, recorded_rows m l /\ l <> [] /\ StronglySorted (fun p q : Z * Z => snd p <= snd q) l.

(** The columns of cluster [k] of a view; for a new cluster those of the base. *)
Definition cluster_columns (m : cgpm) (k : val) : list dist :=
  match m with
  | CMix _ _ (CFlexArr _ base cs _) _ => leaves (match lookup k cs with Some c => c | None => base end)
  | _ => []
  end.

(** [m'] records the same table as [m]: the same columns, cells and clusters, the clusters
    under other numbers; the hyperparameters to four decimals. *)
Definition replayed (m m' : cgpm) : Prop :=
  label_of m' = label_of m /\ columns_of m' = columns_of m /\ (forall o, kind_at m' o = kind_at m o) /\
  (forall r o, cell m' r o = cell m r o) /\
  (forall r, seat m' r = None <-> seat m r = None) /\
  (forall r r', seat m r <> None -> seat m r' <> None -> (seat m' r = seat m' r' <-> seat m r = seat m r')) /\
  (exists s s', divider m = Some s /\ divider m' = Some s' /\ hypers_rounded s s') /\
  forall k, Forall2 hypers_rounded (base_columns m) (cluster_columns m' k).

(** ** VentureScript *)

(** [tables] lists the clusters in use, in increasing order. *)
Definition clusters_of (m : cgpm) (tables : list Z) : Prop :=
  StronglySorted Z.lt tables /\ forall t, In t tables <-> exists r, seat m r = Some (vz t).

(** The share of the rows of [l] that are in cluster [t]. *)
Definition share (l : list (Z * Z)) (t : Z) : Qc :=
  (qz (Z.of_nat (List.length (filter (fun p => (snd p =? t)%Z) l))) / qz (Z.of_nat (List.length l)))%Qc.

Definition hyper (k : string) (d : dist) (q : Qc) : Prop := lookup k (dist_get_hypers d) = Some q.

(** The text of a distribution; numbers with four decimals. *)
Inductive maker (d : dist) : string -> Prop :=
| maker_normal : forall m r s nu, kind_of d = KReal true -> hyper "m" d m -> hyper "r" d r -> hyper "s" d s -> hyper "nu" d nu ->
    maker d ("make_nig_normal(" ++ format_f4 m ++ ", " ++ format_f4 r ++ ", " ++ format_f4 s ++ ", " ++ format_f4 nu ++ ")")
| maker_poisson : forall a b, kind_of d = KCount -> hyper "a" d a -> hyper "b" d b ->
    maker d ("make_gamma_poisson(" ++ format_f4 a ++ ", " ++ format_f4 b ++ ")")
| maker_categorical : forall k alpha, kind_of d = KCategory k -> hyper "alpha" d alpha ->
    maker d ("make_symm_dirichlet_categorical(" ++ format_d k ++ ", " ++ format_f4 alpha ++ ")").

(** [texts] are the name of column [o] and its distributions in the clusters [tables], in
    this order. *)
Definition column_texts (m : cgpm) (tables : list Z) (o : Z) (texts : list (string * string)) : Prop :=
  Forall2 (fun t e => fst e = ("var-" ++ format_d o)%string /\
    exists d, In d (cluster_columns m (vz t)) /\ dist_o d = o /\ maker d (snd e)) tables texts.

(** [z] is the position of cluster [t] in [tables]. *)
Definition position (tables : list Z) (z t : Z) : Prop := 0 <= z /\ nth_error tables (Z.to_nat z) = Some t.

(** [v] shows the view [m]: the clusters in use with their shares of the rows; for every
    column its distribution in each of these clusters; every row with the position of its
    cluster. *)
Definition vs_shows (m : cgpm) (v : vs_view) : Prop :=
  exists l tables, recorded_rows m l /\ clusters_of m tables /\
    vs_weights v = map (share l) tables /\ rsum (map qr (vs_weights v)) = 1%R /\
    Forall2 (column_texts m tables) (columns_of m) (vs_distributions v) /\
    Forall2 (fun p q : Z * Z => fst q = fst p /\ position tables (snd q) (snd p)) l (vs_observes_crp v).

(** Every column of the model [X], in increasing order, with the position of its view. *)
Definition assigns (X : list cgpm) (a : list (string * nat)) : Prop :=
  exists os, StronglySorted Z.lt os /\ (forall o, In o os <-> In o (flat_map columns_of X)) /\
    Forall2 (fun o e => fst e = "var-" ++ format_d o /\ exists m, nth_error X (snd e) = Some m /\ In o (columns_of m)) os a.

(** ** Random ASTs *)

(** The names of the hyperparameters of a distribution. *)
Definition hyper_names (name : string) : list string :=
  if String.eqb name "normal" then ["m"; "r"; "s"; "nu"]%string
  else if String.eqb name "poisson" then ["a"; "b"]%string
  else ["alpha"]%string.

(** [p] has all hyperparameters of its distribution, none of them negative. *)
Definition drawn_hypers (p : ast_primitive) : Prop :=
  exists h, ast_hypers p = Some h /\ keys h = hyper_names (ast_name p) /\ forall k q, In (k, q) h -> (0 <= qr q)%R.

(** [ast] has the columns 0, 1, .. with the given distributions, each in one view; the row
    dividers are numbered from [first]. *)
Definition random_ast (first : Z) (distributions : list (string * option (dict string Qc))) (ast : list ast_view) : Prop :=
  partition_of (List.length distributions) (map (fun v : ast_view => map ast_output (snd v)) ast) /\
  by_appearance (map (fun v : ast_view => map ast_output (snd v)) ast) /\
  map (fun v : ast_view => ast_output (fst v)) ast = map (fun i => first + Z.of_nat i) (seq 0 (List.length ast)) /\
  (forall v, In v ast -> ast_name (fst v) = "crp"%string /\ ast_distargs (fst v) = None /\ drawn_hypers (fst v)) /\
  (forall v p, In v ast -> In p (snd v) -> nth_error distributions (Z.to_nat (ast_output p)) = Some (ast_name p, ast_distargs p) /\ drawn_hypers p).

(** The distributions that can be drawn. *)
Definition known_distribution (d : string * option (dict string Qc)) : Prop :=
  In (fst d) ["normal"; "categorical"; "poisson"; "crp"]%string.

(** A distribution for a column, with its arguments. *)
Definition column_distribution (d : string * option (dict string Qc)) : Prop :=
  (fst d = "categorical"%string /\ exists n, 0 < n /\ snd d = Some [("k"%string, qz n)]) \/
  (In (fst d) ["normal"; "poisson"]%string /\ no_args (snd d)).
