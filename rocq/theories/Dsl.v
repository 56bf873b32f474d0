(** The languages of src/sample_crosscat.py: the Core DSL as text (compiler and parser), the
    embedded DSL as programs, and the parts of a trace rendered for VentureScript.

    Simplifications: the arguments and hyperparameters of a distribution are numbers (the
    branch for strings, src/sample_crosscat.py:105-106, is left out; no distribution has
    any); a program of the embedded DSL is a tree of the constructor calls it contains
    instead of its text, a number in it stands for its repr, which Python reads back
    exactly; a dict is written in the order of the list that models it. *)
From Coq Require Import List ZArith QArith Qcanon Reals Bool String Ascii DecimalString.
From Verif Require Import Base Xr Samp Lgamma Prims Cgpm Trans Views Crosscat Sample.
Import ListNotations.
Local Open Scope Z_scope.
Local Open Scope string_scope.

(** ** Text *)

(** ["\n"] (src/sample_crosscat.py:106) *)
Definition newline : ascii := ascii_of_nat 10.

(** A newline as text (src/sample_crosscat.py:106) *)
Definition nl : string := String newline EmptyString.

(** ['%d' % (z,)] (src/sample_crosscat.py:108) *)
Definition format_d (z : Z) : string := NilZero.string_of_int (Z.to_int z).

(** One decimal digit of ['%1.4f'] (src/sample_crosscat.py:110). *)
Definition digit (z : Z) : ascii := ascii_of_nat (48 + Z.to_nat z).

(** The four decimals of ['%1.4f'] (src/sample_crosscat.py:110). *)
Definition decimals (z : Z) : string :=
  String (digit (z / 1000 mod 10)) (String (digit (z / 100 mod 10)) (String (digit (z / 10 mod 10)) (String (digit (z mod 10)) EmptyString))).

(** [q] in units of 1/10000, rounded to the nearest, ties to even: the rounding of ['%1.4f']
    (src/sample_crosscat.py:110). *)
Definition round4 (q : Qc) : Z :=
  let n := (Qnum (this q) * 10000)%Z in
  let d := Zpos (Qden (this q)) in
  match (2 * (n mod d) ?= d)%Z with
  | Lt => n / d
  | Gt => n / d + 1
  | Eq => if Z.even (n / d) then n / d else n / d + 1
  end.

(** ['%1.4f' % (q,)] (src/sample_crosscat.py:110, 428) *)
Definition format_f4 (q : Qc) : string :=
  let neg := qltb q 0%Qc in
  let a := round4 (if neg then - q else q)%Qc in
  (if neg then "-" else "") ++ format_d (a / 10000) ++ "." ++ decimals (a mod 10000).

(** The number as core_compile_key_val writes it (src/sample_crosscat.py:107-110). *)
Definition number_text (q : Qc) : string := if is_int q then format_d (trunc q) else format_f4 q.

(** src/sample_crosscat.py:98-100 core_compile_indent *)
Fixpoint core_compile_indent (i : nat) : string :=
  match i with O => "" | S i' => String " " (core_compile_indent i') end.

(** src/sample_crosscat.py:102-110 core_compile_key_val *)
Definition core_compile_key_val (i : nat) (k : string) (v : Qc) : string :=
  core_compile_indent i ++ k ++ ": " ++ number_text v ++ nl.

(** src/sample_crosscat.py:112-114 core_compile_key *)
Definition core_compile_key (i : nat) (k : string) : string := core_compile_indent i ++ k ++ ":" ++ nl.

(** src/sample_crosscat.py:116-118 core_compile_key_list *)
Definition core_compile_key_list (i : nat) (k : string) : string := core_compile_indent i ++ "- " ++ k ++ ":" ++ nl.

(** ** AST *)

(** A distribution with its column and hyperparameters: the triples of
    src/sample_crosscat.py:79, 88, 286; None stands for Python's None. *)
Record ast_primitive := mkAst {
  ast_output : Z;
  ast_name : string;
  ast_distargs : option (dict string Qc);
  ast_hypers : option (dict string Qc) }.

(** A view: its row divider and its columns (src/sample_crosscat.py:92, 296). *)
Definition ast_view : Type := ast_primitive * list ast_primitive.

(** Written one after the other (the loops of src/sample_crosscat.py:122-123, 128-129,
    139-140, 154-155). *)
Definition write_all (l : list string) : string := fold_right append "" l.

(** src/sample_crosscat.py:120-123 core_compile_hypers; None has no [iteritems]. *)
Definition core_compile_hypers (i : nat) (h : option (dict string Qc)) : out string :=
  match h with
  | None => Err AttributeError
  | Some h => Ok (core_compile_key i "hypers" ++
      write_all (map (fun e : string * Qc => core_compile_key_val (i + 2) (fst e) (snd e)) h))
  end.

(** src/sample_crosscat.py:125-129 core_compile_distargs *)
Definition core_compile_distargs (i : nat) (d : option (dict string Qc)) : string :=
  core_compile_key i "distargs" ++
  match d with
  | None => ""
  | Some d => write_all (map (fun e : string * Qc => core_compile_key_val (i + 2) (fst e) (snd e)) d)
  end.

(** ['%s{id:%d}' % (distname, output)] (src/sample_crosscat.py:133) *)
Definition primitive_key (p : ast_primitive) : string := ast_name p ++ "{id:" ++ format_d (ast_output p) ++ "}".

(** src/sample_crosscat.py:131-135 core_compile_distribution *)
Definition core_compile_distribution (i : nat) (p : ast_primitive) : out string :=
  do h <- core_compile_hypers (i + 4) (ast_hypers p);
  Ok (core_compile_key_list i (primitive_key p) ++ core_compile_distargs (i + 4) (ast_distargs p) ++ h).

(** src/sample_crosscat.py:137-140 core_compile_distributions *)
Definition core_compile_distributions (i : nat) (ps : list ast_primitive) : out string :=
  do l <- oseq (map (core_compile_distribution (i + 2)) ps);
  Ok (core_compile_key i "distribution models" ++ write_all l).

(** src/sample_crosscat.py:142-144 core_compile_row_clustering *)
Definition core_compile_row_clustering (i : nat) (p : ast_primitive) : out string :=
  do t <- core_compile_distribution (i + 2) p;
  Ok (core_compile_key i "row clustering model" ++ t).

(** src/sample_crosscat.py:146-150 core_compile_view *)
Definition core_compile_view (i : nat) (v : ast_view) : out string :=
  do r <- core_compile_row_clustering (i + 4) (fst v);
  do d <- core_compile_distributions (i + 4) (snd v);
  Ok (core_compile_key_list i "view" ++ r ++ d).

(** src/sample_crosscat.py:152-156 compile_ast_to_core_dsl *)
Definition compile_ast_to_core_dsl (ast : list ast_view) : out string :=
  do l <- oseq (map (core_compile_view 0) ast);
  Ok (write_all l).

(** ** YAML *)

(** What yaml.load returns (src/sample_crosscat.py:178, 254). *)
Inductive yaml :=
| YNull
| YNum (q : Qc)
| YStr (s : string)
| YSeq (l : list yaml)
| YMap (d : list (string * yaml)).

(** [s.split(c)] (src/sample_crosscat.py:167, 206); with a newline, the lines of a text. *)
Fixpoint split_at (c : ascii) (s : string) : list string :=
  match s with
  | EmptyString => [EmptyString]
  | String a s' =>
      if Ascii.eqb a c then EmptyString :: split_at c s'
      else match split_at c s' with
           | [] => [String a EmptyString]
           | p :: ps => String a p :: ps
           end
  end.

(** A line without its indentation, and how deep that is (part of yaml.load,
    src/sample_crosscat.py:178). *)
Fixpoint indentation (s : string) : nat * string :=
  match s with
  | String " " s' => let p := indentation s' in (S (fst p), snd p)
  | _ => (O, s)
  end.

(** A line that starts an item of a list (part of yaml.load, src/sample_crosscat.py:178). *)
Definition item_text (s : string) : option string :=
  match s with
  | String "-" (String " " s') => Some s'
  | _ => None
  end.

(** The key and the rest of a line of a mapping: the first colon before a space or the end
    (part of yaml.load, src/sample_crosscat.py:178). *)
Fixpoint split_key (s : string) : option (string * string) :=
  match s with
  | EmptyString => None
  | String a s' =>
      match Ascii.eqb a ":", s' with
      | true, EmptyString => Some (EmptyString, EmptyString)
      | true, String " " v => Some (EmptyString, v)
      | _, _ => option_map (fun p => (String a (fst p), snd p)) (split_key s')
      end
  end.

(** A decimal fraction (part of yaml.load, src/sample_crosscat.py:178). *)
Definition read_float (s : string) : option Qc :=
  match split_at "." s with
  | [a; b] =>
      match NilZero.int_of_string a, NilZero.uint_of_string b with
      | Some i, Some u =>
          let unit := Z.pow 10 (Z.of_nat (String.length b)) in
          let m := (Z.abs (Z.of_int i) * unit + Z.of_int (Decimal.Pos u))%Z in
          let q := (qz m / qz unit)%Qc in
          Some (match a with String "-" _ => - q | _ => q end)%Qc
      | _, _ => None
      end
  | _ => None
  end.

(** A scalar (part of yaml.load, src/sample_crosscat.py:178): a decimal integer, a decimal
    fraction, or else text. The other notations of YAML are left out. *)
Definition scalar (s : string) : yaml :=
  match NilZero.int_of_string s with
  | Some i => YNum (qz (Z.of_int i))
  | None => match read_float s with Some q => YNum q | None => YStr s end
  end.

(** A later value of a key replaces an earlier one (part of yaml.load,
    src/sample_crosscat.py:178). *)
Definition add_entry (k : string) (v : yaml) (d : list (string * yaml)) : list (string * yaml) :=
  if dmem k d then d else (k, v) :: d.

(** yaml.load (src/sample_crosscat.py:178, 254), restricted to block style: a value is
    nothing, or the lists and mappings indented by at least [least]; an item of a list is a
    mapping. What else YAML allows is a ValueError here. [n] bounds the recursion. *)
Fixpoint load_node (n : nat) (least : nat) (ls : list (nat * string)) {struct n} : out (yaml * list (nat * string)) :=
  match n with
  | O => Err OutOfFuel
  | S n' =>
    match ls with
    | [] => Ok (YNull, [])
    | (i, t) :: _ =>
        if Nat.ltb i least then Ok (YNull, ls)
        else match item_text t with
             | Some _ => do p <- load_items n' i ls; Ok (YSeq (fst p), snd p)
             | None => do p <- load_entries n' i ls; Ok (YMap (fst p), snd p)
             end
    end
  end
with load_items (n : nat) (i : nat) (ls : list (nat * string)) {struct n} : out (list yaml * list (nat * string)) :=
  match n with
  | O => Err OutOfFuel
  | S n' =>
    match ls with
    | [] => Ok ([], [])
    | (j, t) :: ls' =>
        if Nat.eqb j i then
          match item_text t with
          | Some t' =>
              do p <- load_entries n' (i + 2) ((i + 2, t')%nat :: ls');
              do q <- load_items n' i (snd p);
              Ok (YMap (fst p) :: fst q, snd q)
          | None => Ok ([], ls)
          end
        else Ok ([], ls)
    end
  end
with load_entries (n : nat) (i : nat) (ls : list (nat * string)) {struct n} : out (list (string * yaml) * list (nat * string)) :=
  match n with
  | O => Err OutOfFuel
  | S n' =>
    match ls with
    | [] => Ok ([], [])
    | (j, t) :: ls' =>
        if Nat.eqb j i then
          match item_text t with
          | Some _ => Ok ([], ls)
          | None =>
              match split_key t with
              | None => Err ValueError
              | Some (k, EmptyString) =>
                  do p <- load_node n' (i + 1) ls';
                  do q <- load_entries n' i (snd p);
                  Ok (add_entry k (fst p) (fst q), snd q)
              | Some (k, v) =>
                  do q <- load_entries n' i ls';
                  Ok (add_entry k (scalar v) (fst q), snd q)
              end
          end
        else Ok ([], ls)
    end
  end.

(** yaml.load of a text (src/sample_crosscat.py:178, 254); empty lines do not count. *)
Definition yaml_load (text : string) : out yaml :=
  let ls := map indentation (filter (fun l => negb (String.eqb l "")) (split_at newline text)) in
  do p <- load_node (4 * S (List.length ls)) 0 ls;
  match snd p with [] => Ok (fst p) | _ => Err ValueError end.

(** ** Core DSL parser *)

(** [y[k]] (src/sample_crosscat.py:164, 171) *)
Definition yget (k : string) (y : yaml) : out yaml :=
  match y with YMap d => dget k d | _ => Err TypeError end.

(** Iterating over a value (src/sample_crosscat.py:174, 179, 230, 261) *)
Definition yitems (y : yaml) : out (list yaml) :=
  match y with YSeq l => Ok l | YMap d => Ok (map (fun e : string * yaml => YStr (fst e)) d) | YStr _ => Err TypeError | _ => Err TypeError end.

(** [y[0]] (src/sample_crosscat.py:173, 238) *)
Definition yfirst (y : yaml) : out yaml :=
  match y with
  | YSeq (x :: _) => Ok x
  | YSeq [] => Err IndexError
  | YMap _ => Err KeyError
  | _ => Err TypeError
  end.

(** A mapping of numbers, or nothing: the arguments of a distribution
    (src/sample_crosscat.py:164-165). Other values, which the code would pass on, are a
    TypeError here. *)
Definition numbers (y : yaml) : out (option (dict string Qc)) :=
  match y with
  | YNull => Ok None
  | YMap d => omap Some (oseq (map (fun e : string * yaml => match snd e with YNum q => Ok (fst e, q) | _ => Err TypeError end) d))
  | _ => Err TypeError
  end.

(** [s.replace(c, '')] for one character (src/sample_crosscat.py:167, 206) *)
Fixpoint remove_char (c : ascii) (s : string) : string :=
  match s with
  | EmptyString => EmptyString
  | String a s' => if Ascii.eqb a c then remove_char c s' else String a (remove_char c s')
  end.

(** [s.replace('id:', '')] (src/sample_crosscat.py:167, 206) *)
Fixpoint remove_id (s : string) : string :=
  match s with
  | String "i" (String "d" (String ":" s')) => remove_id s'
  | String a s' => String a (remove_id s')
  | EmptyString => EmptyString
  end.

(** src/sample_crosscat.py:166-168, 203-207: the name and the column of a key *)
Definition embedded_get_distname_output (key : string) : out (string * Z) :=
  do _ <- oassert (Nat.ltb 1 (List.length (split_at "{" key)));
  match split_at "{" (remove_id (remove_char "}" key)) with
  | [name; output] =>
      match NilZero.int_of_string output with
      | Some i => Ok (name, Z.of_int i)
      | None => Err ValueError
      end
  | _ => Err ValueError
  end.

(** [assert len(d) == 1], then the key and the value (src/sample_crosscat.py:162-165,
    214-216) *)
Definition only_entry (y : yaml) : out (string * yaml) :=
  match y with
  | YMap [e] => Ok e
  | YMap _ | YSeq _ | YStr _ => Err AssertionError
  | _ => Err TypeError
  end.

(** src/sample_crosscat.py:161-168 core_parse_distribution *)
Definition core_parse_distribution (y : yaml) : out ast_primitive :=
  do e <- only_entry y;
  do distargs <- yget "distargs" (snd e);
  do hypers <- yget "hypers" (snd e);
  do no <- embedded_get_distname_output (fst e);
  do d <- numbers distargs;
  do h <- numbers hypers;
  Ok (mkAst (snd no) (fst no) d h).

(** src/sample_crosscat.py:170-175 core_parse_view *)
Definition core_parse_view (y : yaml) : out ast_view :=
  do row_clustering <- yget "row clustering model" y;
  do distributions <- yget "distribution models" y;
  do r <- yfirst row_clustering;
  do ast_crp <- core_parse_distribution r;
  do ds <- yitems distributions;
  do ast_distributions <- oseq (map core_parse_distribution ds);
  Ok (ast_crp, ast_distributions).

(** src/sample_crosscat.py:177-179 parse_core_dsl_to_ast *)
Definition parse_core_dsl_to_ast (core_dsl : string) : out (list ast_view) :=
  do y <- yaml_load core_dsl;
  do views <- yitems y;
  oseq (map (fun yaml_view => do v <- yget "view" yaml_view; core_parse_view v) views).

(** ** Embedded DSL *)

(** A call of a constructor of a primitive: the class, the column, and the keyword arguments
    after [outputs] and [inputs] (src/sample_crosscat.py:219-225). *)
Record constructor_call := mkCall { call_class : string; call_output : Z; call_kwargs : dict string (dict string Qc) }.

(** A view: its row divider and the columns of its Product (src/sample_crosscat.py:241-250). *)
Definition view_call : Type := constructor_call * list constructor_call.

(** The dict of src/sample_crosscat.py:183-188 *)
Definition primitive_constructors : dict string string :=
  [("categorical", "Categorical"); ("crp", "CRP"); ("normal", "Normal"); ("poisson", "Poisson")].

(** [for k, v in kwargs.iteritems(): if v is not None] (src/sample_crosscat.py:222-224) *)
Definition embedded_kwargs (y : yaml) : out (dict string (dict string Qc)) :=
  match y with
  | YMap d =>
      omap (fun l => flat_map (fun e : string * option (dict string Qc) => match snd e with Some v => [(fst e, v)] | None => [] end) l)
        (oseq (map (fun e : string * yaml => omap (fun v => (fst e, v)) (numbers (snd e))) d))
  | _ => Err AttributeError
  end.

(** src/sample_crosscat.py:213-225 embedded_compile_primitive *)
Definition embedded_compile_primitive (y : yaml) : out constructor_call :=
  do e <- only_entry y;
  do no <- embedded_get_distname_output (fst e);
  do constructor <- dget (fst no) primitive_constructors;
  do kwargs <- embedded_kwargs (snd e);
  Ok (mkCall constructor (snd no) kwargs).

(** src/sample_crosscat.py:227-250 embedded_compile_row_mixture, embedded_compile_product *)
Definition embedded_compile_row_mixture (y : yaml) : out view_call :=
  do rc <- yget "row clustering model" y;
  do row_clustering <- yfirst rc;
  do distributions <- yget "distribution models" y;
  do divide <- embedded_compile_primitive row_clustering;
  do ds <- yitems distributions;
  do base <- oseq (map embedded_compile_primitive ds);
  Ok (divide, base).

(** src/sample_crosscat.py:252-267 compile_core_dsl_to_embedded_dsl *)
Definition compile_core_dsl_to_embedded_dsl (core_dsl : string) : out (list view_call) :=
  do y <- yaml_load core_dsl;
  do views <- yitems y;
  oseq (map (fun ast_view_full => do v <- yget "view" ast_view_full; embedded_compile_row_mixture v) views).

(** A keyword argument of a constructor, [{}] when it is not given (src/crp.py:24-26 and the
    like) *)
Definition kwarg (k : string) (c : constructor_call) : dict string Qc :=
  match lookup k (call_kwargs c) with Some d => d | None => [] end.

(** Python's evaluation of the call of a constructor (src/sample_crosscat.py:272):
    src/categorical.py:24-40, src/crp.py:21-36, src/normal.py:24-49, src/poisson.py:22-42.
    Keyword arguments other than those of the constructors are a TypeError; an array of
    negative length is a ValueError. *)
Definition construct (c : constructor_call) : out dist :=
  let o := call_output c in
  let h := kwarg "hypers" c in
  do _ <- (if forallb (fun k => memb k ["hypers"; "params"; "distargs"; "rng"]) (keys (call_kwargs c)) then Ok tt else Err TypeError);
  if String.eqb (call_class c) "Categorical" then
    do k <- dget "k" (kwarg "distargs" c);
    if (trunc k <? 0)%Z then Err ValueError else Ok (DCat (cat_new o (trunc k) (hget "alpha" 1%Qc h)))
  else if String.eqb (call_class c) "CRP" then Ok (DCrp (crp_new o (hget "alpha" 1%Qc h)))
  else if String.eqb (call_class c) "Normal" then
    omap DNrm (nrm_new o (hget "m" 0%Qc h) (hget "r" 1%Qc h) (hget "s" 1%Qc h) (hget "nu" 1%Qc h))
  else if String.eqb (call_class c) "Poisson" then
    omap DPoi (poi_new o (hget "a" 1%Qc h) (hget "b" 1%Qc h))
  else Err KeyError.

(** Python's evaluation of [FlexibleRowMixture(cgpm_row_divide=.., cgpm_components_base=
    Product(cgpms=[..]))] (src/sample_crosscat.py:272, 241-250) *)
Definition construct_view (v : view_call) : out cgpm :=
  do divide <- construct (fst v);
  do cs <- oseq (map construct (snd v));
  do base <- new_product (map CDist cs);
  Ok (new_flexmix divide base).

(** src/sample_crosscat.py:271-273 interpret_embedded_dsl *)
Definition interpret_embedded_dsl (program : list view_call) : out cgpm :=
  do views <- oseq (map construct_view program);
  new_product views.

(** src/sample_crosscat.py:275-278 interpret_ast *)
Definition interpret_ast (ast : list ast_view) : out cgpm :=
  do core_dsl <- compile_ast_to_core_dsl ast;
  do embedded_dsl <- compile_core_dsl_to_embedded_dsl core_dsl;
  interpret_embedded_dsl embedded_dsl.

(** ** From models to the Core DSL *)

(** src/crp.py:181-182, src/categorical.py:135-136, src/bernoulli.py:139-140,
    src/poisson.py:143-144, src/normal.py:162-163, src/normal_uc.py:148-149 name *)
Definition dist_name (d : dist) : string :=
  match d with
  | DCrp _ => "crp"
  | DCat _ => "categorical"
  | DBer _ => "bernoulli"
  | DPoi _ => "poisson"
  | DNrm _ => "normal"
  | DNuc _ => "normal_uc"
  end.

(** src/categorical.py:121-122 get_distargs; the others return [{}] (src/crp.py:127-128,
    src/bernoulli.py:124-125, src/poisson.py:131-132, src/normal.py:143-144,
    src/normal_uc.py:140-141). *)
Definition dist_distargs (d : dist) : dict string Qc :=
  match d with DCat s => [("k", qz (cat_k s))] | _ => [] end.

(** src/sample_crosscat.py:282-286 convert_primitive_to_ast *)
Definition convert_primitive_to_ast (d : dist) : ast_primitive :=
  mkAst (dist_o d) (dist_name d) (match dist_distargs d with [] => None | l => Some l end) (Some (dist_get_hypers d)).

(** src/sample_crosscat.py:288-289 convert_product_to_ast *)
Definition convert_product_to_ast (c : cgpm) : out (list ast_primitive) :=
  match c with
  | CProd cs => oseq (map (fun c' => match c' with CDist d => Ok (convert_primitive_to_ast d) | _ => Err AttributeError end) cs)
  | _ => Err AttributeError
  end.

(** src/sample_crosscat.py:291-296 convert_view_to_ast; only a FlexibleArray has a base. *)
Definition convert_view_to_ast (c : cgpm) : out ast_view :=
  match c with
  | CMix _ div (CFlexArr _ base _ _) _ =>
      do b <- convert_product_to_ast base;
      Ok (convert_primitive_to_ast div, b)
  | _ => Err AttributeError
  end.

(** src/sample_crosscat.py:298-299 convert_crosscat_to_ast *)
Definition convert_crosscat_to_ast (c : cgpm) : out (list ast_view) :=
  match c with CProd views => oseq (map convert_view_to_ast views) | _ => Err AttributeError end.

(** src/sample_crosscat.py:303-308 convert_crosscat_to_embedded_dsl_model *)
Definition convert_crosscat_to_embedded_dsl_model (c : cgpm) : out (list view_call) :=
  do crosscat_ast <- convert_crosscat_to_ast c;
  do crosscat_core_dsl <- compile_ast_to_core_dsl crosscat_ast;
  compile_core_dsl_to_embedded_dsl crosscat_core_dsl.

(** ** Traces in the embedded DSL *)

(** A program: the model, then statements [crosscat.observe(rowid, observation)]
    (src/sample_crosscat.py:398-405, 384). *)
Definition trace_program : Type := list view_call * list (Z * row).

(** src/sample_crosscat.py:398-405 render_trace_in_embedded_dsl with
    convert_crosscat_to_embedded_dsl_observe (src/sample_crosscat.py:382-394) *)
Definition render_trace_in_embedded_dsl (c : cgpm) : out trace_program :=
  do model <- convert_crosscat_to_embedded_dsl_model c;
  do observes <- get_crosscat_observes (match c with CProd views => views | _ => [] end);
  Ok (model, List.concat observes).

(** Python's execution of a rendered trace (src/sample_crosscat.py:272, 384, 398-405): the
    model is constructed and the statements observed one after the other; what is
    constructed is dropped when an exception is raised. *)
Definition execute_trace (program : trace_program) : samp (out cgpm) :=
  match interpret_embedded_dsl (fst program) with
  | Err e => Ret (Err e)
  | Ok c =>
      let! p := observe_rows c (snd program) in
      Ret (match snd p with Ok _ => Ok (fst p) | Err e => Err e end)
  end.

(** ** Random ASTs *)

(** [round(x, 6)] (src/sample_crosscat.py:31): to the nearest multiple of 1/1000000, halves
    away from zero; only nonnegative numbers are rounded. *)
Definition round6 (q : Qc) : Qc :=
  (qz ((2 * (Qnum (this q) * 1000000) + Zpos (Qden (this q))) / (2 * Zpos (Qden (this q)))) / qz 1000000)%Qc.

(** src/sample_crosscat.py:29-31 sample_hyperparameter *)
Definition sample_hyperparameter : samp Qc := smap round6 (DrawQ (Gamma 1 1) (fun q => Ret q)).

(** The hyperparameters with the given names, drawn one after the other
    (src/sample_crosscat.py:38-56) *)
Fixpoint sample_hyperparameters (names : list string) : samp (dict string Qc) :=
  match names with
  | [] => Ret []
  | k :: names' => let! q := sample_hyperparameter in let! h := sample_hyperparameters names' in Ret ((k, q) :: h)
  end.

(** src/sample_crosscat.py:34-58 generate_random_hyperparameters *)
Definition generate_random_hyperparameters (distname : string) : samp (out (dict string Qc)) :=
  if String.eqb distname "normal" then smap Ok (sample_hyperparameters ["m"; "r"; "s"; "nu"])
  else if String.eqb distname "categorical" then smap Ok (sample_hyperparameters ["alpha"])
  else if String.eqb distname "poisson" then smap Ok (sample_hyperparameters ["a"; "b"])
  else if String.eqb distname "crp" then smap Ok (sample_hyperparameters ["alpha"])
  else Ret (Err AssertionError).

(** src/sample_crosscat.py:74-79 generate_random_row_divider; [fresh] is the next number of
    the iterator of src/sample_crosscat.py:27, which ends at 10**6. *)
Definition generate_random_row_divider (fresh : Z) : samp (out ast_primitive) :=
  if (1000000 <=? fresh)%Z then Ret (Err StopIteration)
  else sobind (generate_random_hyperparameters "crp") (fun hypers => Ret (Ok (mkAst fresh "crp" None (Some hypers)))).

(** The list of src/sample_crosscat.py:86 *)
Fixpoint generate_row_dividers (fresh : Z) (n : nat) : samp (out (list ast_primitive)) :=
  match n with
  | O => Ret (Ok [])
  | S n' =>
      sobind (generate_random_row_divider fresh) (fun d =>
      sobind (generate_row_dividers (fresh + 1) n') (fun ds => Ret (Ok (d :: ds))))
  end.

(** The list of src/sample_crosscat.py:87-90 *)
Fixpoint generate_primitives (output : Z) (distributions : list (string * option (dict string Qc))) : samp (out (list ast_primitive)) :=
  match distributions with
  | [] => Ret (Ok [])
  | dist :: distributions' =>
      sobind (generate_random_hyperparameters (fst dist)) (fun hypers =>
      sobind (generate_primitives (output + 1) distributions') (fun ps =>
      Ret (Ok (mkAst output (fst dist) (snd dist) (Some hypers) :: ps))))
  end.

(** [primitives[b]] (src/sample_crosscat.py:92); [b] is never negative. *)
Definition primitive_at (primitives : list ast_primitive) (b : Z) : out ast_primitive :=
  match nth_error primitives (Z.to_nat b) with Some p => Ok p | None => Err IndexError end.

(** src/sample_crosscat.py:81-94 generate_random_ast; of the schema only the distributions
    are used. *)
Definition generate_random_ast (fresh : Z) (distributions : list (string * option (dict string Qc))) : samp (out (list ast_view)) :=
  DrawQ (Gamma 1 1) (fun partition_alpha =>
  sobind (generate_random_partition partition_alpha (List.length distributions)) (fun partition =>
  sobind (generate_row_dividers fresh (List.length partition)) (fun row_dividers =>
  sobind (generate_primitives 0 distributions) (fun primitives =>
  Ret (oseq (map (fun p : ast_primitive * list Z =>
         do ds <- oseq (map (primitive_at primitives) (snd p)); Ok (fst p, ds))
       (combine row_dividers partition))))))).

(** ** VentureScript *)

(** src/sample_crosscat.py:416-417 get_variable_name *)
Definition get_variable_name (output : Z) : string := "var-" ++ format_d output.

(** [l[i]] with an int (src/sample_crosscat.py:421, 451) *)
Definition at_py_index {A} (l : list A) (i : Z) : out A :=
  do n <- py_index l (vz i);
  match nth_error l n with Some x => Ok x | None => Err IndexError end.

(** src/sample_crosscat.py:419-421 convert_variable_name; the schema is the list of its
    names. *)
Definition convert_variable_name (varname : string) (schema : list string) : out string :=
  match split_at "-" varname with
  | _ :: s :: _ =>
      match NilZero.int_of_string s with
      | Some i => at_py_index schema (Z.of_int i)
      | None => Err ValueError
      end
  | _ => Err IndexError
  end.

(** src/sample_crosscat.py:423-441 get_primitive_distribution *)
Definition get_primitive_distribution (d : dist) : out (string * string) :=
  let varname := get_variable_name (dist_o d) in
  match d with
  | DNrm s => Ok (varname, "make_nig_normal(" ++ format_f4 (nrm_m s) ++ ", " ++ format_f4 (nrm_r s) ++ ", " ++
                    format_f4 (nrm_s s) ++ ", " ++ format_f4 (nrm_nu s) ++ ")")
  | DPoi s => Ok (varname, "make_gamma_poisson(" ++ format_f4 (poi_a s) ++ ", " ++ format_f4 (poi_b s) ++ ")")
  | DCat s => Ok (varname, "make_symm_dirichlet_categorical(" ++ format_d (cat_k s) ++ ", " ++ format_f4 (cat_alpha s) ++ ")")
  | _ => Err AssertionError
  end.

(** src/sample_crosscat.py:443-444 get_product_distributions *)
Definition get_product_distributions (c : cgpm) : out (list (string * string)) :=
  match c with
  | CProd cs => oseq (map (fun c' => match c' with CDist d => get_primitive_distribution d | _ => Err AttributeError end) cs)
  | _ => Err AttributeError
  end.

(** src/sample_crosscat.py:446-453 get_array_distributions; [tables] is None for the 0 that
    get_crp_tables_weights returns instead of a list (src/sample_crosscat.py:462). *)
Definition get_array_distributions (arr : cgpm) (tables : option (list Z)) : out (list (list (string * string))) :=
  match arr with
  | CFlexArr _ base [] _ => omap (fun d => [d]) (get_product_distributions base)
  | CFlexArr _ _ cs _ =>
      match tables with
      | None => Err TypeError
      | Some ts => oseq (map (fun t => do c <- dget (vz t) cs; get_product_distributions c) ts)
      end
  | CFinArr _ [] _ => Err AttributeError
  | CFinArr _ cs _ =>
      match tables with
      | None => Err TypeError
      | Some ts => oseq (map (fun t => do c <- at_py_index cs t; get_product_distributions c) ts)
      end
  | _ => Err AttributeError
  end.

(** src/sample_crosscat.py:455-457 tranpose_product_list *)
Definition tranpose_product_list (products : list (list (string * string))) : out (list (list (string * string))) :=
  match products with
  | [] => Err IndexError
  | p :: _ =>
      oseq (map (fun i => oseq (map (fun prod : list (string * string) => match nth_error prod i with Some x => Ok x | None => Err IndexError end) products))
             (seq 0 (List.length p)))
  end.

(** src/sample_crosscat.py:459-466 get_crp_tables_weights; only a CRP has a dict of counts. *)
Definition get_crp_tables_weights (d : dist) : out (option (list Z) * list Qc) :=
  match d with
  | DCrp s =>
      match zsort (keys (crp_counts s)) with
      | [] => Ok (None, [1%Qc])
      | tables =>
          do counts <- oseq (map (fun t => dget t (crp_counts s)) tables);
          let sum_counts := zsum counts in
          if (sum_counts =? 0)%Z then Err ZeroDivisionError
          else Ok (Some tables, map (fun c => qz c / qz sum_counts)%Qc counts)
      end
  | _ => Err AttributeError
  end.

(** VSView (src/sample_crosscat.py:409-414); columns stand for their names in the observed
    data. *)
Record vs_view := mkVSView {
  vs_weights : list Qc;
  vs_distributions : list (list (string * string));
  vs_observes_crp : list (Z * Z);
  vs_observes_data : list (Z * Z * val) }.

(** src/sample_crosscat.py:496-515 get_view_representation *)
Definition get_view_representation (view : cgpm) : out vs_view :=
  match view with
  | CMix _ div arr _ =>
      do tw <- get_crp_tables_weights div;
      do product_distributions <- get_array_distributions arr (fst tw);
      do primitive_distributions <- tranpose_product_list product_distributions;
      do _ <- oassert (forallb (fun p => Nat.eqb (List.length p) (List.length (snd tw))) primitive_distributions);
      do observes_crp <- get_view_observes_crp_vs view;
      do observes_data <- get_view_observes_data_vs view;
      Ok (mkVSView (snd tw) primitive_distributions observes_crp observes_data)
  | _ => Err AttributeError
  end.

(** src/sample_crosscat.py:517-524 get_variables_to_view_assignment *)
Definition get_variables_to_view_assignment (c : cgpm) : out (list (string * nat)) :=
  let distribution_outputs := zsort (get_distribution_outputs c) in
  do view_idx <- oseq (map (fun output => get_cgpm_current_view_index c [output]) distribution_outputs);
  Ok (map (fun p : Z * nat => (get_variable_name (fst p), snd p)) (combine distribution_outputs view_idx)).

(** src/sample_crosscat.py:526-529 convert_trace_to_venturescript_ast *)
Definition convert_trace_to_venturescript_ast (c : cgpm) : out (list vs_view * list (string * nat)) :=
  match c with
  | CProd views =>
      do vs_views <- oseq (map get_view_representation views);
      do variable_to_view <- get_variables_to_view_assignment c;
      Ok (vs_views, variable_to_view)
  | _ => Err AttributeError
  end.

(** [','.join(l)] (src/sample_crosscat.py:568) *)
Fixpoint join_commas (l : list string) : string :=
  match l with
  | [] => ""
  | [s] => s
  | s :: l' => s ++ "," ++ join_commas l'
  end.

(** The argument of simplex for one view (src/sample_crosscat.py:568-569) *)
Definition simplex_text (weights : list Qc) : string := "simplex(" ++ join_commas (map format_f4 weights) ++ ")".
