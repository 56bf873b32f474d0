(** Text of the Core DSL: lines, and reading what was written. *)
From Coq Require Import List ZArith QArith Qcanon Reals Bool String Ascii DecimalString DecimalZ Lia Lra.
From Verif Require Import Base Xr Samp Lgamma Prims Cgpm Trans Views Crosscat Sample Lib Dsl SpecDsl DslThm.
Import ListNotations.
Local Open Scope string_scope.
Local Open Scope Z_scope.

(** ** Words *)

Definition is_letter (a : ascii) : bool := Nat.leb 97 (nat_of_ascii a) && Nat.leb (nat_of_ascii a) 122.
Definition is_word_char (a : ascii) : bool := is_letter a || is_digit a || Nat.eqb (nat_of_ascii a) 95.

Lemma letter_bool : forall a, letter a -> is_letter a = true.
Proof. intros a L. unfold is_letter, letter in *. apply andb_true_intro. split; apply Nat.leb_le; lia. Qed.

Lemma word_char_bool : forall a, word_char a -> is_word_char a = true.
Proof.
  intros a [L|[L|L]]; unfold is_word_char.
  - now rewrite (letter_bool _ L).
  - replace (is_digit a) with true; [now rewrite orb_true_r|]. symmetry. apply andb_true_intro. split; apply Nat.leb_le; lia.
  - rewrite L. now rewrite orb_true_r.
Qed.

Lemma word_chars : forall s, word s -> every is_word_char s = true.
Proof.
  intros s [(a & s' & -> & L & W) _]. cbn. unfold is_word_char at 1. rewrite (letter_bool _ L). cbn.
  revert W. clear. induction s' as [|b s' IH]; intros W; [reflexivity|]. cbn.
  rewrite (word_char_bool b) by (apply W; now left). cbn. apply IH. intros c C. apply W. now right.
Qed.

Lemma word_char_other : forall c a, is_word_char c = false -> is_word_char a = true -> other c a = true.
Proof. intros c a C A. unfold other. destruct (Ascii.eqb_spec a c) as [->|]; [congruence|reflexivity]. Qed.

Lemma word_other : forall c s, is_word_char c = false -> word s -> every (other c) s = true.
Proof. intros c s C W. eapply every_imp; [|apply word_chars, W]. intros a. now apply word_char_other. Qed.

Lemma format_d_other : forall c z, is_numeral c = false -> every (other c) (format_d z) = true.
Proof. intros c z C. eapply every_imp; [|apply format_d_numeral]. intros a. now apply numeral_other. Qed.

(** A text that starts neither with a blank nor with a dash. *)
Definition starts (s : string) : Prop := exists a s', s = String a s' /\ Ascii.eqb a " " = false /\ Ascii.eqb a "-" = false.

Lemma word_starts : forall s t, word s -> starts (s ++ t).
Proof.
  intros s t [(a & s' & -> & L & _) _]. exists a, (s' ++ t). split; [reflexivity|].
  unfold letter in L. split; apply Ascii.eqb_neq; intros ->; cbn in L; lia.
Qed.

Lemma starts_not_item : forall s, starts s -> item_text s = None.
Proof.
  intros s (a & s' & -> & _ & D). unfold item_text.
  destruct a as [[] [] [] [] [] [] [] []]; try reflexivity. discriminate D.
Qed.

Lemma indentation_starts : forall i s, starts s \/ (exists s', s = String "-" s') ->
  indentation (core_compile_indent i ++ s) = (i, s).
Proof.
  induction i as [|i IH]; intros s S.
  - change (core_compile_indent 0 ++ s) with s.
    destruct S as [(a & s' & -> & B & _)|[s' ->]]; [|reflexivity].
    destruct a as [[] [] [] [] [] [] [] []]; try reflexivity. discriminate B.
  - change (core_compile_indent (Datatypes.S i) ++ s) with (String " " (core_compile_indent i ++ s)). cbn [indentation].
    rewrite IH; auto.
Qed.

(** ** Lines *)

Definition line (l : nat * string) : string := core_compile_indent (fst l) ++ snd l ++ nl.
Definition text_of (ls : list (nat * string)) : string := write_all (map line ls).

(** A line that reads as it is written. *)
Definition proper_line (l : nat * string) : Prop :=
  every (other newline) (snd l) = true /\ (starts (snd l) \/ exists s, snd l = String "-" s).

Lemma write_all_app : forall l m, write_all (l ++ m)%list = write_all l ++ write_all m.
Proof. induction l as [|a l IH]; intros m; [reflexivity|]. cbn [write_all fold_right app]. unfold write_all in IH. now rewrite IH, app_assoc_s. Qed.

Lemma text_of_app : forall l m, text_of (l ++ m) = text_of l ++ text_of m.
Proof. intros l m. unfold text_of. now rewrite map_app, write_all_app. Qed.

Lemma text_of_cons : forall l ls, text_of (l :: ls) = core_compile_indent (fst l) ++ snd l ++ nl ++ text_of ls.
Proof. intros l ls. unfold text_of, line. cbn [map write_all fold_right]. rewrite !app_assoc_s. reflexivity. Qed.

Lemma indent_other : forall i, every (other newline) (core_compile_indent i) = true.
Proof. induction i as [|i IH]; [reflexivity|]. cbn. exact IH. Qed.

Definition lines_of (text : string) : list (nat * string) :=
  map indentation (filter (fun l => negb (String.eqb l "")) (split_at newline text)).

Lemma lines_of_text : forall ls, Forall proper_line ls -> lines_of (text_of ls) = ls.
Proof.
  intros ls F. induction F as [|[i t] ls [O S] F IH]; [reflexivity|].
  unfold lines_of. rewrite text_of_cons. cbn [fst snd] in *.
  rewrite <- app_assoc_s. change (nl ++ text_of ls) with (String newline (text_of ls)).
  rewrite split_first by (rewrite every_app, indent_other; exact O).
  cbn [filter]. replace (String.eqb (core_compile_indent i ++ t) "") with false.
  - cbn [negb map]. rewrite indentation_starts by exact S. f_equal. exact IH.
  - symmetry. apply String.eqb_neq. intros E.
    destruct i; [|discriminate E]. cbn in E. destruct S as [(a & s & E' & _)|[s E']]; congruence.
Qed.

(** ** What the reader makes of lines *)

(** The lines [ls] hold, at the depth [i], the value and then [rest]; the fuel is given. *)
Definition reads_entries i ls d rest := forall n, (3 * List.length ls + 1 <= n)%nat -> load_entries n i ls = Ok (d, rest).
Definition reads_items i ls y rest := forall n, (3 * List.length ls + 2 <= n)%nat -> load_items n i ls = Ok (y, rest).
Definition reads_node i ls y rest := forall n, (3 * List.length ls + 3 <= n)%nat -> load_node n i ls = Ok (y, rest).

(** The next line is not deeper than [i]; is less deep than [i]. *)
Definition upto (i : nat) (ls : list (nat * string)) : Prop := match ls with [] => True | l :: _ => (fst l <= i)%nat end.
Definition below (i : nat) (ls : list (nat * string)) : Prop := match ls with [] => True | l :: _ => (fst l < i)%nat end.

Lemma below_upto : forall i j ls, below i ls -> (i <= j + 1)%nat -> upto j ls.
Proof. intros i j [|l ls]; cbn; lia. Qed.
Lemma upto_below : forall i j ls, upto i ls -> (i < j)%nat -> below j ls.
Proof. intros i j [|l ls]; cbn; lia. Qed.

Ltac fuel n H := destruct n as [|n]; [cbn [List.length] in H; lia|].

Lemma entries_stop : forall i ls, below i ls -> reads_entries i ls [] ls.
Proof.
  intros i ls B n N. fuel n N. destruct ls as [|[j t] ls]; [reflexivity|]. cbn [load_entries].
  cbn in B. now rewrite (proj2 (Nat.eqb_neq j i)) by lia.
Qed.

Lemma items_stop : forall i ls, below i ls -> reads_items i ls [] ls.
Proof.
  intros i ls B n N. fuel n N. destruct ls as [|[j t] ls]; [reflexivity|]. cbn [load_items].
  cbn in B. now rewrite (proj2 (Nat.eqb_neq j i)) by lia.
Qed.

Lemma node_null : forall i ls, below i ls -> reads_node i ls YNull ls.
Proof.
  intros i ls B n N. fuel n N. destruct ls as [|[j t] ls]; [reflexivity|]. cbn [load_node].
  cbn in B. now rewrite (proj2 (Nat.ltb_lt j i)) by lia.
Qed.

Lemma entries_scalar : forall i k v t ls d rest, item_text t = None -> split_key t = Some (k, v) -> v <> "" ->
  reads_entries i ls d rest -> reads_entries i ((i, t) :: ls) (add_entry k (scalar v) d) rest.
Proof.
  intros i k v t ls d rest T K V R n N. fuel n N. cbn [load_entries]. rewrite Nat.eqb_refl, T, K.
  destruct v as [|a v]; [congruence|]. rewrite R by (cbn [List.length] in N; lia). reflexivity.
Qed.

Lemma entries_block : forall i k t ls y mid d rest, item_text t = None -> split_key t = Some (k, "") ->
  reads_node (i + 1) ls y mid -> (List.length mid <= List.length ls)%nat ->
  reads_entries i mid d rest -> reads_entries i ((i, t) :: ls) (add_entry k y d) rest.
Proof.
  intros i k t ls y mid d rest T K RN L R n N. fuel n N. cbn [load_entries]. rewrite Nat.eqb_refl, T, K.
  cbn [List.length] in N. rewrite RN by lia. cbn [obind fst snd]. rewrite R by lia. reflexivity.
Qed.

Lemma node_map : forall i j t ls d rest, (i <= j)%nat -> item_text t = None ->
  reads_entries j ((j, t) :: ls) d rest -> reads_node i ((j, t) :: ls) (YMap d) rest.
Proof.
  intros i j t ls d rest L T R n N. fuel n N. cbn [load_node]. rewrite (proj2 (Nat.ltb_ge j i)), T by lia.
  rewrite R by lia. reflexivity.
Qed.

Lemma node_seq : forall i j t t' ls y rest, (i <= j)%nat -> item_text t = Some t' ->
  reads_items j ((j, t) :: ls) y rest -> reads_node i ((j, t) :: ls) (YSeq y) rest.
Proof.
  intros i j t t' ls d rest L T R n N. fuel n N. cbn [load_node]. rewrite (proj2 (Nat.ltb_ge j i)), T by lia.
  rewrite R by lia. reflexivity.
Qed.

Lemma items_cons : forall i t t' ls d mid y rest, item_text t = Some t' ->
  reads_entries (i + 2) ((i + 2, t')%nat :: ls) d mid -> (List.length mid <= List.length ls)%nat ->
  reads_items i mid y rest -> reads_items i ((i, t) :: ls) (YMap d :: y) rest.
Proof.
  intros i t t' ls d mid y rest T R L RI n N. fuel n N. cbn [load_items]. rewrite Nat.eqb_refl, T.
  cbn [List.length] in N. rewrite R by (cbn [List.length]; lia). cbn [obind fst snd]. rewrite RI by lia. reflexivity.
Qed.

(** ** Keys *)

(** [k] with [': ' v], or with [':'] at the end of the line. *)
Lemma split_key_colon : forall k v, every (other ":") k = true -> split_key (k ++ ": " ++ v) = Some (k, v).
Proof.
  induction k as [|a k IH]; intros v E; [reflexivity|].
  cbn [every] in E. apply andb_prop in E as [E1 E2]. unfold other in E1. apply negb_true_iff in E1.
  change (String a k ++ ": " ++ v) with (String a (k ++ ": " ++ v)). cbn [split_key]. now rewrite E1, IH.
Qed.

Lemma split_key_end : forall k, every (other ":") k = true -> split_key (k ++ ":") = Some (k, "").
Proof.
  induction k as [|a k IH]; intros E; [reflexivity|].
  cbn [every] in E. apply andb_prop in E as [E1 E2]. unfold other in E1. apply negb_true_iff in E1.
  change (String a k ++ ":") with (String a (k ++ ":")). cbn [split_key]. now rewrite E1, IH.
Qed.

(** A colon before something that is not a blank belongs to the key. *)
Lemma split_key_inner : forall k b s, every (other ":") k = true -> Ascii.eqb b " " = false ->
  split_key (k ++ String ":" (String b s)) = option_map (fun p => (k ++ String ":" (fst p), snd p)) (split_key (String b s)).
Proof.
  induction k as [|a k IH]; intros b s E B.
  - change ("" ++ String ":" (String b s)) with (String ":" (String b s)).
    assert (X : split_key (String ":" (String b s)) = option_map (fun p => (String ":" (fst p), snd p)) (split_key (String b s))).
    { destruct b as [[] [] [] [] [] [] [] []]; try reflexivity. discriminate B. }
    rewrite X. now destruct (split_key (String b s)) as [[? ?]|].
  - cbn [every] in E. apply andb_prop in E as [E1 E2]. unfold other in E1. apply negb_true_iff in E1.
    change (String a k ++ String ":" (String b s)) with (String a (k ++ String ":" (String b s))).
    assert (X : split_key (String a (k ++ String ":" (String b s))) =
                option_map (fun p => (String a (fst p), snd p)) (split_key (k ++ String ":" (String b s)))).
    { cbn [split_key]. now rewrite E1. }
    rewrite X, IH by auto. now destruct (split_key (String b s)) as [[? ?]|].
Qed.

Lemma format_d_first : forall z, exists a s, format_d z = String a s /\ Ascii.eqb a " " = false.
Proof.
  intros z. destruct (format_d_nonempty z) as (a & s & E). exists a, s. split; auto.
  assert (N := format_d_numeral z). rewrite E in N. cbn in N. apply andb_prop in N as [N _].
  apply Ascii.eqb_neq. intros ->. discriminate N.
Qed.

Lemma split_key_primitive : forall p, word (ast_name p) -> split_key (primitive_key p ++ ":") = Some (primitive_key p, "").
Proof.
  intros p W. unfold primitive_key. destruct (format_d_first (ast_output p)) as (b & s & E & B).
  assert (O : every (other ":") (format_d (ast_output p)) = true) by (apply format_d_other; reflexivity).
  rewrite E in *.
  replace ((ast_name p ++ "{id:" ++ String b s ++ "}") ++ ":") with ((ast_name p ++ "{id") ++ String ":" (String b (s ++ "}:"))).
  2: { rewrite !app_assoc_s. cbn. rewrite ?app_assoc_s. reflexivity. }
  rewrite split_key_inner; auto.
  2: { rewrite every_app. rewrite word_other; auto. }
  replace (String b (s ++ "}:")) with (String b (s ++ "}") ++ ":").
  2: { cbn. rewrite app_assoc_s. reflexivity. }
  rewrite split_key_end.
  2: { change (String b (s ++ "}")) with (String b s ++ "}"). rewrite every_app, O. reflexivity. }
  cbn [option_map fst snd]. rewrite !app_assoc_s. reflexivity.
Qed.

(** The name and the column of a key. *)
Lemma remove_id_app : forall s t, every (other ":") s = true -> remove_id (s ++ "{id:" ++ t) = s ++ "{" ++ remove_id t.
Proof.
  assert (K : forall a r, Ascii.eqb a "i" = false -> remove_id (String a r) = String a (remove_id r)).
  { intros a r A. destruct a as [[] [] [] [] [] [] [] []]; try reflexivity. discriminate A. }
  assert (K2 : forall a r, Ascii.eqb a "d" = false -> remove_id (String "i" (String a r)) = String "i" (remove_id (String a r))).
  { intros a r A. destruct a as [[] [] [] [] [] [] [] []]; try reflexivity. discriminate A. }
  assert (K3 : forall a r, Ascii.eqb a ":" = false -> remove_id (String "i" (String "d" (String a r))) = String "i" (remove_id (String "d" (String a r)))).
  { intros a r A. destruct a as [[] [] [] [] [] [] [] []]; try reflexivity. discriminate A. }
  induction s as [|a s IH]; intros t E; [reflexivity|].
  cbn [every] in E. apply andb_prop in E as [E1 E2].
  change (String a s ++ "{id:" ++ t) with (String a (s ++ "{id:" ++ t)).
  change (String a s ++ "{" ++ remove_id t) with (String a (s ++ "{" ++ remove_id t)).
  rewrite <- IH by auto.
  destruct (Ascii.eqb_spec a "i") as [->|NI]; [|apply K; now apply Ascii.eqb_neq].
  destruct s as [|b s]; [reflexivity|].
  change (String b s ++ "{id:" ++ t) with (String b (s ++ "{id:" ++ t)).
  destruct (Ascii.eqb_spec b "d") as [->|ND]; [|apply K2; now apply Ascii.eqb_neq].
  destruct s as [|c s]; [reflexivity|].
  change (String c s ++ "{id:" ++ t) with (String c (s ++ "{id:" ++ t)).
  apply K3. cbn [every] in E2. apply andb_prop in E2 as [_ E2]. apply andb_prop in E2 as [E2 _].
  unfold other in E2. now apply negb_true_iff in E2.
Qed.

Lemma remove_id_none : forall s, every (other ":") s = true -> remove_id s = s.
Proof.
  assert (K : forall a r, Ascii.eqb a "i" = false -> remove_id (String a r) = String a (remove_id r)).
  { intros a r A. destruct a as [[] [] [] [] [] [] [] []]; try reflexivity. discriminate A. }
  assert (K2 : forall a r, Ascii.eqb a "d" = false -> remove_id (String "i" (String a r)) = String "i" (remove_id (String a r))).
  { intros a r A. destruct a as [[] [] [] [] [] [] [] []]; try reflexivity. discriminate A. }
  assert (K3 : forall a r, Ascii.eqb a ":" = false -> remove_id (String "i" (String "d" (String a r))) = String "i" (remove_id (String "d" (String a r)))).
  { intros a r A. destruct a as [[] [] [] [] [] [] [] []]; try reflexivity. discriminate A. }
  induction s as [|a s IH]; intros E; [reflexivity|].
  cbn [every] in E. apply andb_prop in E as [E1 E2]. specialize (IH E2). rewrite <- IH at 2.
  destruct (Ascii.eqb_spec a "i") as [->|NI]; [|apply K; now apply Ascii.eqb_neq].
  destruct s as [|b s]; [reflexivity|].
  destruct (Ascii.eqb_spec b "d") as [->|ND]; [|apply K2; now apply Ascii.eqb_neq].
  destruct s as [|c s]; [reflexivity|].
  apply K3. cbn [every] in E2. apply andb_prop in E2 as [_ E2]. apply andb_prop in E2 as [E2 _].
  unfold other in E2. now apply negb_true_iff in E2.
Qed.

Lemma key_parts : forall p, word (ast_name p) ->
  embedded_get_distname_output (primitive_key p) = Ok (ast_name p, ast_output p).
Proof.
  intros p W. unfold embedded_get_distname_output, primitive_key.
  change (ast_name p ++ "{id:" ++ format_d (ast_output p) ++ "}") with (ast_name p ++ String "{" ("id:" ++ format_d (ast_output p) ++ "}")) at 1.
  rewrite (split_first "{" (ast_name p) ("id:" ++ format_d (ast_output p) ++ "}")) by (apply word_other; auto).
  replace (split_at "{" ("id:" ++ format_d (ast_output p) ++ "}")) with ["id:" ++ format_d (ast_output p) ++ "}"].
  2: { symmetry. apply split_none. rewrite !every_app, format_d_other; reflexivity. }
  cbn [List.length Nat.ltb Nat.leb oassert obind].
  rewrite !remove_char_app.
  rewrite (remove_char_none "}" (ast_name p)) by (apply word_other; auto).
  rewrite (remove_char_none "}" (format_d (ast_output p))) by (apply format_d_other; reflexivity).
  change (remove_char "}" "{id:") with "{id:". change (remove_char "}" "}") with "". rewrite app_nil_s.
  rewrite remove_id_app by (apply word_other; auto).
  rewrite remove_id_none by (apply format_d_other; reflexivity).
  change ("{" ++ format_d (ast_output p)) with (String "{" (format_d (ast_output p))).
  rewrite split_first by (apply word_other; auto).
  rewrite split_none by (apply format_d_other; reflexivity).
  rewrite int_of_format_d. now rewrite DecimalZ.of_to.
Qed.
