(** LinearRegression (src/linreg.py) and RandomForest (src/forest.py): models of one column
    given inputs.

    Simplifications: inputs are given as a dictionary (None, which fails in [inputs.get] and
    in [inputs[i]], is not modelled); a whole number stands for a Python integer (a float
    equal to one, e.g. 1.0, cannot index the list of codes at src/linreg.py:284 and raises
    TypeError); reals stand for floats; levels are integers or None. The classifier of the
    forest (sklearn) and its pickled form are abstract. *)
From Coq Require Import List ZArith QArith Qcanon Reals Bool String.
From Verif Require Import Base Xr Samp Lgamma Prims Cgpm Meta.
Import ListNotations.
Local Open Scope Z_scope.

(** ** The table both keep *)

(** The attributes set at src/linreg.py:65-79, src/forest.py:45-60: output, inputs,
    distargs['levels'], N, data, data_yraw, data_ydum. *)
Record table := mkTable {
  t_out : Z;
  t_ins : list Z;
  t_levels : list (option Z);
  t_N : Z;
  t_data : dict Z val;
  t_yraw : dict Z (list (option val));
  t_ydum : dict Z (list val)
}.

(** [if l] for an entry of distargs['levels'] (src/linreg.py:72-73): None and 0 are false. *)
Definition truthy (l : option Z) : option Z :=
  match l with Some 0 => None | _ => l end.

(** src/linreg.py:72, src/forest.py:53 self.levels: the inputs with levels *)
Definition level_dict (ins : list Z) (levels : list (option Z)) : dict Z Z :=
  dict_of (flat_map (fun p => match truthy (snd p) with Some l => [(fst p, l)] | None => [] end) (combine ins levels)).

(** src/linreg.py:73, src/forest.py:54 self.ps *)
Definition widths (levels : list (option Z)) : list Z :=
  map (fun l => match truthy l with Some n => n - 1 | None => 1 end) levels.

(** src/linreg.py:74, src/forest.py:55 self.p *)
Definition dimension (t : table) : Z := 1 + fold_right Z.add 0 (widths (t_levels t)).

(** src/linreg.py:62-79, src/forest.py:42-60 the assertions and attributes of __init__ *)
Definition new_table (outs ins : list Z) (levels : list (option Z)) : out table :=
  match outs with
  | [o] =>
      do _ <- oassert (negb (Nat.eqb (List.length ins) 0));
      do _ <- oassert (negb (memb o ins));
      do _ <- oassert (Nat.eqb (List.length levels) (List.length ins));
      Ok (mkTable o ins levels 0 [] [] [])
  | _ => Err AssertionError
  end.

(** [0 <= val < levels] (src/linreg.py:281, src/forest.py:224); False for nan *)
Definition in_range (x : val) (levels : Z) : bool :=
  match x with
  | VNan => false
  | VQ q => if Qclt_le_dec q (qz 0) then false else if Qclt_le_dec q (qz levels) then true else false
  end.

(** [[0]*(levels-1)] with a 1 at the given place, if any (src/linreg.py:282-284,
    src/forest.py:223-227) *)
Definition coded (levels : Z) (at_ : option nat) : list val :=
  let zeros := repeat (vz 0) (Z.to_nat (levels - 1)) in
  match at_ with Some n => set_nth n (vz 1) zeros | None => zeros end.

(** src/linreg.py:277-285 dummy_code_one *)
Definition dummy_code_linreg (codes : dict Z Z) (i : Z) (x : val) : out (list val) :=
  match lookup i codes with
  | None => Ok [x]
  | Some levels =>
      do _ <- oassert (in_range x levels);
      match x with
      | VNan => Err AssertionError
      | VQ q =>
          if Qclt_le_dec q (qz (levels - 1)) then
            if is_int q then Ok (coded levels (Some (Z.to_nat (trunc q)))) else Err TypeError
          else Ok (coded levels None)
      end
  end.

(** src/forest.py:215-228 dummy_code_one *)
Definition dummy_code_forest (codes : dict Z Z) (i : Z) (x : val) : out (list val) :=
  match lookup i codes with
  | None => Ok [x]
  | Some levels =>
      match x with
      | VNan => Ok (repeat VNan (Z.to_nat (levels - 1)))
      | VQ q =>
          do _ <- oassert (in_range x levels);
          do _ <- oassert (is_int q);
          if Qclt_le_dec q (qz (levels - 1)) then Ok (coded levels (Some (Z.to_nat (trunc q))))
          else Ok (coded levels None)
      end
  end.

(** src/linreg.py:192-198, src/forest.py:171-177 process_inputs, for the given coding of one
    input *)
Definition process_inputs (code : dict Z Z -> Z -> val -> out (list val)) (t : table) (I : row) : out (list val) :=
  do ys <- oseq (map (fun i => do x <- dget i I; code (level_dict (t_ins t) (t_levels t)) i x) (t_ins t));
  let y_dum := List.concat ys in
  do _ <- oassert (Z.of_nat (List.length y_dum) =? dimension t - 1);
  Ok (vz 1 :: y_dum).

(** src/linreg.py:85-94, src/forest.py:64-73 observe *)
Definition table_observe (code : dict Z Z -> Z -> val -> out (list val)) (t : table) (rid : Z) (obs I : row) : table * out unit :=
  if dmem rid (t_data t) then (t, Err AssertionError)
  else if negb (eqb (keys obs) [t_out t]) then (t, Err AssertionError)
  else
    match dget (t_out t) obs with
    | Err e => (t, Err e)
    | Ok x =>
        match process_inputs code t I with
        | Err e => (t, Err e)
        | Ok y_dum =>
            (mkTable (t_out t) (t_ins t) (t_levels t) (t_N t + 1) (dset rid x (t_data t))
               (dset rid (map (fun i => lookup i I) (t_ins t)) (t_yraw t)) (dset rid y_dum (t_ydum t)), Ok tt)
        end
    end.

(** src/linreg.py:96-100, src/forest.py:75-79 unobserve. The last line calls
    [dict(zip(self.inputs), y_raw)]: dict takes at most one argument. *)
Definition table_unobserve (t : table) (rid : Z) : table * out (row * row) :=
  match lookup rid (t_data t) with
  | None => (t, Err KeyError)
  | Some _ =>
      let t1 := mkTable (t_out t) (t_ins t) (t_levels t) (t_N t) (ddel rid (t_data t)) (t_yraw t) (t_ydum t) in
      match lookup rid (t_yraw t) with
      | None => (t1, Err KeyError)
      | Some _ =>
          let t2 := mkTable (t_out t) (t_ins t) (t_levels t) (t_N t) (ddel rid (t_data t)) (ddel rid (t_yraw t)) (t_ydum t) in
          match lookup rid (t_ydum t) with
          | None => (t2, Err KeyError)
          | Some _ =>
              (mkTable (t_out t) (t_ins t) (t_levels t) (t_N t) (ddel rid (t_data t)) (ddel rid (t_yraw t)) (ddel rid (t_ydum t)),
               Err TypeError)
          end
      end
  end.

(** src/linreg.py:103-106, src/forest.py:82-85: the checks that open logpdf, and the value
    asked about *)
Definition table_target (t : table) (rid : option Z) (T C : row) : out val :=
  do _ <- oassert (negb (omem rid (t_data t)));
  do _ <- oassert (match C with [] => true | _ => false end);
  do _ <- oassert (eqb (keys T) [t_out t]);
  dget (t_out t) T.

(** ** Matrices (numpy.dot, numpy.transpose, numpy.linalg.inv and det, as called at
    src/linreg.py:229-255) *)

(** numpy.dot of two vectors (src/linreg.py:249-254) *)
Definition dot (u v : list R) : R := rsum (map (fun p => fst p * snd p)%R (combine u v)).
(** A column of a matrix given by rows (numpy.transpose, src/linreg.py:242) *)
Definition column (X : list (list R)) (j : nat) : list R := map (fun r => nth j r 0%R) X.
(** numpy.transpose of a matrix with [p] columns (src/linreg.py:242) *)
Definition transposed (p : nat) (X : list (list R)) : list (list R) := map (column X) (seq 0 p).
(** numpy.dot of a matrix and a vector (src/linreg.py:244-254) *)
Definition mat_vec (A : list (list R)) (v : list R) : list R := map (fun r => dot r v) A.
(** numpy.dot of two matrices, the second with [p] columns (src/linreg.py:243) *)
Definition mat_mul (p : nat) (A B : list (list R)) : list (list R) := map (fun r => map (fun j => dot r (column B j)) (seq 0 p)) A.
(** Sums of vectors and of matrices (src/linreg.py:244-247) *)
Definition vec_add (u v : list R) : list R := map (fun p => fst p + snd p)%R (combine u v).
(** Sum of two matrices (src/linreg.py:245, 247) *)
Definition mat_add (A B : list (list R)) : list (list R) := map (fun p => vec_add (fst p) (snd p)) (combine A B).

(** A list without its n-th item (used to define the determinant of src/linreg.py:231). *)
Definition drop_nth {A} (n : nat) (l : list A) : list A := firstn n l ++ skipn (S n) l.
(** A matrix without a row and a column (used to define [determinant], src/linreg.py:231). *)
Definition minor (i j : nat) (A : list (list R)) : list (list R) := map (drop_nth j) (drop_nth i A).
(** The sign of a cofactor (used to define [determinant], src/linreg.py:231). *)
Definition sign (n : nat) : R := if Nat.even n then 1%R else (-1)%R.

(** numpy.linalg.det (src/linreg.py:231) by expansion along the first row; the first argument is
    the number of rows. *)
Fixpoint determinant (n : nat) (A : list (list R)) : R :=
  match n with
  | O => 1%R
  | S n' => rsum (map (fun j => sign j * nth j (nth 0 A []) 0 * determinant n' (minor 0 j A))%R (seq 0 n))
  end.

(** numpy.linalg.inv (src/linreg.py:236, 241, 245): LinAlgError for a singular matrix, else the
    transposed cofactors over the determinant. *)
Definition inverse (A : list (list R)) : out (list (list R)) :=
  let n := List.length A in
  let d := determinant n A in
  if Req_EM_T d 0 then Err LinAlgError
  else Ok (map (fun i => map (fun j => sign (i + j) * determinant (n - 1) (minor j i A) / d)%R (seq 0 n)) (seq 0 n)).

(** ** LinearRegression *)

(** src/linreg.py:55-83: the table and the hyperparameters a, b, mu, V *)
Record linreg := mkLinreg {
  lr_table : table;
  lr_a : R;
  lr_b : R;
  lr_mu : list R;
  lr_V : list (list R)
}.

(** numpy.eye (src/linreg.py:83) *)
Definition eye (p : nat) : list (list R) := map (fun i => map (fun j => if Nat.eqb i j then 1%R else 0%R) (seq 0 p)) (seq 0 p).

(** src/linreg.py:55-83 __init__ with the given hyperparameters, None where absent *)
Definition new_linreg (outs ins : list Z) (levels : list (option Z)) (a b : option R) (mu : option (list R)) (V : option (list (list R))) : out linreg :=
  do t <- new_table outs ins levels;
  let p := Z.to_nat (dimension t) in
  Ok (mkLinreg t (match a with Some a => a | None => 1%R end) (match b with Some b => b | None => 1%R end)
        (match mu with Some mu => mu | None => repeat 0%R p end) (match V with Some V => V | None => eye p end)).

(** src/linreg.py:85-94 observe *)
Definition linreg_observe (g : linreg) (rid : Z) (obs I : row) : linreg * out unit :=
  let (t, r) := table_observe dummy_code_linreg (lr_table g) rid obs I in
  (mkLinreg t (lr_a g) (lr_b g) (lr_mu g) (lr_V g), r).

(** src/linreg.py:96-100 unobserve *)
Definition linreg_unobserve (g : linreg) (rid : Z) : linreg * out (row * row) :=
  let (t, r) := table_unobserve (lr_table g) rid in
  (mkLinreg t (lr_a g) (lr_b g) (lr_mu g) (lr_V g), r).

(** A posterior (src/linreg.py:255): a, b, mu and the inverse of V *)
Record posterior := mkPosterior { po_a : R; po_b : R; po_mu : list R; po_Vinv : list (list R) }.

(** numpy.asarray of the data (src/linreg.py:238); None if some number is missing (nan) *)
Definition reals (l : list val) : option (list R) :=
  fold_right (fun x r => match x, r with VQ q, Some r => Some (qr q :: r) | _, _ => None end) (Some []) l.
(** The same for a list of vectors (src/linreg.py:238). *)
Definition matrix (Y : list (list val)) : option (list (list R)) :=
  fold_right (fun y r => match reals y, r with Some v, Some r => Some (v :: r) | _, _ => None end) (Some []) Y.

(** src/linreg.py:233-255 posterior_hypers. [Ok None]: the result is nan because some datum is
    (numpy may instead fail to invert a matrix with nans; not modelled). *)
Definition posterior_hypers (N : Z) (Y : list (list val)) (x : list val) (a b : R) (mu : list R) (V : list (list R)) : out (option posterior) :=
  if N =? 0 then
    do _ <- oassert (Nat.eqb (List.length x) (List.length Y) && Nat.eqb (List.length Y) 0);
    do Vi <- inverse V;
    Ok (Some (mkPosterior a b mu Vi))
  else
    let p := List.length mu in
    do _ <- oassert ((Z.of_nat (List.length Y) =? N) && forallb (fun y => Nat.eqb (List.length y) p) Y);
    do _ <- oassert (Z.of_nat (List.length x) =? N);
    do Vi <- inverse V;
    match matrix Y, reals x with
    | Some X, Some y =>
        let XT := transposed p X in
        let Vn_inv := mat_add Vi (mat_mul p XT X) in
        do Vn <- inverse Vn_inv;
        let mun := mat_vec Vn (vec_add (mat_vec Vi mu) (mat_vec XT y)) in
        let an := (a + IZR N / 2)%R in
        let bn := (b + / 2 * (dot mu (mat_vec Vi mu) + dot y y - dot mun (mat_vec Vn_inv mun)))%R in
        Ok (Some (mkPosterior an bn mun Vn_inv))
    | _, _ => Ok None
    end.

(** src/linreg.py:229-231 calc_log_Z. [1./det] is infinite for 0; math.sqrt of a negative
    number raises ValueError; numpy.log is -inf at 0 and nan below. [a] is positive unless the
    user gave a hyperparameter that is not. *)
Definition calc_log_Z (o : option posterior) : out xr :=
  match o with
  | None => Ok XNan
  | Some po =>
      let d := determinant (List.length (po_Vinv po)) (po_Vinv po) in
      do ld <- (if Rlt_dec 0 d then Ok (Fin (ln (sqrt (1 / d)))) else if Req_EM_T d 0 then Ok PInf else Err ValueError);
      let lb := if Rlt_dec 0 (po_b po) then Fin (po_a po * ln (po_b po)) else if Req_EM_T (po_b po) 0 then NInf else XNan in
      Ok (xsub (xadd (Fin (lgamma (po_a po))) ld) lb)
  end.

(** src/linreg.py:257-263 calc_predictive_logp *)
Definition linreg_predictive (xs : val) (ys : list val) (N : Z) (Y : list (list val)) (x : list val) (a b : R) (mu : list R) (V : list (list R)) : out xr :=
  do pn <- posterior_hypers N Y x a b mu V;
  do pm <- posterior_hypers (N + 1) (Y ++ [ys]) (x ++ [xs]) a b mu V;
  do ZN <- calc_log_Z pn;
  do ZM <- calc_log_Z pm;
  Ok (xsub (xadd (Fin (- (1 / 2) * LOG2PI)) ZM) ZN).

(** src/linreg.py:265-270 calc_logpdf_marginal *)
Definition linreg_marginal (N : Z) (Y : list (list val)) (x : list val) (a b : R) (mu : list R) (V : list (list R)) : out xr :=
  do pn <- posterior_hypers N Y x a b mu V;
  do Vi <- inverse V;
  do Z0 <- calc_log_Z (Some (mkPosterior a b mu Vi));
  do ZN <- calc_log_Z pn;
  Ok (xsub (xadd (Fin (- (IZR N / 2) * LOG2PI)) ZN) Z0).

(** src/linreg.py:102-109 logpdf *)
Definition linreg_logpdf (g : linreg) (rid : option Z) (T C I : row) : out xr :=
  let t := lr_table g in
  do x <- table_target t rid T C;
  do y_dum <- process_inputs dummy_code_linreg t I;
  linreg_predictive x y_dum (t_N t) (values (t_ydum t)) (values (t_data t)) (lr_a g) (lr_b g) (lr_mu g) (lr_V g).

(** src/linreg.py:122-124 logpdf_score *)
Definition linreg_score (g : linreg) : out xr :=
  let t := lr_table g in
  linreg_marginal (t_N t) (values (t_ydum t)) (values (t_data t)) (lr_a g) (lr_b g) (lr_mu g) (lr_V g).

(** src/linreg.py:111-120 simulate (one sample). The draws of sigma2 and of the coefficients
    (src/linreg.py:126-129, 272-275 sample_parameters) are drawn from the posterior; the vector
    of coefficients is a draw from a multivariate normal, which is not modelled: the value is a
    normal draw of unspecified mean and variance. *)
Definition linreg_simulate1 (g : linreg) (rid : option Z) (ts : list Z) (C I : row) : samp (out row) :=
  let t := lr_table g in
  match (do _ <- oassert (eqb ts [t_out t]); oassert (match C with [] => true | _ => false end)) with
  | Err e => Ret (Err e)
  | Ok _ =>
      match (match rid with Some r => lookup r (t_data t) | None => None end) with
      | Some x => Ret (Ok [(t_out t, x)])
      | None =>
          match (do _ <- process_inputs dummy_code_linreg t I;
                 do po <- posterior_hypers (t_N t) (values (t_ydum t)) (values (t_data t)) (lr_a g) (lr_b g) (lr_mu g) (lr_V g);
                 match po with Some po => inverse (po_Vinv po) | None => Ok [] end) with
          | Err e => Ret (Err e)
          | Ok _ => DrawQ (Normal 0 1) (fun q => Ret (Ok [(t_out t, VQ q)]))
          end
      end
  end.

(** src/linreg.py:111 the decorator simulate_many *)
Definition linreg_simulate (g : linreg) (rid : option Z) (ts : list Z) (C I : row) (N : option nat) : samp (out sres) :=
  simulate_many (linreg_simulate1 g rid ts C I) N.

(** ** RandomForest *)

(** src/forest.py:35-62: the table, k, class_to_index, and the classifier once trained: its
    predict_log_proba *)
Record forest := mkForest {
  fo_table : table;
  fo_k : Z;
  fo_classes : dict val nat;
  fo_regressor : option (list val -> list xr)
}.

(** src/forest.py:35-62 __init__ *)
Definition new_forest (outs ins : list Z) (k : Z) (levels : list (option Z)) : out forest :=
  do t <- new_table outs ins levels; Ok (mkForest t k [] None).

(** src/forest.py:64-73 observe *)
Definition forest_observe (f : forest) (rid : Z) (obs I : row) : forest * out unit :=
  let (t, r) := table_observe dummy_code_forest (fo_table f) rid obs I in
  (mkForest t (fo_k f) (fo_classes f) (fo_regressor f), r).

(** src/forest.py:75-79 unobserve *)
Definition forest_unobserve (f : forest) (rid : Z) : forest * out (row * row) :=
  let (t, r) := table_unobserve (fo_table f) rid in
  (mkForest t (fo_k f) (fo_classes f) (fo_regressor f), r).

(** src/forest.py:81-94 logpdf. [-log(self.k)] for k <= 0 raises ValueError. *)
Definition forest_logpdf (f : forest) (rid : option Z) (T C I : row) : out xr :=
  do x <- table_target (fo_table f) rid T C;
  match lookup x (fo_classes f) with
  | None => Ok NInf
  | Some ix =>
      match fo_regressor f with
      | None => if 0 <? fo_k f then Ok (Fin (- ln (IZR (fo_k f)))) else Err ValueError
      | Some predict =>
          do y_dum <- process_inputs dummy_code_forest (fo_table f) I;
          match nth_error (predict y_dum) ix with Some p => Ok p | None => Err IndexError end
      end
  end.

(** src/forest.py:239-245 dictify_samples *)
Definition dictify_samples (o : Z) (samples : list val) (N : option nat) : out sres :=
  match N with
  | None => match samples with [x] => Ok (SOne [(o, x)]) | _ => Err AssertionError end
  | Some n => do _ <- oassert (Nat.eqb (List.length samples) n); Ok (SMany (map (fun x => [(o, x)]) samples))
  end.

(** src/forest.py:96-109 simulate; [range(k)] of no numbers cannot be drawn from (ValueError) *)
Definition forest_simulate (f : forest) (rid : option Z) (ts : list Z) (C I : row) (N : option nat) : samp (out sres) :=
  let t := fo_table f in
  let n := match N with Some (S n) => S n | _ => 1%nat end in
  match (do _ <- oassert (eqb ts [t_out t]); oassert (match C with [] => true | _ => false end)) with
  | Err e => Ret (Err e)
  | Ok _ =>
      match (match rid with Some r => lookup r (t_data t) | None => None end) with
      | Some x => Ret (dictify_samples (t_out t) (repeat x n) N)
      | None =>
          match fo_regressor f with
          | None =>
              if 0 <? fo_k f then
                sobind (srepeat n (DrawInt 0 (fo_k f) (fun z => Ret (Ok (vz z))))) (fun l => Ret (dictify_samples (t_out t) l N))
              else Ret (Err ValueError)
          | Some predict =>
              match process_inputs dummy_code_forest t I with
              | Err e => Ret (Err e)
              | Ok y_dum =>
                  sobind (srepeat n (sobind (log_pflip (predict y_dum)) (fun i =>
                    Ret (match nth_error (keys (fo_classes f)) i with Some x => Ok x | None => Err IndexError end))))
                  (fun l => Ret (dictify_samples (t_out t) l N))
              end
          end
      end
  end.

(** src/forest.py:116-122 transition with get_training_data (230-237): the classifier is trained on
    the rows without missing values; [fit] is sklearn's training, which answers with the
    classes it saw and predict_log_proba, or raises. *)
Definition forest_transition (fit : list (list val) -> list val -> out (list val * (list val -> list xr))) (f : forest) : forest * out unit :=
  let t := fo_table f in
  let Y := values (t_ydum t) in
  let x := values (t_data t) in
  if negb (Nat.eqb (List.length Y) (List.length x)) then (f, Err AssertionError)
  else
    let rows := filter (fun p => negb (existsb (eqb VNan) (fst p)) && negb (eqb VNan (snd p))) (combine Y x) in
    match fit (map fst rows) (map snd rows) with
    | Err e => (f, Err e)
    | Ok (classes, predict) =>
        (mkForest t (fo_k f) (dict_of (combine classes (seq 0 (List.length classes)))) (Some predict), Ok tt)
    end.

(** ** A network in which a regression or a forest takes part *)

(** The children of a Chain or Product (src/chain.py:33-47, src/product.py:21-31). *)
Inductive part := PModel (c : cgpm) | PLinreg (g : linreg) | PForest (f : forest).

(** The outputs and inputs of a child (src/chain.py:163-166). *)
Definition part_outs (m : part) : list Z :=
  match m with PModel c => outputs c | PLinreg g => [t_out (lr_table g)] | PForest f => [t_out (fo_table f)] end.
(** See [part_outs] (src/chain.py:165-166). *)
Definition part_ins (m : part) : list Z :=
  match m with PModel c => inputs c | PLinreg g => t_ins (lr_table g) | PForest f => t_ins (fo_table f) end.

(** Method dispatch: observe and unobserve of a child (src/chain.py:168, 172). *)
Definition part_observe (m : part) (rid : Z) (obs I : row) : samp (part * out unit) :=
  match m with
  | PModel c => let! r := observe c rid obs I in Ret (PModel (fst r), snd r)
  | PLinreg g => let r := linreg_observe g rid obs I in Ret (PLinreg (fst r), snd r)
  | PForest f => let r := forest_observe f rid obs I in Ret (PForest (fst r), snd r)
  end.
(** See [part_observe] (src/chain.py:172). *)
Definition part_unobserve (m : part) (rid : Z) : part * out (row * row) :=
  match m with
  | PModel c => let (c', r) := unobserve c rid in (PModel c', r)
  | PLinreg g => let (g', r) := linreg_unobserve g rid in (PLinreg g', r)
  | PForest f => let (f', r) := forest_unobserve f rid in (PForest f', r)
  end.

(** src/chain.py:49-51 Chain.observe with observe_one (162-168) *)
Fixpoint network_observe (ms : list part) (rid : Z) (obs I : row) : samp (list part * out unit) :=
  match ms with
  | [] => Ret ([], Ok tt)
  | m :: ms' =>
      match interd (part_outs m) obs with
      | [] => let! r := network_observe ms' rid obs I in Ret (m :: fst r, snd r)
      | oc =>
          let! r := part_observe m rid oc (merged (interd (part_ins m) obs) (interd (part_ins m) I)) in
          match snd r with
          | Err e => Ret (fst r :: ms', Err e)
          | Ok _ => let! r' := network_observe ms' rid obs I in Ret (fst r :: fst r', snd r')
          end
      end
  end.

(** src/chain.py:170-174 unobserve_one: every exception is swallowed. *)
Definition part_unobserve_one (m : part) (rid : Z) : part * (row * row) :=
  match part_unobserve m rid with
  | (m', Ok p) => (m', p)
  | (m', Err _) => (m', ([], []))
  end.

(** src/chain.py:53-60 Chain.unobserve, inherited by Product *)
Definition network_unobserve (ms : list part) (rid : Z) : list part * out (row * row) :=
  match ms with
  | [] => ([], Err ValueError)
  | _ =>
      let ps := map (fun m => part_unobserve_one m rid) ms in
      (map fst ps, Ok (mergedl (map (fun p => fst (snd p)) ps), mergedl (map (fun p => snd (snd p)) ps)))
  end.
