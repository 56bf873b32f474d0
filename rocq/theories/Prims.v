(** The univariate primitives of /repo/src, method by method.
    Every primitive has exactly one output variable and no inputs
    (simplification: the constructors accept lists, but every method uses
    [self.outputs[0]] and asserts [not inputs]). Counters [N] are integers (Normal
    and NormalUC use integral floats). *)
From Coq Require Import List ZArith QArith Qcanon Reals Bool String.
From Verif Require Import Base Xr Samp Lgamma.
Import ListNotations.
Local Open Scope Z_scope.

(** ** src/distribution.py: checks shared by the primitives *)

(** src/distribution.py:33-37 DistributionCGPM.observe *)
Definition base_observe {V} (data : dict Z V) (o : Z) (rid : Z) (obs I : row) : out unit :=
  if dmem rid data then Err ValueError
  else do _ <- oassert (match I with [] => true | _ => false end);
       oassert (eqb (keys obs) [o]).

(** src/distribution.py:39-41 DistributionCGPM.unobserve *)
Definition base_unobserve {V} (data : dict Z V) (rid : Z) : out unit :=
  if dmem rid data then Ok tt else Err ValueError.

(** [rowid in self.data] when rowid may be None (a hypothetical row) (src/crp.py:66). *)
Definition omem {V} (rid : option Z) (d : dict Z V) : bool :=
  match rid with None => false | Some r => dmem r d end.

(** src/distribution.py:43-47 DistributionCGPM.logpdf *)
Definition base_logpdf {V} (data : dict Z V) (o : Z) (rid : option Z) (T C I : row) : out unit :=
  do _ <- oassert (negb (omem rid data));
  do _ <- oassert (match I with [] => true | _ => false end);
  do _ <- oassert (match C with [] => true | _ => false end);
  oassert (eqb (keys T) [o]).

(** src/distribution.py:49-52 DistributionCGPM.simulate *)
Definition base_simulate (o : Z) (ts : list Z) (C I : row) : out unit :=
  do _ <- oassert (match C with [] => true | _ => false end);
  do _ <- oassert (match I with [] => true | _ => false end);
  oassert (eqb ts [o]).

(** ** src/crp.py *)

(** src/crp.py:21-36 CRP.__init__: the attributes of a CRP object. *)
Record crp := mkCrp {
  crp_o : Z;
  crp_data : dict Z Z;
  crp_N : Z;
  crp_counts : dict Z Z;
  crp_alpha : Qc }.

(** src/crp.py:21-36: a fresh CRP; [alpha] is [hypers.get('alpha', 1.)]. *)
Definition crp_new (o : Z) (alpha : Qc) : crp := mkCrp o [] 0 [] alpha.

(** src/crp.py:130-132 CRP.support *)
Definition crp_support (s : crp) : list Z :=
  match zsort (keys (crp_counts s)) with
  | [] => [0]
  | k :: ks => (k :: ks) ++ [zmax k ks + 1]
  end.

(** src/crp.py:38-46 CRP.observe *)
Definition crp_observe (s : crp) (rid : Z) (obs I : row) : crp * out unit :=
  match base_observe (crp_data s) (crp_o s) rid obs I with
  | Err e => (s, Err e)
  | Ok _ =>
    match lookup (crp_o s) obs with
    | None => (s, Err KeyError)
    | Some VNan => (s, Err ValueError)
    | Some (VQ q) =>
      let x := trunc q in
      if memb x (crp_support s) then
        let c := match lookup x (crp_counts s) with Some c => c | None => 0 end in
        (mkCrp (crp_o s) (dset rid x (crp_data s)) (crp_N s + 1)
           (dset x (c + 1) (crp_counts s)) (crp_alpha s), Ok tt)
      else (s, Err AssertionError)
    end
  end.

(** src/crp.py:48-55 CRP.unobserve *)
Definition crp_unobserve (s : crp) (rid : Z) : crp * out (row * row) :=
  match lookup rid (crp_data s) with
  | None => (s, Err ValueError)
  | Some x =>
    let data' := ddel rid (crp_data s) in
    let N' := crp_N s - 1 in
    match lookup x (crp_counts s) with
    | None => (mkCrp (crp_o s) data' N' (crp_counts s) (crp_alpha s), Err KeyError)
    | Some c =>
      let c' := c - 1 in
      let counts' := if c' =? 0 then ddel x (crp_counts s) else dset x c' (crp_counts s) in
      (mkCrp (crp_o s) data' N' counts' (crp_alpha s), Ok ([(crp_o s, vz x)], []))
    end
  end.

(** src/crp.py:201-204 calc_predictive_logp *)
Definition crp_predictive (x N : Z) (counts : dict Z Z) (alpha : Qc) : out xr :=
  let numerator := match lookup x counts with Some c => qz c | None => alpha end in
  let denominator := (qz N + alpha)%Qc in
  do a <- pylog numerator;
  do b <- pylog denominator;
  Ok (Fin (a - b)%R).

(** src/crp.py:57-73 CRP.logpdf *)
Definition crp_logpdf (s : crp) (rid : option Z) (T C I : row) : out xr :=
  do _ <- oassert (match I with [] => true | _ => false end);
  do _ <- oassert (match C with [] => true | _ => false end);
  do _ <- oassert (eqb (keys T) [crp_o s]);
  match lookup (crp_o s) T with
  | None => Err KeyError
  | Some VNan => Err ValueError
  | Some (VQ q) =>
    let x := trunc q in
    if negb (memb x (crp_support s)) then Ok NInf
    else match (match rid with None => None | Some r => lookup r (crp_data s) end) with
         | None => crp_predictive x (crp_N s) (crp_counts s) (crp_alpha s)
         | Some y => if y =? x then Ok (Fin 0%R) else Ok NInf
         end
  end.

(** src/crp.py:75-84 CRP.simulate (one sample; wrapped by simulate_many) *)
Definition crp_simulate1 (s : crp) (rid : option Z) (ts : list Z) (C I : row) : samp (out row) :=
  match base_simulate (crp_o s) ts C I with
  | Err e => Ret (Err e)
  | Ok _ =>
    match (match rid with None => None | Some r => lookup r (crp_data s) end) with
    | Some x => Ret (Ok [(crp_o s, vz x)])
    | None =>
      let K := crp_support s in
      match oseq (map (fun x => crp_logpdf s rid [(hd 0 ts, vz x)] [] []) K) with
      | Err e => Ret (Err e)
      | Ok logps => sobind (log_pflip logps) (fun i => Ret (Ok [(crp_o s, vz (nth i K 0))]))
      end
    end
  end.

(** src/crp.py:206-209 calc_logpdf_marginal *)
Definition crp_marginal (N : Z) (counts : list Z) (alpha : Qc) : out xr :=
  do la <- pylog alpha;
  Ok (Fin (INR (List.length counts) * la + rsum (map (fun c => lgamma (IZR c)) counts)
           + lgamma (qr alpha) - lgamma (IZR N + qr alpha))%R).

(** src/crp.py:86-87 CRP.logpdf_score *)
Definition crp_score (s : crp) : out xr :=
  crp_marginal (crp_N s) (values (crp_counts s)) (crp_alpha s).

(** src/crp.py:170-171 CRP.is_singleton (0 for an unknown row); KeyError if the row's
    table is missing from counts. *)
Definition crp_is_singleton (s : crp) (rid : Z) : out bool :=
  match lookup rid (crp_data s) with
  | None => Ok false
  | Some x => do c <- dget x (crp_counts s); Ok (c =? 1)
  end.

(** src/crp.py:151-168 CRP.gibbs_tables *)
Definition crp_gibbs_tables (s : crp) (rid : Z) (m : Z) : out (list Z) :=
  do _ <- oassert (0 <? m);
  let K := zsort (keys (crp_counts s)) in
  do singleton <- crp_is_singleton s rid;
  let m_aux := if singleton then m - 1 else m in
  if m_aux <=? 0 then Ok K
  else match K with
       | [] => Err ValueError
       | k :: ks => Ok (K ++ map (fun j => zmax k ks + 1 + j) (zrange (Z.to_nat m_aux)))
       end.

(** src/crp.py:136-149 CRP.gibbs_logps *)
Definition crp_gibbs_logps (s : crp) (rid : Z) (m : Z) : out (list xr) :=
  do _ <- oassert (dmem rid (crp_data s));
  do _ <- oassert (0 <? m);
  do singleton <- crp_is_singleton s rid;
  let p_aux := (crp_alpha s / qz m)%Qc in
  do t0 <- dget rid (crp_data s);
  do c0 <- dget t0 (crp_counts s);
  let p_rowid := if singleton then p_aux else qz (c0 - 1) in
  do tables <- crp_gibbs_tables s rid m;
  let p_table t :=
    if t =? t0 then p_rowid
    else match lookup t (crp_counts s) with None => p_aux | Some c => qz c end in
  oseq (map (fun t => omap Fin (pylog (p_table t))) tables).

(** ** src/categorical.py *)

(** src/categorical.py:24-40 Categorical.__init__ *)
Record cat := mkCat {
  cat_o : Z;
  cat_k : Z;
  cat_data : dict Z val;
  cat_N : Z;
  cat_counts : list Z;
  cat_alpha : Qc }.

(** src/categorical.py:24-40 the attributes of a new Categorical. *)
Definition cat_new (o k : Z) (alpha : Qc) : cat :=
  mkCat o k [] 0 (repeat 0 (Z.to_nat k)) alpha.

(** [counts[x] += d] on an array (src/categorical.py:50). *)
Fixpoint add_at (n : nat) (d : Z) (l : list Z) : list Z :=
  match l, n with
  | [], _ => []
  | c :: l', O => (c + d) :: l'
  | c :: l', S n' => c :: add_at n' d l'
  end.

(** [x % 1 == 0 and 0 <= x < k] (src/categorical.py:46,66) *)
Definition cat_valid (k : Z) (q : Qc) : bool :=
  is_int q && qleb 0%Qc q && qltb q (qz k).

(** src/categorical.py:42-51 Categorical.observe *)
Definition cat_observe (s : cat) (rid : Z) (obs I : row) : cat * out unit :=
  match base_observe (cat_data s) (cat_o s) rid obs I with
  | Err e => (s, Err e)
  | Ok _ =>
    match lookup (cat_o s) obs with
    | None => (s, Err KeyError)
    | Some VNan =>
        (mkCat (cat_o s) (cat_k s) (dset rid VNan (cat_data s)) (cat_N s) (cat_counts s)
           (cat_alpha s), Ok tt)
    | Some (VQ q) =>
        if cat_valid (cat_k s) q then
          let x := trunc q in
          (mkCat (cat_o s) (cat_k s) (dset rid (vz x) (cat_data s)) (cat_N s + 1)
             (add_at (Z.to_nat x) 1 (cat_counts s)) (cat_alpha s), Ok tt)
        else (s, Err ValueError)
    end
  end.

(** src/categorical.py:53-59 Categorical.unobserve *)
Definition cat_unobserve (s : cat) (rid : Z) : cat * out (row * row) :=
  match lookup rid (cat_data s) with
  | None => (s, Err ValueError)
  | Some x =>
    let data' := ddel rid (cat_data s) in
    match x with
    | VNan => (mkCat (cat_o s) (cat_k s) data' (cat_N s) (cat_counts s) (cat_alpha s),
               Ok ([(cat_o s, x)], []))
    | VQ q => (mkCat (cat_o s) (cat_k s) data' (cat_N s - 1)
                 (add_at (Z.to_nat (trunc q)) (-1) (cat_counts s)) (cat_alpha s),
               Ok ([(cat_o s, x)], []))
    end
  end.

(** src/categorical.py:161-164 calc_predictive_logp *)
Definition cat_predictive (x : Z) (counts : list Z) (alpha : Qc) : out xr :=
  do a <- pylog (alpha + qz (nth (Z.to_nat x) counts 0%Z))%Qc;
  do b <- pylog (qz (zsum counts) + alpha * qz (Z.of_nat (List.length counts)))%Qc;
  Ok (Fin (a - b)%R).

(** src/categorical.py:61-68 Categorical.logpdf *)
Definition cat_logpdf (s : cat) (rid : option Z) (T C I : row) : out xr :=
  do _ <- base_logpdf (cat_data s) (cat_o s) rid T C I;
  match lookup (cat_o s) T with
  | None => Err KeyError
  | Some VNan => Ok (Fin 0%R)
  | Some (VQ q) =>
      if cat_valid (cat_k s) q then cat_predictive (trunc q) (cat_counts s) (cat_alpha s)
      else Ok NInf
  end.

(** [rowid in self.data and not isnan(self.data[rowid])] (e.g. src/normal.py:80) *)
Definition recorded (rid : option Z) (data : dict Z val) : option val :=
  match rid with
  | None => None
  | Some r => match lookup r data with
              | Some VNan => None
              | x => x
              end
  end.

(** src/categorical.py:70-76 Categorical.simulate (one sample) *)
Definition cat_simulate1 (s : cat) (rid : option Z) (ts : list Z) (C I : row) : samp (out row) :=
  match base_simulate (cat_o s) ts C I with
  | Err e => Ret (Err e)
  | Ok _ =>
    match recorded rid (cat_data s) with
    | Some x => Ret (Ok [(cat_o s, x)])
    | None =>
      let! i := pflip (map (fun c => (IZR c + qr (cat_alpha s))%R) (cat_counts s)) in
      Ret (Ok [(cat_o s, vz (Z.of_nat i))])
    end
  end.

(** src/categorical.py:166-170 calc_logpdf_marginal *)
Definition cat_marginal (N : Z) (counts : list Z) (alpha : Qc) : out xr :=
  let K := INR (List.length counts) in
  let A := (K * qr alpha)%R in
  let lg := rsum (map (fun c => lgamma (IZR c + qr alpha)%R) counts) in
  Ok (Fin (lgamma A - lgamma (A + IZR N) + lg - K * lgamma (qr alpha))%R).

(** src/categorical.py:78-79 Categorical.logpdf_score *)
Definition cat_score (s : cat) : out xr :=
  cat_marginal (cat_N s) (cat_counts s) (cat_alpha s).

(** src/categorical.py:124-125 Categorical.support *)
Definition cat_support (s : cat) : list Z := zrange (Z.to_nat (cat_k s)).

(** ** src/bernoulli.py *)

(** src/bernoulli.py:24-40 Bernoulli.__init__ *)
Record ber := mkBer {
  ber_o : Z;
  ber_data : dict Z val;
  ber_N : Z;
  ber_sum : Z;
  ber_alpha : Qc;
  ber_beta : Qc }.

(** src/bernoulli.py:24-40 the attributes of a new Bernoulli. *)
Definition ber_new (o : Z) (alpha beta : Qc) : ber := mkBer o [] 0 0 alpha beta.

(** [x in [0, 1]] (src/bernoulli.py:48,65) *)
Definition ber_valid (q : Qc) : bool := eqb q 0%Qc || eqb q 1%Qc.

(** src/bernoulli.py:42-52 Bernoulli.observe *)
Definition ber_observe (s : ber) (rid : Z) (obs I : row) : ber * out unit :=
  match base_observe (ber_data s) (ber_o s) rid obs I with
  | Err e => (s, Err e)
  | Ok _ =>
    match lookup (ber_o s) obs with
    | None => (s, Err KeyError)
    | Some VNan =>
        (mkBer (ber_o s) (dset rid VNan (ber_data s)) (ber_N s) (ber_sum s)
           (ber_alpha s) (ber_beta s), Ok tt)
    | Some (VQ q) =>
        if ber_valid q then
          let x := trunc q in
          (mkBer (ber_o s) (dset rid (vz x) (ber_data s)) (ber_N s + 1) (ber_sum s + x)
             (ber_alpha s) (ber_beta s), Ok tt)
        else (s, Err AssertionError)
    end
  end.

(** src/bernoulli.py:54-60 Bernoulli.unobserve *)
Definition ber_unobserve (s : ber) (rid : Z) : ber * out (row * row) :=
  match lookup rid (ber_data s) with
  | None => (s, Err ValueError)
  | Some x =>
    let data' := ddel rid (ber_data s) in
    match x with
    | VNan => (mkBer (ber_o s) data' (ber_N s) (ber_sum s) (ber_alpha s) (ber_beta s),
               Ok ([(ber_o s, x)], []))
    | VQ q => (mkBer (ber_o s) data' (ber_N s - 1) (ber_sum s - trunc q)
                 (ber_alpha s) (ber_beta s),
               Ok ([(ber_o s, x)], []))
    end
  end.

(** src/bernoulli.py:160-165 calc_predictive_logp ([is1] is [x == 1]) *)
Definition ber_predictive (is1 : bool) (N x_sum : Z) (alpha beta : Qc) : out xr :=
  do d <- pylog (qz N + alpha + beta)%Qc;
  if is1 then do a <- pylog (qz x_sum + alpha)%Qc; Ok (Fin (a - d)%R)
  else do a <- pylog (qz N - qz x_sum + beta)%Qc; Ok (Fin (a - d)%R).

(** src/bernoulli.py:62-67 Bernoulli.logpdf. NaN is not in [0, 1]. *)
Definition ber_logpdf (s : ber) (rid : option Z) (T C I : row) : out xr :=
  do _ <- base_logpdf (ber_data s) (ber_o s) rid T C I;
  match lookup (ber_o s) T with
  | None => Err KeyError
  | Some VNan => Ok NInf
  | Some (VQ q) =>
      if ber_valid q
      then ber_predictive (eqb q 1%Qc) (ber_N s) (ber_sum s) (ber_alpha s) (ber_beta s)
      else Ok NInf
  end.

(** src/bernoulli.py:69-77 Bernoulli.simulate (one sample) *)
Definition ber_simulate1 (s : ber) (rid : option Z) (ts : list Z) (C I : row) : samp (out row) :=
  match base_simulate (ber_o s) ts C I with
  | Err e => Ret (Err e)
  | Ok _ =>
    match recorded rid (ber_data s) with
    | Some x => Ret (Ok [(ber_o s, x)])
    | None =>
      match ber_predictive false (ber_N s) (ber_sum s) (ber_alpha s) (ber_beta s),
            ber_predictive true (ber_N s) (ber_sum s) (ber_alpha s) (ber_beta s) with
      | Ok p0, Ok p1 =>
          sobind (log_pflip [p0; p1]) (fun i => Ret (Ok [(ber_o s, vz (Z.of_nat i))]))
      | Err e, _ => Ret (Err e)
      | _, Err e => Ret (Err e)
      end
    end
  end.

(** src/bernoulli.py:167-168 calc_logpdf_marginal *)
Definition ber_marginal (N x_sum : Z) (alpha beta : Qc) : out xr :=
  Ok (Fin (betaln (IZR x_sum + qr alpha) (IZR N - IZR x_sum + qr beta)
           - betaln (qr alpha) (qr beta))%R).

(** src/bernoulli.py:79-80 Bernoulli.logpdf_score *)
Definition ber_score (s : ber) : out xr :=
  ber_marginal (ber_N s) (ber_sum s) (ber_alpha s) (ber_beta s).

(** src/bernoulli.py:127-128 Bernoulli.support *)
Definition ber_support (s : ber) : list Z := [0; 1].

(** ** src/poisson.py *)

(** src/poisson.py:23-42 Poisson.__init__ *)
Record poi := mkPoi {
  poi_o : Z;
  poi_data : dict Z val;
  poi_N : Z;
  poi_sum : Qc;
  poi_slf : R;      (* sum_log_fact_x *)
  poi_a : Qc;
  poi_b : Qc }.

(** src/poisson.py:39-42: the constructor asserts a, b > 0. *)
Definition poi_new (o : Z) (a b : Qc) : out poi :=
  do _ <- oassert (qltb 0%Qc a);
  do _ <- oassert (qltb 0%Qc b);
  Ok (mkPoi o [] 0 0%Qc 0%R a b).

(** [x % 1 == 0 and x >= 0] (src/poisson.py:48,67) *)
Definition poi_valid (q : Qc) : bool := is_int q && qleb 0%Qc q.

(** src/poisson.py:44-53 Poisson.observe *)
Definition poi_observe (s : poi) (rid : Z) (obs I : row) : poi * out unit :=
  match base_observe (poi_data s) (poi_o s) rid obs I with
  | Err e => (s, Err e)
  | Ok _ =>
    match lookup (poi_o s) obs with
    | None => (s, Err KeyError)
    | Some VNan =>
        (mkPoi (poi_o s) (dset rid VNan (poi_data s)) (poi_N s) (poi_sum s) (poi_slf s)
           (poi_a s) (poi_b s), Ok tt)
    | Some (VQ q) =>
        if poi_valid q then
          (mkPoi (poi_o s) (dset rid (VQ q) (poi_data s)) (poi_N s + 1) (poi_sum s + q)%Qc
             (poi_slf s + lgamma (qr q + 1))%R (poi_a s) (poi_b s), Ok tt)
        else (s, Err ValueError)
    end
  end.

(** src/poisson.py:55-62 Poisson.unobserve *)
Definition poi_unobserve (s : poi) (rid : Z) : poi * out (row * row) :=
  match lookup rid (poi_data s) with
  | None => (s, Err ValueError)
  | Some x =>
    let data' := ddel rid (poi_data s) in
    match x with
    | VNan => (mkPoi (poi_o s) data' (poi_N s) (poi_sum s) (poi_slf s) (poi_a s) (poi_b s),
               Ok ([(poi_o s, x)], []))
    | VQ q => (mkPoi (poi_o s) data' (poi_N s - 1) (poi_sum s - q)%Qc
                 (poi_slf s - lgamma (qr q + 1))%R (poi_a s) (poi_b s),
               Ok ([(poi_o s, x)], []))
    end
  end.

(** src/poisson.py:167-170 posterior_hypers *)
Definition poi_posterior (N : Z) (sum_x a b : Qc) : Qc * Qc := ((a + sum_x)%Qc, (b + qz N)%Qc).

(** src/poisson.py:163-165 calc_log_Z *)
Definition poi_logZ (a b : Qc) : out R :=
  do lb <- pylog b; Ok (lgamma (qr a) - qr a * lb)%R.

(** src/poisson.py:172-177 calc_predictive_logp *)
Definition poi_predictive (x : Qc) (N : Z) (sum_x a b : Qc) : out xr :=
  let (an, bn) := poi_posterior N sum_x a b in
  let (am, bm) := poi_posterior (N + 1) (sum_x + x)%Qc a b in
  do ZN <- poi_logZ an bn;
  do ZM <- poi_logZ am bm;
  Ok (Fin (ZM - ZN - lgamma (qr x + 1))%R).

(** src/poisson.py:64-71 Poisson.logpdf. [nan % 1 == 0] is false, so NaN takes the
    first branch; the isnan branch (69-70) is unreachable. *)
Definition poi_logpdf (s : poi) (rid : option Z) (T C I : row) : out xr :=
  do _ <- base_logpdf (poi_data s) (poi_o s) rid T C I;
  match lookup (poi_o s) T with
  | None => Err KeyError
  | Some VNan => Ok NInf
  | Some (VQ q) =>
      if poi_valid q then poi_predictive q (poi_N s) (poi_sum s) (poi_a s) (poi_b s)
      else Ok NInf
  end.

(** src/poisson.py:73-80 Poisson.simulate (one sample); an, bn are the
    posterior hyperparameters, x ~ negative_binomial(an, bn / (bn + 1)). *)
Definition poi_simulate1 (s : poi) (rid : option Z) (ts : list Z) (C I : row) : samp (out row) :=
  match base_simulate (poi_o s) ts C I with
  | Err e => Ret (Err e)
  | Ok _ =>
    match recorded rid (poi_data s) with
    | Some x => Ret (Ok [(poi_o s, x)])
    | None =>
      let (an, bn) := poi_posterior (poi_N s) (poi_sum s) (poi_a s) (poi_b s) in
      DrawNat (qr an) (qr bn / (qr bn + 1)) (fun n => Ret (Ok [(poi_o s, vz (Z.of_nat n))]))
    end
  end.

(** src/poisson.py:179-183 calc_logpdf_marginal *)
Definition poi_marginal (N : Z) (sum_x : Qc) (slf : R) (a b : Qc) : out xr :=
  let (an, bn) := poi_posterior N sum_x a b in
  do Z0 <- poi_logZ a b;
  do ZN <- poi_logZ an bn;
  Ok (Fin (ZN - Z0 - slf)%R).

(** src/poisson.py:82-84 Poisson.logpdf_score *)
Definition poi_score (s : poi) : out xr :=
  poi_marginal (poi_N s) (poi_sum s) (poi_slf s) (poi_a s) (poi_b s).

(** ** src/normal.py *)

(** src/normal.py:27-49 Normal.__init__ *)
Record nrm := mkNrm {
  nrm_o : Z;
  nrm_data : dict Z val;
  nrm_N : Z;
  nrm_sum : Qc;
  nrm_sumsq : Qc;
  nrm_m : Qc;
  nrm_r : Qc;
  nrm_s : Qc;
  nrm_nu : Qc }.

(** src/normal.py:43-49: the constructor asserts s, r, nu > 0. *)
Definition nrm_new (o : Z) (m r s nu : Qc) : out nrm :=
  do _ <- oassert (qltb 0%Qc s);
  do _ <- oassert (qltb 0%Qc r);
  do _ <- oassert (qltb 0%Qc nu);
  Ok (mkNrm o [] 0 0%Qc 0%Qc m r s nu).

(** src/normal.py:51-58 Normal.observe *)
Definition nrm_observe (s : nrm) (rid : Z) (obs I : row) : nrm * out unit :=
  match base_observe (nrm_data s) (nrm_o s) rid obs I with
  | Err e => (s, Err e)
  | Ok _ =>
    match lookup (nrm_o s) obs with
    | None => (s, Err KeyError)
    | Some VNan =>
        (mkNrm (nrm_o s) (dset rid VNan (nrm_data s)) (nrm_N s) (nrm_sum s) (nrm_sumsq s)
           (nrm_m s) (nrm_r s) (nrm_s s) (nrm_nu s), Ok tt)
    | Some (VQ q) =>
        (mkNrm (nrm_o s) (dset rid (VQ q) (nrm_data s)) (nrm_N s + 1) (nrm_sum s + q)%Qc
           (nrm_sumsq s + q * q)%Qc (nrm_m s) (nrm_r s) (nrm_s s) (nrm_nu s), Ok tt)
    end
  end.

(** src/normal.py:60-67 Normal.unobserve *)
Definition nrm_unobserve (s : nrm) (rid : Z) : nrm * out (row * row) :=
  match lookup rid (nrm_data s) with
  | None => (s, Err ValueError)
  | Some x =>
    let data' := ddel rid (nrm_data s) in
    match x with
    | VNan => (mkNrm (nrm_o s) data' (nrm_N s) (nrm_sum s) (nrm_sumsq s)
                 (nrm_m s) (nrm_r s) (nrm_s s) (nrm_nu s),
               Ok ([(nrm_o s, x)], []))
    | VQ q => (mkNrm (nrm_o s) data' (nrm_N s - 1) (nrm_sum s - q)%Qc (nrm_sumsq s - q * q)%Qc
                 (nrm_m s) (nrm_r s) (nrm_s s) (nrm_nu s),
               Ok ([(nrm_o s, x)], []))
    end
  end.

(** Result of posterior_hypers: mn, rn, sn, nun (src/normal.py:190-197). *)
Record nrm_post := mkPost { post_m : Qc; post_r : Qc; post_s : Qc; post_nu : Qc }.

(** src/normal.py:190-197 posterior_hypers *)
Definition nrm_posterior (N : Z) (sum_x sum_x_sq m r s nu : Qc) : nrm_post :=
  let rn := (r + qz N)%Qc in
  let nun := (nu + qz N)%Qc in
  let mn := ((r * m + sum_x) / rn)%Qc in
  let sn := (s + sum_x_sq + r * m * m - rn * mn * mn)%Qc in
  mkPost mn rn (if eqb sn 0%Qc then s else sn) nun.

(** src/normal.py:20-22 LOG2, LOGPI, LOG2PI *)
Definition LOG2 : R := ln 2.
(** src/normal.py:21 LOGPI *)
Definition LOGPI : R := ln PI.
(** src/normal.py:22 LOG2PI *)
Definition LOG2PI : R := (LOG2 + LOGPI)%R.

(** src/normal.py:182-188 calc_log_Z *)
Definition nrm_logZ (r s nu : Qc) : out R :=
  do lr <- pylog r;
  do ls <- pylog s;
  Ok ((qr nu + 1) / 2 * LOG2 + / 2 * LOGPI - / 2 * lr - qr nu / 2 * ls
      + lgamma (qr nu / 2))%R.

(** src/normal.py:199-204 calc_predictive_logp *)
Definition nrm_predictive (x : Qc) (N : Z) (sum_x sum_x_sq m r s nu : Qc) : out xr :=
  let pn := nrm_posterior N sum_x sum_x_sq m r s nu in
  let pm := nrm_posterior (N + 1) (sum_x + x)%Qc (sum_x_sq + x * x)%Qc m r s nu in
  do ZN <- nrm_logZ (post_r pn) (post_s pn) (post_nu pn);
  do ZM <- nrm_logZ (post_r pm) (post_s pm) (post_nu pm);
  Ok (Fin (- / 2 * LOG2PI + ZM - ZN)%R).

(** src/normal.py:69-75 Normal.logpdf *)
Definition nrm_logpdf (s : nrm) (rid : option Z) (T C I : row) : out xr :=
  do _ <- base_logpdf (nrm_data s) (nrm_o s) rid T C I;
  match lookup (nrm_o s) T with
  | None => Err KeyError
  | Some VNan => Ok (Fin 0%R)
  | Some (VQ q) => nrm_predictive q (nrm_N s) (nrm_sum s) (nrm_sumsq s)
                     (nrm_m s) (nrm_r s) (nrm_s s) (nrm_nu s)
  end.

(** src/normal.py:77-86 Normal.simulate (one sample) with sample_parameters
    (213-216): rho ~ gamma(nun/2, 2/sn), mu ~ normal(mn, 1/sqrt(rho rn)),
    x ~ normal(mu, rho^-1/2). *)
Definition nrm_simulate1 (s : nrm) (rid : option Z) (ts : list Z) (C I : row) : samp (out row) :=
  match base_simulate (nrm_o s) ts C I with
  | Err e => Ret (Err e)
  | Ok _ =>
    match recorded rid (nrm_data s) with
    | Some x => Ret (Ok [(nrm_o s, x)])
    | None =>
      let p := nrm_posterior (nrm_N s) (nrm_sum s) (nrm_sumsq s)
                 (nrm_m s) (nrm_r s) (nrm_s s) (nrm_nu s) in
      DrawQ (Gamma (qr (post_nu p) / 2) (2 / qr (post_s p))) (fun rho =>
      DrawQ (Normal (qr (post_m p)) (1 / sqrt (qr rho * qr (post_r p)))) (fun mu =>
      DrawQ (Normal (qr mu) (/ sqrt (qr rho))) (fun q => Ret (Ok [(nrm_o s, VQ q)]))))
    end
  end.

(** src/normal.py:206-211 calc_logpdf_marginal *)
Definition nrm_marginal (N : Z) (sum_x sum_x_sq m r s nu : Qc) : out xr :=
  let pn := nrm_posterior N sum_x sum_x_sq m r s nu in
  do Z0 <- nrm_logZ r s nu;
  do ZN <- nrm_logZ (post_r pn) (post_s pn) (post_nu pn);
  Ok (Fin (- (IZR N / 2) * LOG2PI + ZN - Z0)%R).

(** src/normal.py:88-90 Normal.logpdf_score *)
Definition nrm_score (s : nrm) : out xr :=
  nrm_marginal (nrm_N s) (nrm_sum s) (nrm_sumsq s) (nrm_m s) (nrm_r s) (nrm_s s) (nrm_nu s).

(** ** src/normal_uc.py *)

(** src/normal_uc.py:24-43 NormalUC.__init__ *)
Record nuc := mkNuc {
  nuc_o : Z;
  nuc_data : dict Z val;
  nuc_N : Z;
  nuc_sum : Qc;
  nuc_sumsq : Qc;
  nuc_mu : Qc;
  nuc_var : Qc;
  nuc_hypers : dict string Qc }.

(** src/normal_uc.py:41-43: the constructor asserts var > 0. *)
Definition nuc_new (o : Z) (hypers : dict string Qc) (mu var : Qc) : out nuc :=
  do _ <- oassert (qltb 0%Qc var);
  Ok (mkNuc o [] 0 0%Qc 0%Qc mu var hypers).

(** src/normal_uc.py:45-52 NormalUC.observe *)
Definition nuc_observe (s : nuc) (rid : Z) (obs I : row) : nuc * out unit :=
  match base_observe (nuc_data s) (nuc_o s) rid obs I with
  | Err e => (s, Err e)
  | Ok _ =>
    match lookup (nuc_o s) obs with
    | None => (s, Err KeyError)
    | Some VNan =>
        (mkNuc (nuc_o s) (dset rid VNan (nuc_data s)) (nuc_N s) (nuc_sum s) (nuc_sumsq s)
           (nuc_mu s) (nuc_var s) (nuc_hypers s), Ok tt)
    | Some (VQ q) =>
        (mkNuc (nuc_o s) (dset rid (VQ q) (nuc_data s)) (nuc_N s + 1) (nuc_sum s + q)%Qc
           (nuc_sumsq s + q * q)%Qc (nuc_mu s) (nuc_var s) (nuc_hypers s), Ok tt)
    end
  end.

(** src/normal_uc.py:54-61 NormalUC.unobserve *)
Definition nuc_unobserve (s : nuc) (rid : Z) : nuc * out (row * row) :=
  match lookup rid (nuc_data s) with
  | None => (s, Err ValueError)
  | Some x =>
    let data' := ddel rid (nuc_data s) in
    match x with
    | VNan => (mkNuc (nuc_o s) data' (nuc_N s) (nuc_sum s) (nuc_sumsq s)
                 (nuc_mu s) (nuc_var s) (nuc_hypers s),
               Ok ([(nuc_o s, x)], []))
    | VQ q => (mkNuc (nuc_o s) data' (nuc_N s - 1) (nuc_sum s - q)%Qc (nuc_sumsq s - q * q)%Qc
                 (nuc_mu s) (nuc_var s) (nuc_hypers s),
               Ok ([(nuc_o s, x)], []))
    end
  end.

(** scipy.stats.norm.logpdf(x, loc=mu, scale=sqrt(var)) (src/normal_uc.py:68) for
    var > 0; math.sqrt raises ValueError for var < 0. *)
Definition norm_logpdf (x mu var : Qc) : R :=
  (- (qr x - qr mu) * (qr x - qr mu) / (2 * qr var) - / 2 * ln (2 * PI) - / 2 * ln (qr var))%R.

(** src/normal_uc.py:63-68 NormalUC.logpdf *)
Definition nuc_logpdf (s : nuc) (rid : option Z) (T C I : row) : out xr :=
  do _ <- base_logpdf (nuc_data s) (nuc_o s) rid T C I;
  match lookup (nuc_o s) T with
  | None => Err KeyError
  | Some VNan => Ok (Fin 0%R)
  | Some (VQ q) => if qltb 0%Qc (nuc_var s)
                   then Ok (Fin (norm_logpdf q (nuc_mu s) (nuc_var s)))
                   else Err ValueError
  end.

(** [size=n] draws (src/normal_uc.py:74-76) *)
Fixpoint draw_list (l : law) (o : Z) (n : nat) : samp (list row) :=
  match n with
  | O => Ret []
  | S n' => DrawQ l (fun q => let! r := draw_list l o n' in Ret ([(o, VQ q)] :: r))
  end.

(** src/normal_uc.py:70-76 NormalUC.simulate: not wrapped by simulate_many. For a
    recorded row the single dict is returned whatever N is; math.sqrt raises for a
    negative variance (the constructor and set_params keep it positive). *)
Definition nuc_simulate (s : nuc) (rid : option Z) (ts : list Z) (C I : row) (N : option nat)
  : samp (out sres) :=
  match base_simulate (nuc_o s) ts C I with
  | Err e => Ret (Err e)
  | Ok _ =>
    match recorded rid (nuc_data s) with
    | Some x => Ret (Ok (SOne [(nuc_o s, x)]))
    | None =>
      let l := Normal (qr (nuc_mu s)) (sqrt (qr (nuc_var s))) in
      if qltb (nuc_var s) 0%Qc then Ret (Err ValueError) else
      match N with
      | None => DrawQ l (fun q => Ret (Ok (SOne [(nuc_o s, VQ q)])))
      | Some n => let! r := draw_list l (nuc_o s) n in Ret (Ok (SMany r))
      end
    end
  end.

(** src/normal_uc.py:78-84 NormalUC.logpdf_score *)
Definition nuc_score (s : nuc) : out xr :=
  do lv <- pylog (nuc_var s);
  let N := IZR (nuc_N s) in
  let term_1 := (- (N / 2) * LOG2PI)%R in
  let term_2 := (- (N / 2) * lv)%R in
  let pre := (- 1 / (2 * qr (nuc_var s)))%R in
  let sum := (qr (nuc_sumsq s) - 2 * qr (nuc_mu s) * qr (nuc_sum s)
              + N * (qr (nuc_mu s) * qr (nuc_mu s)))%R in
  Ok (Fin (term_1 + term_2 + pre * sum)%R).

(** ** The primitives together *)

(** A primitive CGPM object (subclasses of DistributionCGPM without inputs)
    (src/distribution.py:9). *)
Inductive dist :=
| DCrp (s : crp) | DCat (s : cat) | DBer (s : ber)
| DPoi (s : poi) | DNrm (s : nrm) | DNuc (s : nuc).

(** [self.outputs[0]] (src/crp.py:40) *)
Definition dist_o (d : dist) : Z :=
  match d with
  | DCrp s => crp_o s | DCat s => cat_o s | DBer s => ber_o s
  | DPoi s => poi_o s | DNrm s => nrm_o s | DNuc s => nuc_o s
  end.

(** [self.data], as cells (src/crp.py:46, 66). *)
Definition dist_data (d : dist) : dict Z val :=
  match d with
  | DCrp s => map (fun p => (fst p, vz (snd p))) (crp_data s)
  | DCat s => cat_data s | DBer s => ber_data s
  | DPoi s => poi_data s | DNrm s => nrm_data s | DNuc s => nuc_data s
  end.

(** Method dispatch: observe of src/{crp,categorical,bernoulli,poisson,normal,normal_uc}.py *)
Definition dist_observe (d : dist) (rid : Z) (obs I : row) : dist * out unit :=
  match d with
  | DCrp s => let (s', r) := crp_observe s rid obs I in (DCrp s', r)
  | DCat s => let (s', r) := cat_observe s rid obs I in (DCat s', r)
  | DBer s => let (s', r) := ber_observe s rid obs I in (DBer s', r)
  | DPoi s => let (s', r) := poi_observe s rid obs I in (DPoi s', r)
  | DNrm s => let (s', r) := nrm_observe s rid obs I in (DNrm s', r)
  | DNuc s => let (s', r) := nuc_observe s rid obs I in (DNuc s', r)
  end.

(** Method dispatch: unobserve (src/crp.py:48-55 and the like). *)
Definition dist_unobserve (d : dist) (rid : Z) : dist * out (row * row) :=
  match d with
  | DCrp s => let (s', r) := crp_unobserve s rid in (DCrp s', r)
  | DCat s => let (s', r) := cat_unobserve s rid in (DCat s', r)
  | DBer s => let (s', r) := ber_unobserve s rid in (DBer s', r)
  | DPoi s => let (s', r) := poi_unobserve s rid in (DPoi s', r)
  | DNrm s => let (s', r) := nrm_unobserve s rid in (DNrm s', r)
  | DNuc s => let (s', r) := nuc_unobserve s rid in (DNuc s', r)
  end.

(** Method dispatch: logpdf (src/crp.py:57-73 and the like). *)
Definition dist_logpdf (d : dist) (rid : option Z) (T C I : row) : out xr :=
  match d with
  | DCrp s => crp_logpdf s rid T C I
  | DCat s => cat_logpdf s rid T C I
  | DBer s => ber_logpdf s rid T C I
  | DPoi s => poi_logpdf s rid T C I
  | DNrm s => nrm_logpdf s rid T C I
  | DNuc s => nuc_logpdf s rid T C I
  end.

(** Method dispatch: simulate (all but NormalUC are wrapped by simulate_many)
    (src/crp.py:75-84 and the like). *)
Definition dist_simulate (d : dist) (rid : option Z) (ts : list Z) (C I : row) (N : option nat)
  : samp (out sres) :=
  match d with
  | DCrp s => simulate_many (crp_simulate1 s rid ts C I) N
  | DCat s => simulate_many (cat_simulate1 s rid ts C I) N
  | DBer s => simulate_many (ber_simulate1 s rid ts C I) N
  | DPoi s => simulate_many (poi_simulate1 s rid ts C I) N
  | DNrm s => simulate_many (nrm_simulate1 s rid ts C I) N
  | DNuc s => nuc_simulate s rid ts C I N
  end.

(** Method dispatch: logpdf_score (src/crp.py:86-87 and the like). *)
Definition dist_score (d : dist) : out xr :=
  match d with
  | DCrp s => crp_score s | DCat s => cat_score s | DBer s => ber_score s
  | DPoi s => poi_score s | DNrm s => nrm_score s | DNuc s => nuc_score s
  end.

(** Method dispatch: support (only CRP, Categorical and Bernoulli define it;
    AttributeError otherwise) (src/crp.py:130-132 and the like). *)
Definition dist_support (d : dist) : out (list Z) :=
  match d with
  | DCrp s => Ok (crp_support s)
  | DCat s => Ok (cat_support s)
  | DBer s => Ok (ber_support s)
  | _ => Err AttributeError
  end.

(** ** Hyperparameters: set_hypers / get_hypers *)

(** A dict of hyperparameters (src/distribution.py:64-70). *)
Definition hypers := dict string Qc.

(** [assert hypers[k] > 0] (src/crp.py:115) *)
Definition hpos (k : string) (h : hypers) : out unit :=
  do v <- dget k h; oassert (qltb 0%Qc v).

(** src/crp.py:114-116, src/categorical.py:108-110, src/bernoulli.py:109-113,
    src/poisson.py:115-119, src/normal.py:125-132, src/normal_uc.py:117-124 set_hypers.
    NormalUC assigns the keys one after the other; a KeyError can only come from the
    first of them ('m'), because the others were looked up by the assertions. *)
Definition dist_set_hypers (d : dist) (h : hypers) : dist * out unit :=
  match d with
  | DCrp s =>
    match (do _ <- hpos "alpha" h; dget "alpha" h) with
    | Ok a => (DCrp (mkCrp (crp_o s) (crp_data s) (crp_N s) (crp_counts s) a), Ok tt)
    | Err e => (d, Err e)
    end
  | DCat s =>
    match (do _ <- hpos "alpha" h; dget "alpha" h) with
    | Ok a => (DCat (mkCat (cat_o s) (cat_k s) (cat_data s) (cat_N s) (cat_counts s) a), Ok tt)
    | Err e => (d, Err e)
    end
  | DBer s =>
    match (do _ <- hpos "alpha" h; do _ <- hpos "beta" h;
           do a <- dget "alpha" h; do b <- dget "beta" h; Ok (a, b)) with
    | Ok (a, b) => (DBer (mkBer (ber_o s) (ber_data s) (ber_N s) (ber_sum s) a b), Ok tt)
    | Err e => (d, Err e)
    end
  | DPoi s =>
    match (do _ <- hpos "a" h; do _ <- hpos "b" h;
           do a <- dget "a" h; do b <- dget "b" h; Ok (a, b)) with
    | Ok (a, b) =>
        (DPoi (mkPoi (poi_o s) (poi_data s) (poi_N s) (poi_sum s) (poi_slf s) a b), Ok tt)
    | Err e => (d, Err e)
    end
  | DNrm s =>
    match (do _ <- hpos "r" h; do _ <- hpos "s" h; do _ <- hpos "nu" h;
           do m <- dget "m" h; do r <- dget "r" h; do s' <- dget "s" h; do nu <- dget "nu" h;
           Ok (m, r, s', nu)) with
    | Ok (m, r, s', nu) =>
        (DNrm (mkNrm (nrm_o s) (nrm_data s) (nrm_N s) (nrm_sum s) (nrm_sumsq s) m r s' nu), Ok tt)
    | Err e => (d, Err e)
    end
  | DNuc s =>
    match (do _ <- hpos "r" h; do _ <- hpos "s" h; do _ <- hpos "nu" h;
           do m <- dget "m" h; do r <- dget "r" h; do s' <- dget "s" h; do nu <- dget "nu" h;
           Ok (m, r, s', nu)) with
    | Ok (m, r, s', nu) =>
        (DNuc (mkNuc (nuc_o s) (nuc_data s) (nuc_N s) (nuc_sum s) (nuc_sumsq s)
                 (nuc_mu s) (nuc_var s)
                 (dset "nu" nu (dset "s" s' (dset "r" r (dset "m" m (nuc_hypers s)))))%string),
         Ok tt)
    | Err e => (d, Err e)
    end
  end%string.

(** src/crp.py:118-119, src/categorical.py:112-113, src/bernoulli.py:115-116,
    src/poisson.py:121-122, src/normal.py:134-135, src/normal_uc.py:126-127 get_hypers *)
Definition dist_get_hypers (d : dist) : hypers :=
  match d with
  | DCrp s => [("alpha", crp_alpha s)]
  | DCat s => [("alpha", cat_alpha s)]
  | DBer s => [("alpha", ber_alpha s); ("beta", ber_beta s)]
  | DPoi s => [("a", poi_a s); ("b", poi_b s)]
  | DNrm s => [("m", nrm_m s); ("r", nrm_r s); ("s", nrm_s s); ("nu", nrm_nu s)]
  | DNuc s => nuc_hypers s
  end%string.

(** ** Statistics *)

(** The statistics kept by a primitive: what get_suffstats returns
    (src/crp.py:124-125, src/categorical.py:118-119, src/bernoulli.py:121-122,
    src/poisson.py:127-129, src/normal.py:140-141), and for NormalUC, whose
    get_suffstats returns an empty dict (src/normal_uc.py:137-138), the same fields as
    exported by to_metadata (src/normal_uc.py:86-98). For CRP the tables are kept
    with their counts (to_metadata, src/crp.py:95). *)
Inductive suffstats :=
| SSCrp (N : Z) (counts : dict Z Z)
| SSCat (N : Z) (counts : list Z)
| SSBer (N x_sum : Z)
| SSPoi (N : Z) (sum_x : Qc) (sum_log_fact_x : R)
| SSNrm (N : Z) (sum_x sum_x_sq : Qc).

(** See [suffstats] (src/distribution.py:79-81). *)
Definition dist_suffstats (d : dist) : suffstats :=
  match d with
  | DCrp s => SSCrp (crp_N s) (crp_counts s)
  | DCat s => SSCat (cat_N s) (cat_counts s)
  | DBer s => SSBer (ber_N s) (ber_sum s)
  | DPoi s => SSPoi (poi_N s) (poi_sum s) (poi_slf s)
  | DNrm s => SSNrm (nrm_N s) (nrm_sum s) (nrm_sumsq s)
  | DNuc s => SSNrm (nuc_N s) (nuc_sum s) (nuc_sumsq s)
  end.

(** src/normal_uc.py:129-132 NormalUC.set_params; src/distribution.py:72-73 elsewhere
    (does nothing). *)
Definition dist_set_params (d : dist) (p : dict string Qc) : dist * out unit :=
  match d with
  | DNuc s =>
    match (do _ <- hpos "var" p; do mu <- dget "mu" p; do var <- dget "var" p; Ok (mu, var)) with
    | Ok (mu, var) =>
        (DNuc (mkNuc (nuc_o s) (nuc_data s) (nuc_N s) (nuc_sum s) (nuc_sumsq s) mu var
                 (nuc_hypers s)), Ok tt)
    | Err e => (d, Err e)
    end
  | _ => (d, Ok tt)
  end%string.
