(* Models of the operations users call on variables: arithmetic, elementary
   functions, reductions, matrix products, densities, comparisons. *)
From Verif Require Export Vari.

Notation "x <~ m ;; k" := (mbind m (fun x => k))
  (at level 61, m at next level, right associativity).

Section Ops.
Context {N : Num} {C : Cfg N}.

(* s = var(d, ops); call s%set_chain(ch) *)
Definition record_op (d : F) (ops : list Z) (ch : chain) : M Z :=
  s <~ new_var_val_op d ops ;; _ <~ set_chain s ch ;; mret s.

(* s = var(d, ops, dops); call s%set_chain(ch) *)
Definition record_op_d (d : F) (ops : list Z) (dops : list F) (ch : chain) : M Z :=
  s <~ new_var_val_op_dop d ops dops ;; _ <~ set_chain s ch ;; mret s.

(* s = v; call s%set_chain(ch): the result is the argument, and its chain
   pointer is replaced *)
Definition alias_op (v : Z) (ch : chain) : M Z := _ <~ set_chain v ch ;; mret v.

(* ---- src/add.F90 ---- *)
Definition add_vv (v1 v2 : Z) : M Z :=                            (* 27-33 *)
  x <~ vval v1 ;; y <~ vval v2 ;; record_op (fadd x y) [v1; v2] ChAddVV.
Definition add_vd (v : Z) (d : F) : M Z :=                        (* 43-53 *)
  if fne d f0 then x <~ vval v ;; record_op (fadd x d) [v] ChAddVD
  else alias_op v ChAddVD.
Definition add_dv (d : F) (v : Z) : M Z :=                        (* 55-65 *)
  if fne d f0 then x <~ vval v ;; record_op (fadd d x) [v] ChAddVD
  else alias_op v ChAddVD.
Definition pos (v : Z) : M Z := mret v.                           (* 67-71 *)

(* ---- src/sub.F90 ---- *)
Definition sub_vv (v1 v2 : Z) : M Z :=                            (* 28-33 *)
  x <~ vval v1 ;; y <~ vval v2 ;; record_op (fsub x y) [v1; v2] ChSubVV.
Definition sub_vd (v : Z) (d : F) : M Z :=                        (* 42-52 *)
  if fne d f0 then x <~ vval v ;; record_op (fsub x d) [v] ChSubVD
  else alias_op v ChSubVD.
Definition sub_dv (d : F) (v : Z) : M Z :=                        (* 61-67 *)
  x <~ vval v ;; record_op (fsub d x) [v] ChSubDV.
Definition neg (v : Z) : M Z :=                                   (* 69-74 *)
  x <~ vval v ;; record_op (fneg x) [v] ChSubDV.

(* ---- src/mul.F90 ---- *)
Definition mul_vv (v1 v2 : Z) : M Z :=                            (* 29-34 *)
  x <~ vval v1 ;; y <~ vval v2 ;; record_op (fmul x y) [v1; v2] ChMulVV.
Definition mul_vd (v : Z) (d : F) : M Z :=                        (* 43-53 *)
  if fne d f1 then x <~ vval v ;; record_op_d (fmul x d) [v] [d] ChMulVD
  else alias_op v ChMulVD.
Definition mul_dv (d : F) (v : Z) : M Z :=                        (* 55-65 *)
  if fne d f1 then x <~ vval v ;; record_op_d (fmul x d) [v] [d] ChMulVD
  else alias_op v ChMulVD.

(* ---- src/div.F90 ---- *)
Definition div_vv (v1 v2 : Z) : M Z :=                            (* 29-34 *)
  x <~ vval v1 ;; y <~ vval v2 ;; record_op (fdiv x y) [v1; v2] ChDivVV.
Definition div_vd (v : Z) (d : F) : M Z :=                        (* 44-54 *)
  if fne d f1 then x <~ vval v ;; record_op_d (fdiv x d) [v] [d] ChDivVD
  else alias_op v ChDivVD.
Definition div_dv (d : F) (v : Z) : M Z :=                        (* 64-70 *)
  x <~ vval v ;; record_op_d (fdiv d x) [v] [d] ChDivDV.

(* ---- elementary functions of one variable ---- *)

(* s = var(f(v%val()), [v]); call s%set_chain(ch) *)
Definition un_op (f : F -> F) (ch : chain) (v : Z) : M Z :=
  x <~ vval v ;; record_op (f x) [v] ch.

(* inv_d: src/inv.F90:34-38 *)
Definition inv_d (d : F) : F := fdiv f1 d.
(* logit_d: src/logit.F90:34-38 *)
Definition logit_d (d : F) : F := flog (fdiv d (fsub f1 d)).
(* inv_logit_d: src/inv_logit.F90:35-48 *)
Definition inv_logit_d (d : F) : F :=
  if flt d f0 then
    let e := fexp d in
    if flt d c_log_epsilon then e else fdiv e (fadd f1 e)
  else inv_d (fadd f1 (fexp (fneg d))).

Definition sin_v := un_op fsin ChSin.                             (* sin.F90:19-24 *)
Definition cos_v := un_op fcos ChCos.                             (* cos.F90:19-24 *)
Definition tan_v := un_op ftan ChTan.                             (* tan.F90:18-23 *)
Definition asin_v := un_op fasin ChAsin.                          (* asin.F90:19-24 *)
Definition acos_v := un_op facos ChAcos.                          (* acos.F90:19-24 *)
Definition atan_v := un_op fatan ChAtan.                          (* atan.F90:19-24 *)
Definition sinh_v := un_op fsinh ChSinh.                          (* sinh.F90:25-30 *)
Definition cosh_v := un_op fcosh ChCosh.                          (* cosh.F90:26-32 *)
Definition tanh_v := un_op ftanh ChTanh.                          (* tanh.F90:26-31 *)
Definition asinh_v := un_op fasinh ChAsinh.                       (* asinh.F90:26-32 *)
Definition exp_v := un_op fexp ChExp.                             (* exp.F90:18-23 *)
Definition log_v := un_op flog ChLog.                             (* log.F90:19-24 *)
Definition sqrt_v := un_op fsqrt ChSqrt.                          (* sqrt.F90:18-23 *)
Definition square := un_op (fun x => fmul x x) ChSq.              (* square.F90:22-27 *)
Definition inv_v := un_op (fun x => fdiv f1 x) ChInv.             (* inv.F90:27-32 *)
Definition inv_sqrt := un_op (fun x => fdiv f1 (fsqrt x)) ChIsqrt. (* inv_sqrt.F90:22-27 *)
(* as written, 1.d0 / v%val() * v%val() is (1/x)*x: inv_square.F90:22-27 *)
Definition inv_square := un_op (fun x => fmul (fdiv f1 x) x) ChIsq.
Definition logit_v := un_op logit_d ChLogit.                      (* logit.F90:27-32 *)
Definition inv_logit_v := un_op inv_logit_d ChInvLogit.           (* inv_logit.F90:28-33 *)
Definition erf_v := un_op ferf ChErf.                             (* erf.F90:20-25 *)
Definition erfc_v := un_op ferfc ChErfc.                          (* erfc.F90:20-25 *)
Definition log_gamma_v := un_op floggamma ChLogGamma.             (* log_gamma.F90:20-25 *)

(* acosh_v: src/acosh.F90:26-38 *)
Definition acosh_v (v : Z) : M Z :=
  x <~ vval v ;;
  if is_nan_d x then mret v
  else if fle x f1 then mlift ErrStop
  else record_op (facosh x) [v] ChAcosh.

(* atanh_v: src/atanh.F90:25-36 *)
Definition atanh_v (v : Z) : M Z :=
  x <~ vval v ;;
  if is_nan_d x then mret v
  else if fle x (fneg f1) || fge x f1 then mlift ErrStop
  else record_op (fatanh x) [v] ChAtanh.

(* abs_v: src/abs.F90:22-35 *)
Definition abs_v (v : Z) : M Z :=
  x <~ vval v ;;
  if fgt x f0 then mret v
  else if flt x f0 then neg v
  else if feq x f0 then new_var
  else record_op c_nan [v] ChAbs.

(* ---- src/pow.F90 ---- *)
Definition pow_vv (v1 v2 : Z) : M Z :=                            (* 56-61 *)
  x <~ vval v1 ;; y <~ vval v2 ;; record_op (fpow x y) [v1; v2] ChPowVV.
Definition pow_vd (v : Z) (d : F) : M Z :=                        (* 63-83 *)
  if feq d fhalf then sqrt_v v
  else if feq d f1 then mret v
  else if feq d f2 then square v
  else if feq d (fneg f2) then inv_square v
  else if feq d (fneg f1) then inv_v v
  else if feq d (fneg fhalf) then inv_sqrt v
  else x <~ vval v ;; record_op_d (fpow x d) [v] [d] ChPowVD.
Definition pow_dv (d : F) (v : Z) : M Z :=                        (* 85-91 *)
  x <~ vval v ;; record_op_d (fpow d x) [v] [d] ChPowDV.

(* ---- src/hypot.F90 ---- *)
Definition hypot_vv (v1 v2 : Z) : M Z :=                          (* 22-27 *)
  x <~ vval v1 ;; y <~ vval v2 ;; record_op (fhypot x y) [v1; v2] ChHypot.
Definition hypot_vd (v : Z) (d : F) : M Z :=                      (* 29-39 *)
  if fne d f0 then x <~ vval v ;; record_op (fhypot x d) [v] ChHypot
  else s <~ abs_v v ;; alias_op s ChHypot.
Definition hypot_dv (d : F) (v : Z) : M Z :=                      (* 41-51 *)
  if fne d f0 then x <~ vval v ;; record_op (fhypot x d) [v] ChHypot
  else alias_op v ChHypot.

(* ---- reductions ---- *)
Definition sum_v (vs : list Z) : M Z :=                           (* sum.F90:18-23 *)
  xs <~ vvals vs ;; record_op (fsum xs) vs ChSum.
Definition norm2_v (vs : list Z) : M Z :=                         (* norm2.F90:19-24 *)
  xs <~ vvals vs ;; record_op (fnorm2 xs) vs ChNorm2.

(* log_sum_exp_d: src/log_sum_exp.F90:29-38 *)
Definition log_sum_exp_d (d : list F) : F :=
  let m := fmaxval d in
  if is_inf m then m
  else fadd m (flog (fsum (map (fun x => fexp (fsub x m)) d))).
Definition log_sum_exp_v (vs : list Z) : M Z :=                   (* log_sum_exp.F90:40-45 *)
  xs <~ vvals vs ;; record_op (log_sum_exp_d xs) vs ChLse.

(* the intrinsic dot_product needs arrays of one size *)
Definition same_size {A B} (a : list A) (b : list B) : M unit :=
  if Nat.eqb (length a) (length b) then mret tt else mlift (Undef ShapeMismatch).

Definition dot_prod_vv (a b : list Z) : M Z :=                    (* dot_product.F90:27-32 *)
  _ <~ same_size a b ;;
  xs <~ vvals a ;; ys <~ vvals b ;; record_op (fdot xs ys) (a ++ b) ChDotVV.
Definition dot_prod_vd (a : list Z) (b : list F) : M Z :=         (* dot_product.F90:57-63 *)
  _ <~ same_size a b ;;
  xs <~ vvals a ;; record_op_d (fdot xs b) a b ChDotVD.
Definition dot_prod_dv (a : list F) (b : list Z) : M Z :=         (* dot_product.F90:65-71 *)
  _ <~ same_size a b ;;
  ys <~ vvals b ;; record_op_d (fdot a ys) b a ChDotVD.

(* ---- src/matmul.F90; matrices are column-major lists ---- *)

(* row i (from 0) of an m x k matrix, column j (from 0) of a k x n matrix *)
Definition mrow {A} (d : A) (m k : nat) (i : nat) (l : list A) : list A :=
  map (fun j => nth (i + j * m) l d) (seq 0 k).
Definition mcol {A} (d : A) (k : nat) (j : nat) (l : list A) : list A :=
  map (fun i => nth (i + j * k) l d) (seq 0 k).

(* index pairs (i, j) in the order of the loops `do j; do i` (from 0) *)
Definition mpairs (m n : nat) : list (nat * nat) :=
  flat_map (fun j => map (fun i => (i, j)) (seq 0 m)) (seq 0 n).

(* matmul intrinsic: entries in column-major order *)
Definition mat_vals (m k n : nat) (a b : list F) : list F :=
  map (fun p => fmm (mrow f0 m k (fst p) a) (mcol f0 k (snd p) b)) (mpairs m n).

(* callstack%stack as a state *)
Definition mtape {A} (f : tape -> res (A * tape)) : M A := fun s =>
  '(a, t) <- f (s_tape s) ;; Ok (a, set_tape s t).

(* an actual array whose element count is not its shape does not exist *)
Definition shaped {A} (l : list A) (n : nat) : M unit :=
  if Nat.eqb (length l) n then mret tt else mlift (Undef ShapeMismatch).

(* s(i,j) = var(s_val(i,j), [i, j, arr_a%loc, arr_b%loc]); set_chain *)
Definition mat_results (ch : chain) (m n : nat) (la lb : Z) (vals : list F) : M (list Z) :=
  mmap (fun q : (nat * nat) * F =>
          s <~ new_var_val_opid (snd q)
                 [Z.of_nat (fst (fst q)) + 1; Z.of_nat (snd (fst q)) + 1; la; lb] ;;
          _ <~ set_chain s ch ;; mret s)
       (combine (mpairs m n) vals).

(* mat_mul_vv: src/matmul.F90:35-53 *)
Definition mat_mul_vv (m k n : nat) (a b : list Z) : M (list Z) :=
  _ <~ shaped a (m * k) ;; _ <~ shaped b (k * n) ;;
  ia <~ mget (fun s => mapM (vi_index s) a) ;;
  la <~ mtape (fun t => ait_push_var_2d t (Z.of_nat m) (Z.of_nat k) ia) ;;
  ib <~ mget (fun s => mapM (vi_index s) b) ;;
  lb <~ mtape (fun t => ait_push_var_2d t (Z.of_nat k) (Z.of_nat n) ib) ;;
  av <~ vvals a ;; bv <~ vvals b ;;
  mat_results ChMatVV m n la lb (mat_vals m k n av bv).

(* mat_mul_vd: src/matmul.F90:65-83 *)
Definition mat_mul_vd (m k n : nat) (a : list Z) (b : list F) : M (list Z) :=
  _ <~ shaped a (m * k) ;; _ <~ shaped b (k * n) ;;
  ia <~ mget (fun s => mapM (vi_index s) a) ;;
  la <~ mtape (fun t => ait_push_var_2d t (Z.of_nat m) (Z.of_nat k) ia) ;;
  lb <~ mtape (fun t => ait_push_data_2d t (Z.of_nat k) (Z.of_nat n) b) ;;
  av <~ vvals a ;;
  mat_results ChMatVD m n la lb (mat_vals m k n av b).

(* mat_mul_dv: src/matmul.F90:95-113 *)
Definition mat_mul_dv (m k n : nat) (a : list F) (b : list Z) : M (list Z) :=
  _ <~ shaped a (m * k) ;; _ <~ shaped b (k * n) ;;
  la <~ mtape (fun t => ait_push_data_2d t (Z.of_nat m) (Z.of_nat k) a) ;;
  ib <~ mget (fun s => mapM (vi_index s) b) ;;
  lb <~ mtape (fun t => ait_push_var_2d t (Z.of_nat k) (Z.of_nat n) ib) ;;
  bv <~ vvals b ;;
  mat_results ChMatDV m n la lb (mat_vals m k n a bv).

(* ---- src/chain_eager_adj.F90:20-27 ---- *)
Definition var_with_partials (v : F) (ops : list Z) (part : list F) : M Z :=
  p <~ mlift (explicit_dummy (length ops) part) ;;
  record_op_d v ops p ChEager.

(* ---- src/prob/normal_lpdf.F90 ---- *)
Definition n_logp (mu sg y : F) : F :=                            (* 54-70 *)
  let is := fdiv f1 sg in
  let ys := fmul (fsub y mu) is in
  fsub (fsub (fneg (fmul (fmul fhalf ys) ys)) (flog sg)) c_log_sqrt_two_pi.
Definition n_dmu (mu sg y : F) : F :=                             (* 72-86 *)
  let is := fdiv f1 sg in fmul (fmul (fsub y mu) is) is.
Definition n_dsigma (mu sg y : F) : F :=                          (* 104-118 *)
  let is := fdiv f1 sg in
  let ys := fmul (fsub y mu) is in fsub (fmul (fmul is ys) ys) is.

(* ---- src/prob/lognormal_lpdf.F90 ---- *)
Definition ln_logp (mu sg y : F) : F :=                           (* 54-71 *)
  let is := fdiv f1 sg in
  let ys := fmul (fsub (flog y) mu) is in
  fsub (fsub (fsub (fneg (fmul (fmul fhalf ys) ys)) (flog sg)) (flog y)) c_log_sqrt_two_pi.
Definition ln_dmu (mu sg y : F) : F :=                            (* 73-87 *)
  let is := fdiv f1 sg in fmul (fmul (fsub (flog y) mu) is) is.
Definition ln_dsigma (mu sg y : F) : F :=                         (* 108-122 *)
  let is := fdiv f1 sg in
  let ys := fmul (fsub (flog y) mu) is in fsub (fmul (fmul is ys) ys) is.

(* the four argument mixes (y is always data): normal_lpdf.F90:21-52,
   lognormal_lpdf.F90:21-52 *)
Definition lpdf_vv (lp dm ds : F -> F -> F -> F) (y : list F) (mu sg : Z) : M Z :=
  m <~ vval mu ;; s <~ vval sg ;;
  var_with_partials (fsum (map (lp m s) y)) [mu; sg]
    [fsum (map (dm m s) y); fsum (map (ds m s) y)].
Definition lpdf_vd (lp dm : F -> F -> F -> F) (y : list F) (mu : Z) (sg : F) : M Z :=
  m <~ vval mu ;;
  var_with_partials (fsum (map (lp m sg) y)) [mu] [fsum (map (dm m sg) y)].
Definition lpdf_dv (lp ds : F -> F -> F -> F) (y : list F) (mu : F) (sg : Z) : M Z :=
  s <~ vval sg ;;
  var_with_partials (fsum (map (lp mu s) y)) [sg] [fsum (map (ds mu s) y)].
Definition lpdf_dd (lp : F -> F -> F -> F) (y : list F) (mu sg : F) : F :=
  fsum (map (lp mu sg) y).

Definition normal_lpdf_vv := lpdf_vv n_logp n_dmu n_dsigma.
Definition normal_lpdf_vd := lpdf_vd n_logp n_dmu.
Definition normal_lpdf_dv := lpdf_dv n_logp n_dsigma.
Definition normal_lpdf_dd := lpdf_dd n_logp.
Definition lognormal_lpdf_vv := lpdf_vv ln_logp ln_dmu ln_dsigma.
Definition lognormal_lpdf_vd := lpdf_vd ln_logp ln_dmu.
Definition lognormal_lpdf_dv := lpdf_dv ln_logp ln_dsigma.
Definition lognormal_lpdf_dd := lpdf_dd ln_logp.

(* ---- src/relational.F90 ---- *)
Inductive rel := REq | RNe | RGt | RLt | RGe | RLe.

(* the intrinsic comparison a S b *)
Definition frel (r : rel) (a b : F) : bool :=
  match r with
  | REq => feq a b | RNe => fne a b
  | RGt => fgt a b | RLt => flt a b
  | RGe => fge a b | RLe => fle a b
  end.

Definition rel_vv (r : rel) (a b : Z) : M bool :=                 (* 25 *)
  x <~ vval a ;; y <~ vval b ;; mret (frel r x y).
Definition rel_vd (r : rel) (a : Z) (b : F) : M bool :=           (* 26 *)
  x <~ vval a ;; mret (frel r x b).
(* as written: b%val() S a *)
Definition rel_dv (r : rel) (a : F) (b : Z) : M bool :=           (* 27 *)
  y <~ vval b ;; mret (frel r y a).

(* ---- straight-line programs over a register file of handles ---- *)

Inductive un :=
| USin | UCos | UTan | UAsin | UAcos | UAtan | USinh | UCosh | UTanh
| UAsinh | UAcosh | UAtanh | UExp | ULog | USqrt | USquare | UInv
| UInvSqrt | UInvSquare | ULogit | UInvLogit | UErf | UErfc | ULogGamma
| UNeg | UPos | UAbs.

Definition un_v (u : un) : Z -> M Z :=
  match u with
  | USin => sin_v | UCos => cos_v | UTan => tan_v
  | UAsin => asin_v | UAcos => acos_v | UAtan => atan_v
  | USinh => sinh_v | UCosh => cosh_v | UTanh => tanh_v
  | UAsinh => asinh_v | UAcosh => acosh_v | UAtanh => atanh_v
  | UExp => exp_v | ULog => log_v | USqrt => sqrt_v | USquare => square
  | UInv => inv_v | UInvSqrt => inv_sqrt | UInvSquare => inv_square
  | ULogit => logit_v | UInvLogit => inv_logit_v
  | UErf => erf_v | UErfc => erfc_v | ULogGamma => log_gamma_v
  | UNeg => neg | UPos => pos | UAbs => abs_v
  end.

Inductive bin := BAdd | BSub | BMul | BDiv | BPow | BHypot.

Definition bin_vv (b : bin) : Z -> Z -> M Z :=
  match b with
  | BAdd => add_vv | BSub => sub_vv | BMul => mul_vv | BDiv => div_vv
  | BPow => pow_vv | BHypot => hypot_vv
  end.
Definition bin_vd (b : bin) : Z -> F -> M Z :=
  match b with
  | BAdd => add_vd | BSub => sub_vd | BMul => mul_vd | BDiv => div_vd
  | BPow => pow_vd | BHypot => hypot_vd
  end.
Definition bin_dv (b : bin) : F -> Z -> M Z :=
  match b with
  | BAdd => add_dv | BSub => sub_dv | BMul => mul_dv | BDiv => div_dv
  | BPow => pow_dv | BHypot => hypot_dv
  end.

(* One call of the library.  Operands are positions in the list of results of
   the earlier calls (0 is the first).  [OPart] is var_with_partials with a
   value and partials the caller computes from the operands' values. *)
Inductive op :=
| OVar (d : F)
| OVar0
| OUn (u : un) (a : nat)
| OVV (b : bin) (x y : nat)
| OVD (b : bin) (x : nat) (d : F)
| ODV (b : bin) (d : F) (y : nat)
| OSum (l : list nat)
| ONorm2 (l : list nat)
| OLse (l : list nat)
| ODotVV (l1 l2 : list nat)
| ODotVD (l : list nat) (d : list F)
| ODotDV (d : list F) (l : list nat)
| OMatVV (m k n : nat) (a b : list nat)
| OMatVD (m k n : nat) (a : list nat) (b : list F)
| OMatDV (m k n : nat) (a : list F) (b : list nat)
| OPart (v : list F -> F) (p : list F -> list F) (l : list nat).

(* the handle in a register; a missing register is a caller error *)
Definition reg (env : list Z) (k : nat) : M Z :=
  match nth_error env k with
  | Some h => mret h
  | None => mlift (Undef OutOfBounds)
  end.
Definition regs (env : list Z) (l : list nat) : M (list Z) := mmap (reg env) l.

Definition one (m : M Z) : M (list Z) := h <~ m ;; mret [h].

(* results of one call, to be appended to the register file *)
Definition exec_op (env : list Z) (o : op) : M (list Z) :=
  match o with
  | OVar d => one (new_var_val d)
  | OVar0 => one new_var
  | OUn u a => x <~ reg env a ;; one (un_v u x)
  | OVV b a1 a2 => x <~ reg env a1 ;; y <~ reg env a2 ;; one (bin_vv b x y)
  | OVD b a d => x <~ reg env a ;; one (bin_vd b x d)
  | ODV b d a => x <~ reg env a ;; one (bin_dv b d x)
  | OSum l => xs <~ regs env l ;; one (sum_v xs)
  | ONorm2 l => xs <~ regs env l ;; one (norm2_v xs)
  | OLse l => xs <~ regs env l ;; one (log_sum_exp_v xs)
  | ODotVV l1 l2 => xs <~ regs env l1 ;; ys <~ regs env l2 ;; one (dot_prod_vv xs ys)
  | ODotVD l d => xs <~ regs env l ;; one (dot_prod_vd xs d)
  | ODotDV d l => xs <~ regs env l ;; one (dot_prod_dv d xs)
  | OMatVV m k n a b => xs <~ regs env a ;; ys <~ regs env b ;; mat_mul_vv m k n xs ys
  | OMatVD m k n a b => xs <~ regs env a ;; mat_mul_vd m k n xs b
  | OMatDV m k n a b => ys <~ regs env b ;; mat_mul_dv m k n a ys
  | OPart v p l =>
      xs <~ regs env l ;; vs <~ vvals xs ;;
      one (var_with_partials (v vs) xs (p vs))
  end.

(* run a program, extending the register file *)
Fixpoint exec (prog : list op) (env : list Z) : M (list Z) :=
  match prog with
  | [] => mret env
  | o :: t => r <~ exec_op env o ;; exec t (env ++ r)
  end.

End Ops.
