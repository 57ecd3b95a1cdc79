(* C28, C30-C32, C50 and the inv_logit part of C14.
   Vocabulary (beyond that of Properties_deriv).
   Claims_logit.v: [sigmoid x] = 1/(1+exp(-x)), [log_odds p] = ln(p/(1-p));
   [rtiny] = 2^-1022, Fortran tiny(1d0).
   Claims_lpdf.v: [normal_density mu sigma y], [lognormal_density mu sigma y],
   [log_likelihood density ys mu sigma] = ln of the product of the densities of ys.
   Claims_digamma.v: XINF, XMIN1, XMAX1, XSMALL (the constants of the source) and
   [reflection x] = -pi cot(pi x).
   ExactSpec.v: [records s s' h v l]: h is a new variable with value v, and whatever
   the adjoints are, a being that of h, its gradient step adds the amounts [l a]
   (pairs of variable and amount) one after the other, each with one addition, and
   changes nothing else;
   tables of formulas ([un_value], [un_step], ...). *)
From Coq Require Import ZifyBool ZifyNat.
From Flocq Require Import IEEE754.BinarySingleNaN IEEE754.Binary IEEE754.Bits.
From Verif Require Import TapeFacts.
From Verif Require Export Claims_lpdf Exact_mat Claims_idle Claims_logit Claims_digamma Properties_deriv.
Local Open Scope R_scope.

(* ---- C28 ---- *)
Theorem C28_inv_logit {lg : R -> R} (x : R) :
  0 <= @inv_logit_d (RNum lg) x <= 1 /\ Rabs (@inv_logit_d (RNum lg) x - sigmoid x) <= rtiny * rtiny /\
  Rabs (@inv_logit_d (RNum lg) x - sigmoid x) <= 23 / 10 ^ 309 /\
  (ln rtiny <= x -> @inv_logit_d (RNum lg) x = sigmoid x).
Proof. exact (@inv_logit_close lg x). Qed.
Print Assumptions C28_inv_logit.
Theorem C28_inv_logit_of_logit {lg : R -> R} (p : R) : 0 < p < 1 ->
  Rabs (@inv_logit_d (RNum lg) (@logit_d (RNum lg) p) - p) <= rtiny * rtiny /\
  (rtiny <= p -> @inv_logit_d (RNum lg) (@logit_d (RNum lg) p) = p).
Proof. exact (@logit_inverts lg p). Qed.
Print Assumptions C28_inv_logit_of_logit.
Theorem C28_logit_of_inv_logit {lg : R -> R} (x : R) :
  Rabs (@logit_d (RNum lg) (@inv_logit_d (RNum lg) x) - x) <= 2 * rtiny /\
  (ln rtiny <= x -> @logit_d (RNum lg) (@inv_logit_d (RNum lg) x) = x).
Proof. exact (@logit_of_inv_logit lg x). Qed.
Print Assumptions C28_logit_of_inv_logit.
(* the approximate branch exists: ln rtiny - 1 is a point where exp is returned *)
Example C28_ex : ln rtiny <= 0 /\ @inv_logit_d (RNum lg0) 0 = / 2 /\ 0 < rtiny < 1 / 4 /\
  @inv_logit_d (RNum lg0) (ln rtiny - 1) <> sigmoid (ln rtiny - 1).
Proof.
  pose proof tiny_pos as T0. pose proof tiny_1 as T1.
  assert (H0 : ln rtiny < 0) by (rewrite <- ln_1; apply ln_increasing; lra).
  split; [lra|]. split; [|split; [lra|]].
  - rewrite (proj2 (proj2 (proj2 (@C28_inv_logit lg0 0)))) by lra. unfold sigmoid. rewrite Ropp_0, exp_0. lra.
  - rewrite il_low by lra. rewrite sigmoid_e. pose proof (exp_pos (ln rtiny - 1)) as E. set (e := exp _) in *. intros H.
    assert (e * (1 + e) = e) by (rewrite H at 1; field; lra). nra.
Qed.

(* ---- C14, inv_logit of a variable, every value ---- *)
Theorem C14_inv_logit {lg : R -> R} {C : Cfg (RNum lg)} env0 (s : @st (RNum lg)) x (v : R) :
  @practical (RNum lg) C -> reachable env0 s -> alive s x -> var_val s x = Ok v -> roomy s 7 ->
  exists h s' (y d : R), inv_logit_v x s = Ok (h, s') /\ records s s' h y (fun a => (x, a * d) :: nil) /\
    Rabs (y - sigmoid v) <= rtiny * rtiny /\ Rabs (d - Derive sigmoid v) <= rtiny * rtiny /\
    (ln rtiny <= v -> y = sigmoid v /\ d = Derive sigmoid v).
Proof. exact (inv_logit_var env0 s x v). Qed.
Print Assumptions C14_inv_logit.
Example C14_inv_logit_ex : alive rs 1 /\ @var_val RN rs 1 = Ok 2 /\ roomy rs 7.
Proof. split; [apply (proj1 (Forall_forall _ _) rs_alive); cbn; auto|]. split; [vm_compute; reflexivity|apply rs_roomy; lia]. Qed.

(* ---- C30 ---- *)
Theorem C30_var_var {lg : R -> R} {C : Cfg (RNum lg)} env0 (s : @st (RNum lg)) ys mu sg (m sd : R) :
  @practical (RNum lg) C -> reachable env0 s -> alive s mu -> alive s sg -> var_val s mu = Ok m -> var_val s sg = Ok sd ->
  0 < sd -> roomy s 12 ->
  let L := log_likelihood normal_density ys in
  exists h s', @normal_lpdf_vv (RNum lg) C ys mu sg s = Ok (h, s') /\ var_val s' h = Ok (L m sd) /\
    (mu <> sg -> exists d e, is_derive (fun t => L t sd) m d /\ is_derive (fun t => L m t) sd e /\
       passes s s' h mu d /\ passes s s' h sg e) /\
    (mu = sg -> exists d, is_derive (fun t => L t t) m d /\ passes s s' h mu d) /\
    forall z, alive s z -> z <> mu -> z <> sg -> passes s s' h z 0.
Proof. exact (lpdf_vv_ok _ _ _ _ _ (@normal_scores lg ys) env0 s mu sg m sd). Qed.
Print Assumptions C30_var_var.
Theorem C30_var_real {lg : R -> R} {C : Cfg (RNum lg)} env0 (s : @st (RNum lg)) ys mu (m sd : R) :
  @practical (RNum lg) C -> reachable env0 s -> alive s mu -> var_val s mu = Ok m -> 0 < sd -> roomy s 9 ->
  let L := log_likelihood normal_density ys in
  exists h s' d, @normal_lpdf_vd (RNum lg) C ys mu sd s = Ok (h, s') /\ var_val s' h = Ok (L m sd) /\
    is_derive (fun t => L t sd) m d /\ passes s s' h mu d /\ forall z, alive s z -> z <> mu -> passes s s' h z 0.
Proof. exact (lpdf_vd_ok _ _ _ _ _ (@normal_scores lg ys) env0 s mu m sd). Qed.
Print Assumptions C30_var_real.
Theorem C30_real_var {lg : R -> R} {C : Cfg (RNum lg)} env0 (s : @st (RNum lg)) ys sg (m sd : R) :
  @practical (RNum lg) C -> reachable env0 s -> alive s sg -> var_val s sg = Ok sd -> 0 < sd -> roomy s 9 ->
  let L := log_likelihood normal_density ys in
  exists h s' d, @normal_lpdf_dv (RNum lg) C ys m sg s = Ok (h, s') /\ var_val s' h = Ok (L m sd) /\
    is_derive (fun t => L m t) sd d /\ passes s s' h sg d /\ forall z, alive s z -> z <> sg -> passes s s' h z 0.
Proof. exact (lpdf_dv_ok _ _ _ _ _ (@normal_scores lg ys) env0 s sg m sd). Qed.
Print Assumptions C30_real_var.
Theorem C30_real_real {lg : R -> R} ys (m sd : R) : 0 < sd -> @normal_lpdf_dd (RNum lg) ys m sd = log_likelihood normal_density ys m sd.
Proof. exact (lpdf_dd_ok _ _ _ _ _ (@normal_scores lg ys) m sd). Qed.
Print Assumptions C30_real_real.
(* as a call in a longer program, so that C08/C09 apply: it lies in the domain of
   those theorems and denotes the log likelihood *)
Theorem C30_in_program {lg : R -> R} {C : Cfg (RNum lg)} ys a b :
  let c := @lpdf_call lg (@n_logp (RNum lg)) (@n_dmu (RNum lg)) (@n_dsigma (RNum lg)) ys a b in
  op_shape c /\ neutral c = false /\
  (forall env s x y, nth_error env a = Some x -> nth_error env b = Some y ->
     exec_op env c s = one (@normal_lpdf_vv (RNum lg) C ys x y) s) /\
  forall m sd, 0 < sd -> op_dom c (m :: sd :: nil) /\ denote c (m :: sd :: nil) = log_likelihood normal_density ys m sd :: nil.
Proof. exact (lpdf_call_ok _ _ _ _ _ (@normal_scores lg ys) a b). Qed.
Print Assumptions C30_in_program.
Example C30_ex : alive rs 3 /\ alive rs 4 /\ @var_val RN rs 3 = Ok (2 * 3) /\ @var_val RN rs 4 = Ok (/ 2) /\ 0 < / 2 /\ roomy rs 12.
Proof.
  pose proof (proj1 (Forall_forall _ _) rs_alive) as H. split; [apply H; cbn; auto|]. split; [apply H; cbn; auto|].
  split; [vm_compute; reflexivity|]. split; [vm_compute; reflexivity|]. split; [lra|apply rs_roomy; lia].
Qed.

(* ---- C31 ---- *)
Theorem C31_var_var {lg : R -> R} {C : Cfg (RNum lg)} env0 (s : @st (RNum lg)) ys mu sg (m sd : R) :
  Forall (fun y => 0 < y) ys ->
  @practical (RNum lg) C -> reachable env0 s -> alive s mu -> alive s sg -> var_val s mu = Ok m -> var_val s sg = Ok sd ->
  0 < sd -> roomy s 12 ->
  let L := log_likelihood lognormal_density ys in
  exists h s', @lognormal_lpdf_vv (RNum lg) C ys mu sg s = Ok (h, s') /\ var_val s' h = Ok (L m sd) /\
    (mu <> sg -> exists d e, is_derive (fun t => L t sd) m d /\ is_derive (fun t => L m t) sd e /\
       passes s s' h mu d /\ passes s s' h sg e) /\
    (mu = sg -> exists d, is_derive (fun t => L t t) m d /\ passes s s' h mu d) /\
    forall z, alive s z -> z <> mu -> z <> sg -> passes s s' h z 0.
Proof. exact (fun HY => lpdf_vv_ok _ _ _ _ _ (@lognormal_scores lg ys HY) env0 s mu sg m sd). Qed.
Print Assumptions C31_var_var.
Theorem C31_var_real {lg : R -> R} {C : Cfg (RNum lg)} env0 (s : @st (RNum lg)) ys mu (m sd : R) :
  Forall (fun y => 0 < y) ys ->
  @practical (RNum lg) C -> reachable env0 s -> alive s mu -> var_val s mu = Ok m -> 0 < sd -> roomy s 9 ->
  let L := log_likelihood lognormal_density ys in
  exists h s' d, @lognormal_lpdf_vd (RNum lg) C ys mu sd s = Ok (h, s') /\ var_val s' h = Ok (L m sd) /\
    is_derive (fun t => L t sd) m d /\ passes s s' h mu d /\ forall z, alive s z -> z <> mu -> passes s s' h z 0.
Proof. exact (fun HY => lpdf_vd_ok _ _ _ _ _ (@lognormal_scores lg ys HY) env0 s mu m sd). Qed.
Print Assumptions C31_var_real.
Theorem C31_real_var {lg : R -> R} {C : Cfg (RNum lg)} env0 (s : @st (RNum lg)) ys sg (m sd : R) :
  Forall (fun y => 0 < y) ys ->
  @practical (RNum lg) C -> reachable env0 s -> alive s sg -> var_val s sg = Ok sd -> 0 < sd -> roomy s 9 ->
  let L := log_likelihood lognormal_density ys in
  exists h s' d, @lognormal_lpdf_dv (RNum lg) C ys m sg s = Ok (h, s') /\ var_val s' h = Ok (L m sd) /\
    is_derive (fun t => L m t) sd d /\ passes s s' h sg d /\ forall z, alive s z -> z <> sg -> passes s s' h z 0.
Proof. exact (fun HY => lpdf_dv_ok _ _ _ _ _ (@lognormal_scores lg ys HY) env0 s sg m sd). Qed.
Print Assumptions C31_real_var.
Theorem C31_real_real {lg : R -> R} ys (m sd : R) : Forall (fun y => 0 < y) ys -> 0 < sd ->
  @lognormal_lpdf_dd (RNum lg) ys m sd = log_likelihood lognormal_density ys m sd.
Proof. exact (fun HY => lpdf_dd_ok _ _ _ _ _ (@lognormal_scores lg ys HY) m sd). Qed.
Print Assumptions C31_real_real.
Theorem C31_in_program {lg : R -> R} {C : Cfg (RNum lg)} ys a b : Forall (fun y => 0 < y) ys ->
  let c := @lpdf_call lg (@ln_logp (RNum lg)) (@ln_dmu (RNum lg)) (@ln_dsigma (RNum lg)) ys a b in
  op_shape c /\ neutral c = false /\
  (forall env s x y, nth_error env a = Some x -> nth_error env b = Some y ->
     exec_op env c s = one (@lognormal_lpdf_vv (RNum lg) C ys x y) s) /\
  forall m sd, 0 < sd -> op_dom c (m :: sd :: nil) /\ denote c (m :: sd :: nil) = log_likelihood lognormal_density ys m sd :: nil.
Proof. exact (fun HY => lpdf_call_ok _ _ _ _ _ (@lognormal_scores lg ys HY) a b). Qed.
Print Assumptions C31_in_program.
Example C31_ex : Forall (fun y => 0 < y) [1; 5; / 3] /\ alive rs 3 /\ alive rs 4 /\ @var_val RN rs 3 = Ok (2 * 3) /\ @var_val RN rs 4 = Ok (/ 2) /\
  0 < / 2 /\ roomy rs 12.
Proof. split; [repeat constructor; lra|]. exact C30_ex. Qed.

(* ---- C32 ---- *)
(* any arithmetic, binary64 included *)
Theorem C32_log_gamma {N : Num} {RL : RepLaws N} {C : Cfg N} env0 s x v :
  practical -> reachable env0 s -> alive s x -> var_val s x = Ok v -> roomy s 7 ->
  exists h s', log_gamma_v x s = Ok (h, s') /\ records s s' h (floggamma v) (fun a => [(x, fmul a (digamma v))]).
Proof. exact (fun HP HR HA HX => un_exact env0 s ULogGamma x v HP HR HA HX eq_refl). Qed.
Print Assumptions C32_log_gamma.
Theorem C32_errors {lg : R -> R} (x : R) :
  (x < - XMAX1 \/ x = 0 \/ (x < 0 /\ exists z : Z, x = IZR z) \/ - XMIN1 < x < 0 -> @digamma (RNum lg) x = XINF) /\
  (0 < x < XMIN1 -> @digamma (RNum lg) x = - XINF).
Proof. exact (@digamma_errors lg x). Qed.
Print Assumptions C32_errors.
(* elsewhere below 1/2: psi(x) = psi(1-x) - pi cot(pi x), up to the accuracy of the
   constant pi/4 in the source; very near 0 cot is replaced by its pole *)
Theorem C32_reflection {lg : R -> R} (x : R) : - XMAX1 < x < / 2 -> XMIN1 <= Rabs x -> ~ (x < 0 /\ exists z : Z, x = IZR z) ->
  (XSMALL < Rabs x -> Rabs (@digamma (RNum lg) x - (@digamma (RNum lg) (1 - x) + reflection x)) <= 1 / 10 ^ 19) /\
  (Rabs x <= XSMALL -> @digamma (RNum lg) x = @digamma (RNum lg) (1 - x) - 1 / x /\
     Rabs (@digamma (RNum lg) x - (@digamma (RNum lg) (1 - x) + reflection x)) <= 21 / 10 ^ 9).
Proof. exact (@digamma_reflects lg x). Qed.
Print Assumptions C32_reflection.
Example C32_ex : (- XMAX1 < - (5 / 2) < / 2 /\ XMIN1 <= Rabs (- (5 / 2)) /\ ~ (- (5 / 2) < 0 /\ exists z : Z, - (5 / 2) = IZR z) /\ XSMALL < Rabs (- (5 / 2))) /\
  (0 < XMIN1 / 2 < XMIN1) /\ (exists z : Z, -3 = IZR z) /\ XMIN1 < XSMALL.
Proof.
  assert (A : Rabs (- (5 / 2)) = 5 / 2) by (rewrite Rabs_Ropp, Rabs_pos_eq; lra). rewrite A.
  unfold XMAX1, XMIN1, XSMALL. split; [|split; [lra|split; [exists (-3)%Z; reflexivity|lra]]].
  split; [lra|]. split; [lra|]. split; [|lra]. intros [_ [z Hz]].
  assert (H : 2 * IZR z = -5) by lra. rewrite <- mult_IZR in H. apply eq_IZR in H. lia.
Qed.

(* ---- C50 ---- *)
Section AnyArithmetic.
Context {N : Num} {RL : RepLaws N} {C : Cfg N}.
Local Open Scope Z_scope.

Theorem C50_unary env0 s u x v : practical -> reachable env0 s -> alive s x -> var_val s x = Ok v -> un_records u v = true -> roomy s 7 ->
  exists h s', un_v u x s = Ok (h, s') /\ records s s' h (un_value u v) (fun a => [(x, un_step u v (un_value u v) a)]).
Proof. exact (un_exact env0 s u x v). Qed.
Theorem C50_var_var env0 s b x y v w : practical -> reachable env0 s -> alive s x -> alive s y -> var_val s x = Ok v -> var_val s y = Ok w -> roomy s 8 ->
  exists h s', bin_vv b x y s = Ok (h, s') /\
    records s s' h (bin_value b v w) (fun a => combine [x; y] (vv_step b v w (bin_value b v w) a)).
Proof. exact (vv_exact env0 s b x y v w). Qed.
Theorem C50_var_real env0 s b x d v : practical -> reachable env0 s -> alive s x -> var_val s x = Ok v -> vd_records b d = true -> roomy s 9 ->
  exists h s', bin_vd b x d s = Ok (h, s') /\
    records s s' h (vd_value b v d) (fun a => combine [x] (vd_step b v d (vd_value b v d) a)).
Proof. exact (vd_exact env0 s b x d v). Qed.
Theorem C50_real_var env0 s b d x v : practical -> reachable env0 s -> alive s x -> var_val s x = Ok v -> dv_records b d = true -> roomy s 9 ->
  exists h s', bin_dv b d x s = Ok (h, s') /\
    records s s' h (dv_value b d v) (fun a => combine [x] (dv_step b d v (dv_value b d v) a)).
Proof. exact (dv_exact env0 s b d x v). Qed.
Theorem C50_sum env0 s xs ws : practical -> reachable env0 s -> Forall (alive s) xs -> mapM (var_val s) xs = Ok ws -> roomy s (6 + zlen xs) ->
  exists h s', sum_v xs s = Ok (h, s') /\ records s s' h (fsum ws) (fun a => map (fun x => (x, a)) xs).
Proof. exact (sum_exact env0 s xs ws). Qed.
Theorem C50_norm2 env0 s xs ws : practical -> reachable env0 s -> Forall (alive s) xs -> mapM (var_val s) xs = Ok ws -> roomy s (6 + zlen xs) ->
  exists h s', norm2_v xs s = Ok (h, s') /\
    records s s' h (fnorm2 ws) (fun a => combine xs (map (fun w => fdiv (fmul a w) (fnorm2 ws)) ws)).
Proof. exact (norm2_exact env0 s xs ws). Qed.
Theorem C50_log_sum_exp env0 s xs ws : practical -> reachable env0 s -> Forall (alive s) xs -> mapM (var_val s) xs = Ok ws -> roomy s (6 + zlen xs) ->
  exists h s', log_sum_exp_v xs s = Ok (h, s') /\
    records s s' h (log_sum_exp_d ws) (fun a => combine xs (map (fun w => fmul a (fexp (fsub w (log_sum_exp_d ws)))) ws)).
Proof. exact (lse_exact env0 s xs ws). Qed.
Theorem C50_dot_var_var env0 s xs ys ws us : practical -> reachable env0 s -> Forall (alive s) xs -> Forall (alive s) ys ->
  mapM (var_val s) xs = Ok ws -> mapM (var_val s) ys = Ok us -> length xs = length ys -> roomy s (6 + 2 * zlen xs) ->
  exists h s', dot_prod_vv xs ys s = Ok (h, s') /\
    records s s' h (fdot ws us) (fun a => combine (xs ++ ys) (map (fmul a) us ++ map (fmul a) ws)).
Proof. exact (dot_vv_exact env0 s xs ys ws us). Qed.
Theorem C50_dot_var_real env0 s xs ws ds : practical -> reachable env0 s -> Forall (alive s) xs ->
  mapM (var_val s) xs = Ok ws -> length xs = length ds -> roomy s (6 + 3 * zlen xs) ->
  exists h s', dot_prod_vd xs ds s = Ok (h, s') /\ records s s' h (fdot ws ds) (fun a => combine xs (map (fmul a) ds)).
Proof. exact (dot_vd_exact env0 s xs ws ds). Qed.
Theorem C50_dot_real_var env0 s xs ws ds : practical -> reachable env0 s -> Forall (alive s) xs ->
  mapM (var_val s) xs = Ok ws -> length ds = length xs -> roomy s (6 + 3 * zlen xs) ->
  exists h s', dot_prod_dv ds xs s = Ok (h, s') /\ records s s' h (fdot ds ws) (fun a => combine xs (map (fmul a) ds)).
Proof. exact (dot_dv_exact env0 s xs ws ds). Qed.
Theorem C50_partials env0 s v xs ps : practical -> reachable env0 s -> Forall (alive s) xs -> length ps = length xs -> roomy s (6 + 3 * zlen xs) ->
  exists h s', var_with_partials v xs ps s = Ok (h, s') /\ records s s' h v (fun a => combine xs (map (fmul a) ps)).
Proof. exact (partials_exact env0 s v xs ps). Qed.
(* entry (i, j) of a product of an m by k and a k by n matrix *)
Theorem C50_matmul_var_var env0 s m k n xs ys ws us : practical -> reachable env0 s -> Forall (alive s) xs -> Forall (alive s) ys ->
  mapM (var_val s) xs = Ok ws -> mapM (var_val s) ys = Ok us -> length xs = (m * k)%nat -> length ys = (k * n)%nat ->
  Z.of_nat m <= max_int -> Z.of_nat k <= max_int -> Z.of_nat n <= max_int -> roomy s (4 + zlen xs + zlen ys + 10 * Z.of_nat (m * n)) ->
  exists hs s', mat_mul_vv m k n xs ys s = Ok (hs, s') /\ length hs = (m * n)%nat /\
    forall i j, (i < m)%nat -> (j < n)%nat -> exists h, nth_error hs (i + j * m) = Some h /\
      records s s' h (fmm (row f0 m k i ws) (col f0 k j us))
        (fun a => combine (row 0 m k i xs) (map (fmul a) (col f0 k j us)) ++ combine (col 0 k j ys) (map (fmul a) (row f0 m k i ws))).
Proof. exact (mat_vv_exact env0 s m k n xs ys ws us). Qed.
Theorem C50_matmul_var_real env0 s m k n xs ws ds : practical -> reachable env0 s -> Forall (alive s) xs ->
  mapM (var_val s) xs = Ok ws -> length xs = (m * k)%nat -> length ds = (k * n)%nat ->
  Z.of_nat m <= max_int -> Z.of_nat k <= max_int -> Z.of_nat n <= max_int -> roomy s (4 + zlen xs + 2 * zlen ds + 10 * Z.of_nat (m * n)) ->
  exists hs s', mat_mul_vd m k n xs ds s = Ok (hs, s') /\ length hs = (m * n)%nat /\
    forall i j, (i < m)%nat -> (j < n)%nat -> exists h, nth_error hs (i + j * m) = Some h /\
      records s s' h (fmm (row f0 m k i ws) (col f0 k j ds)) (fun a => combine (row 0 m k i xs) (map (fmul a) (col f0 k j ds))).
Proof. exact (mat_vd_exact env0 s m k n xs ws ds). Qed.
Theorem C50_matmul_real_var env0 s m k n ds ys us : practical -> reachable env0 s -> Forall (alive s) ys ->
  mapM (var_val s) ys = Ok us -> length ds = (m * k)%nat -> length ys = (k * n)%nat ->
  Z.of_nat m <= max_int -> Z.of_nat k <= max_int -> Z.of_nat n <= max_int -> roomy s (4 + 2 * zlen ds + zlen ys + 10 * Z.of_nat (m * n)) ->
  exists hs s', mat_mul_dv m k n ds ys s = Ok (hs, s') /\ length hs = (m * n)%nat /\
    forall i j, (i < m)%nat -> (j < n)%nat -> exists h, nth_error hs (i + j * m) = Some h /\
      records s s' h (fmm (row f0 m k i ds) (col f0 k j us)) (fun a => combine (col 0 k j ys) (map (fmul a) (row f0 m k i ds))).
Proof. exact (mat_dv_exact env0 s m k n ds ys us). Qed.
End AnyArithmetic.
Print Assumptions C50_unary.
Print Assumptions C50_var_var.
Print Assumptions C50_var_real.
Print Assumptions C50_real_var.
Print Assumptions C50_sum.
Print Assumptions C50_norm2.
Print Assumptions C50_log_sum_exp.
Print Assumptions C50_dot_var_var.
Print Assumptions C50_dot_var_real.
Print Assumptions C50_dot_real_var.
Print Assumptions C50_partials.
Print Assumptions C50_matmul_var_var.
Print Assumptions C50_matmul_var_real.
Print Assumptions C50_matmul_real_var.
(* in binary64, with any library functions: variables 3 and -3, then 3 * -3 in a
   nested block that ended, so that the next record reuses its slots *)
Section Ex50.
Context (L : Libm).
Local Notation BN := (B64 L).
Local Notation BM := (demo (B64 L)).
Definition bwork : list (@cmd BN) := [COp (@OVar BN c3); COp (@OVar BN cm3); CBegin; COp (OVV BMul 0 1); CGradNested 2; CEnd].
Example C50_ex : @practical BN BM /\ @reachable BN BM [1; 2; 3]%Z (@state_of BN BM bwork) /\
  Forall (alive (@state_of BN BM bwork)) [1; 2; 1]%Z /\
  mapM (@var_val BN (@state_of BN BM bwork)) [1; 2; 1]%Z = Ok [c3; cm3; c3] /\ @roomy BN (@state_of BN BM bwork) 100 /\
  @un_records BN UAcosh c3 = true /\ @vd_records BN BAdd cm3 = true /\ @dv_records BN BMul cm3 = true /\
  length [1; 2; 1; 2]%Z = (2 * 2)%nat.
Proof.
  split; [exact (demo_practical BN)|]. split; [exact (@runs_reach BN BM bwork ltac:(repeat constructor) ltac:(vm_compute; reflexivity))|].
  split; [repeat constructor; vm_compute; try reflexivity; discriminate|].
  split; [vm_compute; reflexivity|]. split; [split; vm_compute; [reflexivity|discriminate]|].
  repeat split; vm_compute; reflexivity.
Qed.
End Ex50.

(* ---- C44 ---- *)
(* The full statement (any calls whose results are not used) is false: C44_refuted.
   Missing are exactly the calls excluded by the last hypothesis: those whose own
   step, run with adjoint zero, adds something other than zero. *)
(* Claims_idle.v: [idle s y h]: with the adjoint of y one and all others zero, the
   step of h changes no adjoint; [same_gradient s s' y]: set_zero_all_adj and grad on
   y succeed in s and s' and give each variable of s the same adjoint, bit for bit. *)
Theorem C44_calls_partial {N : Num} {RL : RepLaws N} {C : Cfg N} env0 s env p env' s' y :
  practical -> reachable env0 s -> Forall (alive s) env -> prog_ok' p -> exec p env s = Ok (env', s') -> alive s y ->
  (forall h, alive s' h -> ~ alive s h -> idle s' y h) -> same_gradient s s' y.
Proof. exact (fun HP HR => idle_calls s env p env' s' y HP (reach_snd env0 s HP HR)). Qed.
Print Assumptions C44_calls_partial.
(* binary64, one call: every amount its variables record (C50) is a zero for adjoint 0 *)
Theorem C44_call_partial (L : Libm) {C : Cfg (B64 L)} env0 s env o hs s' y :
  @practical (B64 L) C -> reachable env0 s -> Forall (alive s) env -> op_shape o -> neutral o = false ->
  exec_op env o s = Ok (hs, s') -> alive s y ->
  (forall h, alive s' h -> ~ alive s h -> exists v l, records s s' h v l /\ Forall (fun p => is_zero64 (snd p) = true) (l c0)) ->
  same_gradient s s' y.
Proof. exact (zeros_call L env0 s env o hs s' y). Qed.
Print Assumptions C44_call_partial.
(* ... a product with the adjoint is a zero unless the other factor is Inf or NaN *)
Theorem C44_finite (d : binary64) : is_zero64 (b64_mult rne c0 d) = Binary.is_finite 53 1024 d.
Proof. exact (zero_times d). Qed.
Print Assumptions C44_finite.
Section Ex44.
Context (L : Libm).
Local Notation BN := (B64 L).
Local Notation BM := (demo (B64 L)).
(* sqrt(x) at x = 3, unused, after y = 3 * -3 *)
Definition bwork44 : list (@cmd BN) := [COp (@OVar BN c3); COp (@OVar BN cm3); COp (OVV BMul 0 1)].
Example C44_ex : exists hs s', @exec_op BN BM [1; 2; 3]%Z (OUn USqrt 0) (@state_of BN BM bwork44) = Ok (hs, s') /\
  @reachable BN BM [1; 2; 3]%Z (@state_of BN BM bwork44) /\ Forall (alive (@state_of BN BM bwork44)) [1; 2; 3]%Z /\
  @op_shape BN (OUn USqrt 0) /\ @neutral BN (OUn USqrt 0) = false /\
  forall h, alive s' h -> ~ alive (@state_of BN BM bwork44) h ->
    exists v l, @records BN BM (@state_of BN BM bwork44) s' h v l /\ Forall (fun p => is_zero64 (snd p) = true) (l c0).
Proof.
  assert (HR : @reachable BN BM [1; 2; 3]%Z (@state_of BN BM bwork44)) by exact (@runs_reach BN BM bwork44 ltac:(repeat constructor) ltac:(vm_compute; reflexivity)).
  assert (HA : Forall (alive (@state_of BN BM bwork44)) [1; 2; 3]%Z) by (repeat constructor; vm_compute; try reflexivity; discriminate).
  destruct (@C50_unary BN _ BM [1; 2; 3]%Z (@state_of BN BM bwork44) USqrt 1%Z c3 (demo_practical BN) HR) as (h & s' & E & Rc).
  - inversion HA; auto.
  - vm_compute; reflexivity.
  - reflexivity.
  - split; vm_compute; [reflexivity|discriminate].
  - exists (h :: nil), s'.
    split; [cbn [exec_op reg nth_error]; unfold one; rewrite (mbind_ok _ _ _ _ _ (eq_refl : mret 1%Z _ = Ok (1%Z, _))), (mbind_ok _ _ _ _ _ E); reflexivity|].
    split; [exact HR|]. split; [exact HA|]. split; [exact Logic.I|]. split; [reflexivity|].
    intros h' H1 H2. assert (h' = h) as ->.
    { assert (A : (match @un_v BN BM USqrt 1 (@state_of BN BM bwork44) with Ok (x, t) => (x, s_head t) | _ => (0, 0) end = (4, 5))%Z) by (vm_compute; reflexivity).
      assert (B : s_head (@state_of BN BM bwork44) = 4%Z) by (vm_compute; reflexivity).
      rewrite E in A. assert (h = 4%Z) by congruence. assert (s_head s' = 5%Z) by congruence. unfold alive in H1, H2. lia. }
    eexists. eexists. split; [exact Rc|]. repeat constructor; vm_compute; reflexivity.
Qed.
End Ex44.
