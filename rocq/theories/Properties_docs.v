(* C58: the programs of README.md and of the user guide.
   Vocabulary.  Docs.v: the programs as sequences of library calls, with the numbers of the
   text as parameters ([var_grad_test], [readme_f], [array_test], [matmul_test],
   [param_rhs]).  DocsSpec.v: [normal_back]: the backward pass of the normal density by hand;
   [normal_density]: its logarithm; [matmul_back]: for every entry (i,j) of a product the
   derivatives by all entries of the factors. *)
From Coq Require Import ZifyBool ZifyNat.
From Flocq Require Import IEEE754.BinarySingleNaN IEEE754.Binary IEEE754.Bits.
From Verif Require Import TapeFacts.
From Verif Require Export Properties_smooth Properties_reverse Claims_docs2.
Import ListNotations.
Local Open Scope nat_scope.

(* ---- var_grad_test ---- *)
(* what the program prints, in any arithmetic *)
Theorem C58_normal_any {N : Num} {RL : RepLaws N} {C : Cfg N} env0 (s : st) c y mu sigma : practical -> reachable env0 s ->
  feq fhalf f1 = false -> feq f2 fhalf = false -> feq f2 f1 = false -> feq f2 f2 = true -> roomy s 72 ->
  exists s', var_grad_test c y mu sigma s = Ok (normal_back y mu sigma, s').
Proof. exact (normal_any env0 s c y mu sigma). Qed.
Print Assumptions C58_normal_any.
(* in exact arithmetic: the derivatives of the density by mu and sigma *)
Theorem C58_normal {lg : R -> R} {C : Cfg (RNum lg)} env0 (s : @st (RNum lg)) (c y mu sigma : R) :
  @practical (RNum lg) C -> reachable env0 s -> (0 < sigma)%R -> roomy s 72 ->
  exists s', @var_grad_test (RNum lg) C c y mu sigma s = Ok ([(y - mu) / sigma ^ 2; (y - mu) ^ 2 / sigma ^ 3 - 1 / sigma]%R, s').
Proof. exact (normal_real env0 s c y mu sigma). Qed.
Print Assumptions C58_normal.

(* ---- grad_test ---- *)
Theorem C58_gradient_any {N : Num} {RL : RepLaws N} {C : Cfg N} env0 (s : st) c y mu sigma : practical -> reachable env0 s -> (s_lvl s < 10)%Z ->
  feq fhalf f1 = false -> feq f2 fhalf = false -> feq f2 f1 = false -> feq f2 f2 = true -> roomy s 65 -> ~ exactly_full s 65 ->
  exists s', gradient (call_fn1 (readme_f c y)) [mu; sigma] s =
    Ok (fsub (fsub c (flog sigma)) (fmul (fmul (fdiv (fsub y mu) sigma) (fdiv (fsub y mu) sigma)) fhalf) :: normal_back y mu sigma, s').
Proof. exact (gradient_any env0 s c y mu sigma). Qed.
Print Assumptions C58_gradient_any.
Theorem C58_gradient {lg : R -> R} {C : Cfg (RNum lg)} env0 (s : @st (RNum lg)) (y mu sigma : R) :
  @practical (RNum lg) C -> reachable env0 s -> (s_lvl s < 10)%Z -> (0 < sigma)%R -> roomy s 65 -> ~ exactly_full s 65 ->
  exists s', @gradient (RNum lg) C (@call_fn1 (RNum lg) C (@readme_f (RNum lg) (- (1 / 2) * ln (2 * PI))%R y)) [mu; sigma] s =
    Ok ([normal_density y mu sigma; (y - mu) / sigma ^ 2; (y - mu) ^ 2 / sigma ^ 3 - 1 / sigma]%R, s').
Proof. exact (normal_gradient env0 s y mu sigma). Qed.
Print Assumptions C58_gradient.

(* ---- arrays ---- *)
(* d = log(b * a * exp(c)): after d(k)%grad() the array c%adj() is 1 at k and 0 elsewhere,
   for arrays of any length *)
Theorem C58_arrays {lg : R -> R} {C : Cfg (RNum lg)} (a : list R) (b : R) env0 (s : @st (RNum lg)) k :
  @practical (RNum lg) C -> reachable env0 s -> k < length a -> (0 < b * nth k a 0)%R -> roomy s (6 + 45 * zlen a) ->
  exists s', @array_test (RNum lg) C (length a) a b k s = Ok (map (fun j => if j =? k then 1 else 0)%R (seq 0 (length a)), s').
Proof. exact (array_real a b env0 s k). Qed.
Print Assumptions C58_arrays.

(* ---- matrix product ---- *)
(* the loop over all entries of z = matmul(x, y), each with grad and a reset *)
Theorem C58_matmul {lg : R -> R} {C : Cfg (RNum lg)} m p n (a b : list R) env0 (s : @st (RNum lg)) :
  length a = m * p -> length b = p * n -> (Z.of_nat m <= max_int)%Z -> (Z.of_nat p <= max_int)%Z -> (Z.of_nat n <= max_int)%Z ->
  @practical (RNum lg) C -> reachable env0 s ->
  roomy s (4 + 7 * (Z.of_nat (m * p) + Z.of_nat (p * n)) + 10 * Z.of_nat (m * n)) ->
  exists s', @matmul_test (RNum lg) C m p n a b s = Ok (matmul_back m p n a b, s').
Proof. exact (fun La Lb Bm Bp Bn => matmul_real m p n a b La Lb Bm Bp Bn env0 s). Qed.
Print Assumptions C58_matmul.

(* ---- ODE ---- *)
(* the sensitivities of fy(1) = y(2), fy(2) = sin(p(1)*p(2)*p(3)*t) by its parameters, at
   every time but t = 1 *)
Theorem C58_ode {lg : R -> R} {C : Cfg (RNum lg)} (t y1 y2 p1 p2 p3 : R) env0 (s : @st (RNum lg)) (v1 v2 v3 w1 w2 w3 : R) :
  t <> 1%R -> @practical (RNum lg) C -> reachable env0 s -> (s_lvl s < 10)%Z -> roomy s 74 -> ~ exactly_full s 74 ->
  let k := (cos (p1 * p2 * p3 * t) * t)%R in
  exists s', @set_sens_rhs (RNum lg) C t [y1; y2] [[v1; w1]; [v2; w2]; [v3; w3]]
      (@mkRhs (RNum lg) false 3 [p1; p2; p3] (@rhs_fn (RNum lg) C (@param_rhs (RNum lg)))) s =
    Ok ([[w1; k * (p2 * p3)]; [w2; k * (p1 * p3)]; [w3; k * (p1 * p2)]]%R, s').
Proof. exact (fun Ht => param_real t y1 y2 p1 p2 p3 Ht env0 s v1 v2 v3 w1 w2 w3). Qed.
Print Assumptions C58_ode.

Section Ex58.
Context (L : Libm).
Local Notation BN := (B64 L).
Local Notation BM := (demo (B64 L)).
Local Notation bs := (@state_of BN BM (bwork52 L)).
Definition d1 : binary64 := b64_of_bits 4607182418800017408.
Definition d2 : binary64 := b64_of_bits 4611686018427387904.
Definition d3 : binary64 := b64_of_bits 4613937818241073152.
(* y = 3, mu = 1, sigma = 2 in double precision: 1/2 and 0 *)
Lemma ex58_half : @feq BN fhalf f1 = false. Proof. vm_compute; reflexivity. Qed.
Lemma ex58_two : @feq BN f2 fhalf = false. Proof. vm_compute; reflexivity. Qed.
Lemma ex58_one : @feq BN f2 f1 = false. Proof. vm_compute; reflexivity. Qed.
Lemma ex58_same : @feq BN f2 f2 = true. Proof. vm_compute; reflexivity. Qed.
Lemma ex58_head : (t_head (s_tape bs) = 13)%Z. Proof. vm_compute; reflexivity. Qed.
Lemma ex58_size : (t_size (s_tape bs) = 12)%Z. Proof. vm_compute; reflexivity. Qed.
Lemma ex58_lvl : (s_lvl bs < 10)%Z. Proof. vm_compute; reflexivity. Qed.
Example C58_normal_any_ex c : exists r s', @var_grad_test BN BM c d3 d1 d2 bs = Ok (r, s') /\ map bits_of_b64 r = [4602678819172646912; 0]%Z.
Proof.
  destruct (@C58_normal_any BN _ BM [1; 2]%Z bs c d3 d1 d2 (demo_practical BN) (ex53_reach L) ex58_half ex58_two ex58_one ex58_same) as (s' & E).
  { unfold roomy. rewrite ex58_head, ex58_size. lia. }
  eexists. exists s'. split; [exact E|]. vm_compute. reflexivity.
Qed.
Lemma ex58_not k (w : Z) : (12 < w < 24 \/ 24 < w < 48 \/ 48 < w < 96 \/ 96 < w < 192)%Z -> (w <> 12 * 2 ^ Z.of_nat k)%Z.
Proof.
  intros H E. destruct (le_lt_dec k 4) as [K|K].
  - do 5 (destruct k as [|k]; [cbn in E; lia|]). lia.
  - assert (2 ^ 5 <= 2 ^ Z.of_nat k)%Z by (apply Z.pow_le_mono_r; lia). cbn in *. lia.
Qed.
Example C58_gradient_any_ex c : exists r s', @gradient BN BM (@call_fn1 BN BM (@readme_f BN c d3)) [d1; d2] bs = Ok (r, s') /\
  map bits_of_b64 (tl r) = [4602678819172646912; 0]%Z.
Proof.
  destruct (@C58_gradient_any BN _ BM [1; 2]%Z bs c d3 d1 d2 (demo_practical BN) (ex53_reach L) ex58_lvl ex58_half ex58_two ex58_one ex58_same) as (s' & E).
  { unfold roomy. rewrite ex58_head, ex58_size. lia. }
  { unfold exactly_full, storage. rewrite ex58_head, ex58_size. intros [_ A]. destruct (A ltac:(lia)) as (k & Hk & _). change (@init_tape_size BN BM) with 12%Z in Hk.
    apply (ex58_not k) in Hk; [exact Hk|lia]. }
  eexists. exists s'. split; [exact E|]. vm_compute. reflexivity.
Qed.

(* At t = 1 the factor t is the number 1.0: multiplying a variable by it returns the variable
   itself with another chain procedure (C16), which here does not fit its operands.  At t = 2
   the call returns. *)
Definition ode_at (t : binary64) : res (list (list binary64) * @st BN) :=
  @set_sens_rhs BN (demo_std BN) t [d1; d2] [[d1; d2]; [d1; d2]; [d1; d2]] (@mkRhs BN false 3 [d1; d2; d3] (@rhs_fn BN (demo_std BN) (@param_rhs BN))) st_init.
Theorem C58_ode_refuted : ends (ode_at d1) = Undefined ShapeMismatch /\ ends (ode_at d2) = Returns.
Proof. exact (ode_one L). Qed.
End Ex58.
Print Assumptions C58_ode_refuted.

Lemma ex58_room w : (w <= 1000)%Z -> roomy rs w. Proof. apply rs_roomy. Qed.
Lemma ex58_full w : (48 < 27 + w - 1 < 96 \/ 96 < 27 + w - 1 < 192)%Z -> ~ @exactly_full RN DM rs w.
Proof.
  intros H. unfold exactly_full, storage. destruct ex46_size as [E1 E2]. rewrite E1, E2. intros [_ A]. destruct (A ltac:(lia)) as (k & Hk & _).
  change (@init_tape_size RN DM) with 12%Z in Hk. apply (ex58_not k) in Hk; [exact Hk|lia].
Qed.
(* the numbers of the text: y = 1.3, mu = 0.5, sigma = 1.2 *)
Example C58_normal_ex c : exists s', @var_grad_test RN DM c (13 / 10)%R (5 / 10)%R (12 / 10)%R rs = Ok ([5 / 9; - 25 / 54]%R, s').
Proof.
  destruct (C58_normal (lg := lg0) (C := DM) _ rs c (13 / 10)%R (5 / 10)%R (12 / 10)%R pr rs_reach) as (s' & E); [lra|apply ex58_room; lia|].
  exists s'. etransitivity; [exact E|]. do 2 f_equal. apply same_pair; field.
Qed.
Example C58_gradient_ex : exists s', @gradient RN DM (@call_fn1 RN DM (@readme_f RN (- (1 / 2) * ln (2 * PI))%R (13 / 10)%R)) [(5 / 10)%R; (12 / 10)%R] rs =
  Ok ([normal_density (13 / 10) (5 / 10) (12 / 10); 5 / 9; - 25 / 54]%R, s').
Proof.
  destruct (C58_gradient (lg := lg0) (C := DM) _ rs (13 / 10)%R (5 / 10)%R (12 / 10)%R pr rs_reach) as (s' & E); [vm_compute; reflexivity|lra|apply ex58_room; lia|apply ex58_full; lia|].
  exists s'. etransitivity; [exact E|]. do 2 f_equal.
  assert (Q : ([(13 / 10 - 5 / 10) / (12 / 10) ^ 2; (13 / 10 - 5 / 10) ^ 2 / (12 / 10) ^ 3 - 1 / (12 / 10)] = [5 / 9; - 25 / 54])%R) by (apply same_pair; field).
  rewrite Q. reflexivity.
Qed.
(* the text: a = 1, 2, 3 and b = 0.5; "should be [0.0, 1.0, 0.0]" *)
Example C58_arrays_ex : exists s', @array_test RN DM 3 [1; 2; 3]%R (/ 2)%R 1 rs = Ok ([0; 1; 0]%R, s').
Proof.
  destruct (C58_arrays (lg := lg0) (C := DM) [1; 2; 3]%R (/ 2)%R _ rs 1 pr rs_reach) as (s' & E); [cbn; lia|cbn; lra|apply ex58_room; unfold zlen; cbn; lia|].
  exists s'. exact E.
Qed.
(* x = (1 2; 3 4) by columns, y = (5, 6): z = (1*5 + 3*6, 2*5 + 4*6) *)
Example C58_matmul_ex : exists s', @matmul_test RN DM 2 2 1 [1; 2; 3; 4]%R [5; 6]%R rs = Ok ([[5; 0; 6; 0; 1; 3]; [0; 5; 0; 6; 2; 4]]%R, s').
Proof.
  destruct (C58_matmul (lg := lg0) (C := DM) 2 2 1 [1; 2; 3; 4]%R [5; 6]%R [1; 2; 3; 4; 4]%Z rs eq_refl eq_refl ltac:(vm_compute; discriminate) ltac:(vm_compute; discriminate) ltac:(vm_compute; discriminate)) as (s' & E).
  - exact pr.
  - exact rs_reach.
  - apply ex58_room. vm_compute. discriminate.
  - exists s'. exact E.
Qed.
Example C58_ode_ex : exists s', @set_sens_rhs RN DM 0%R [1; 2]%R [[0; 3]; [0; 4]; [0; 5]]%R (@mkRhs RN false 3 [2; 3; 4]%R (@rhs_fn RN DM (@param_rhs RN))) rs =
  Ok ([[3; cos (2 * 3 * 4 * 0) * 0 * (3 * 4)]; [4; cos (2 * 3 * 4 * 0) * 0 * (2 * 4)]; [5; cos (2 * 3 * 4 * 0) * 0 * (2 * 3)]]%R, s').
Proof.
  apply (C58_ode (lg := lg0) (C := DM) 0 1 2 2 3 4 _ rs 0 0 0 3 4 5 ltac:(lra) pr rs_reach ltac:(vm_compute; reflexivity)); [apply ex58_room; lia|apply ex58_full; lia].
Qed.
