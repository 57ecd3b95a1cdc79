(* Lemmas behind C28 (and the range of inv_logit missing from C14): inv_logit and
   logit in exact real arithmetic, for every argument. *)
From Coq Require Import ZifyBool ZifyNat Lra Psatz.
From Verif Require Import TapeFacts.
From Verif Require Export Claims_exact.
Local Open Scope R_scope.

Section Logit.
Context {lg : R -> R}.
Notation N := (RNum lg).

(* the mathematical functions *)
Definition sigmoid (x : R) : R := 1 / (1 + exp (- x)).
Definition log_odds (p : R) : R := ln (p / (1 - p)).

Lemma tiny_pos : 0 < rtiny.
Proof. apply Rinv_0_lt_compat, pow_lt. lra. Qed.
Lemma tiny_small : rtiny <= 23 / 10 ^ 309.
Proof.
  unfold rtiny. assert (P2 : 0 < 2 ^ 1022) by (apply pow_lt; lra). assert (P10 : 0 < 10 ^ 309) by (apply pow_lt; lra).
  apply Rmult_le_reg_r with (2 ^ 1022 * 10 ^ 309); [apply Rmult_lt_0_compat; auto|].
  replace (/ 2 ^ 1022 * (2 ^ 1022 * 10 ^ 309)) with (10 ^ 309) by (field; lra).
  replace (23 / 10 ^ 309 * (2 ^ 1022 * 10 ^ 309)) with (23 * 2 ^ 1022) by (field; lra).
  rewrite !pow_IZR, <- mult_IZR. apply IZR_le. apply Z.leb_le. vm_compute. reflexivity.
Qed.
Lemma tiny_1 : rtiny < / 4.
Proof.
  unfold rtiny. apply Rinv_lt_contravar; [|].
  - apply Rmult_lt_0_compat; [lra|apply pow_lt; lra].
  - replace 4 with (2 ^ 2) by ring. apply Rlt_pow; [lra|]. lia.
Qed.

Lemma sigmoid_e x : sigmoid x = exp x / (1 + exp x).
Proof.
  unfold sigmoid. rewrite exp_Ropp. pose proof (exp_pos x). field. split; lra.
Qed.
Lemma sigmoid_range x : 0 < sigmoid x < 1.
Proof.
  rewrite sigmoid_e. pose proof (exp_pos x). split; [apply Rdiv_lt_0_compat; lra|]. apply Rmult_lt_reg_r with (1 + exp x); [lra|].
  unfold Rdiv. rewrite Rmult_assoc, Rinv_l by lra. lra.
Qed.

Lemma il_low x : x < ln rtiny -> @inv_logit_d N x = exp x.
Proof.
  intros H. unfold inv_logit_d. cbn [flt RNum fexp fadd f1 f0 fneg fdiv c_log_epsilon].
  assert (x < 0).
  { apply Rlt_trans with (ln rtiny); auto. rewrite <- ln_1. apply ln_increasing; [apply tiny_pos|]. pose proof tiny_1. lra. }
  destruct (rlt x 0) eqn:E; [|apply rlt_false in E; lra]. destruct (rlt x (ln rtiny)) eqn:E2; [|apply rlt_false in E2; lra]. reflexivity.
Qed.
Lemma il_high x : ln rtiny <= x -> @inv_logit_d N x = sigmoid x.
Proof. apply inv_logit_R. Qed.
Lemma exp_low x : x < ln rtiny -> 0 < exp x < rtiny.
Proof. intros H. split; [apply exp_pos|]. rewrite <- (exp_ln rtiny tiny_pos). apply exp_increasing. exact H. Qed.

(* every x *)
Theorem inv_logit_close x : 0 <= @inv_logit_d N x <= 1 /\ Rabs (@inv_logit_d N x - sigmoid x) <= rtiny * rtiny /\
  Rabs (@inv_logit_d N x - sigmoid x) <= 23 / 10 ^ 309 /\ (ln rtiny <= x -> @inv_logit_d N x = sigmoid x).
Proof.
  pose proof tiny_pos as T0. pose proof tiny_1 as T1. pose proof tiny_small as T2.
  destruct (Rle_lt_dec (ln rtiny) x) as [H|H].
  - rewrite (il_high x H). pose proof (sigmoid_range x). rewrite Rminus_eq_0, Rabs_R0. repeat split; try lra. nra.
  - rewrite (il_low x H). destruct (exp_low x H) as [E1 E2]. rewrite sigmoid_e. set (e := exp x) in *.
    assert (D : Rabs (e - e / (1 + e)) <= rtiny * rtiny).
    { replace (e - e / (1 + e)) with (e * e / (1 + e)) by (field; lra). rewrite Rabs_pos_eq by (apply Rmult_le_pos; [nra|left; apply Rinv_0_lt_compat; lra]).
      apply Rmult_le_reg_r with (1 + e); [lra|]. unfold Rdiv. rewrite Rmult_assoc, Rinv_l by lra. nra. }
    repeat split; try lra. apply Rle_trans with (rtiny * rtiny); auto. nra.
Qed.

Lemma odds_sigmoid p : 0 < p < 1 -> sigmoid (log_odds p) = p.
Proof.
  intros H. rewrite sigmoid_e. unfold log_odds. rewrite exp_ln by (apply Rdiv_lt_0_compat; lra). field. split; lra.
Qed.
Lemma sigmoid_odds x : log_odds (sigmoid x) = x.
Proof.
  rewrite sigmoid_e. unfold log_odds. pose proof (exp_pos x). transitivity (ln (exp x)); [|apply ln_exp]. f_equal. field. lra.
Qed.

(* inv_logit(logit p) and logit(inv_logit x) *)
Theorem logit_inverts p : 0 < p < 1 -> Rabs (@inv_logit_d N (@logit_d N p) - p) <= rtiny * rtiny /\
  (rtiny <= p -> @inv_logit_d N (@logit_d N p) = p).
Proof.
  intros H. change (@logit_d N p) with (log_odds p). pose proof tiny_pos as T0. pose proof tiny_1 as T1. split.
  - rewrite <- (odds_sigmoid p H) at 2. apply inv_logit_close.
  - intros HT. rewrite il_high; [apply odds_sigmoid; auto|]. unfold log_odds. apply Rcomplements.ln_le; auto.
    apply Rle_trans with p; auto. apply Rmult_le_reg_r with (1 - p); [lra|]. unfold Rdiv. rewrite Rmult_assoc, Rinv_l by lra. nra.
Qed.
Theorem logit_of_inv_logit x : Rabs (@logit_d N (@inv_logit_d N x) - x) <= 2 * rtiny /\
  (ln rtiny <= x -> @logit_d N (@inv_logit_d N x) = x).
Proof.
  change (@logit_d N) with log_odds. pose proof tiny_pos as T0. pose proof tiny_1 as T1. split.
  - destruct (Rle_lt_dec (ln rtiny) x) as [H|H].
    + rewrite (il_high x H), sigmoid_odds, Rminus_eq_0, Rabs_R0. lra.
    + rewrite (il_low x H). destruct (exp_low x H) as [E1 E2]. set (e := exp x) in *. unfold log_odds.
      unfold Rdiv. rewrite ln_mult by (try apply Rinv_0_lt_compat; lra). rewrite ln_Rinv by lra.
      assert (EL : ln e = x) by apply ln_exp. rewrite EL.
      replace (x + - ln (1 - e) - x) with (- ln (1 - e)) by ring.
      (* 0 <= - ln (1-e) <= 2 e *)
      assert (A : ln (1 - e) <= 0) by (rewrite <- ln_1; apply Rcomplements.ln_le; lra).
      rewrite Rabs_pos_eq by lra. apply Rle_trans with (2 * e); [|lra].
      assert (B : - (2 * e) <= ln (1 - e)); [|lra]. rewrite <- (ln_exp (- (2 * e))). apply Rcomplements.ln_le; [apply exp_pos|].
      rewrite exp_Ropp. apply Rmult_le_reg_r with (exp (2 * e)); [apply exp_pos|]. rewrite Rinv_l by (pose proof (exp_pos (2 * e)); lra).
      pose proof (exp_ineq1_le (2 * e)). nra.
  - intros H. rewrite (il_high x H). apply sigmoid_odds.
Qed.
End Logit.

(* variables: value and derivative for every x, below the threshold up to tiny^2 *)
Section Var.
Context {lg : R -> R} {C : Cfg (RNum lg)}.
Notation N := (RNum lg).
Theorem inv_logit_var env0 (s : @st N) x (v : R) : @practical N C -> reachable env0 s -> alive s x -> var_val s x = Ok v -> roomy s 7 ->
  exists h s' (y d : R), inv_logit_v x s = Ok (h, s') /\ records s s' h y (fun a => (x, a * d) :: nil) /\
    Rabs (y - sigmoid v) <= rtiny * rtiny /\ Rabs (d - Derive sigmoid v) <= rtiny * rtiny /\
    (ln rtiny <= v -> y = sigmoid v /\ d = Derive sigmoid v).
Proof.
  intros HP HR HA HX HM.
  destruct (un_exact env0 s UInvLogit x v HP HR HA HX eq_refl HM) as (h & s' & E & Rc).
  assert (EY : @un_value N UInvLogit v = @inv_logit_d N v) by reflexivity.
  rewrite EY in Rc. set (y := @inv_logit_d N v) in *.
  assert (DS : Derive sigmoid v = sigmoid v * (1 - sigmoid v)).
  { apply is_derive_unique. unfold sigmoid. pose proof (exp_pos (- v)). auto_derive; [lra|]. field. lra. }
  exists h, s', y, (y * (1 - y)). split; [exact E|]. split.
  { destruct Rc as (R1 & R2 & R3). split; [exact R1|]. split; [exact R2|]. intros ps a s1 HPs HS Ha. destruct (R3 ps a s1 HPs HS Ha) as (s2 & A & B & D).
    exists s2. split; [exact A|]. split; [exact B|]. intros z b Hz Hb. rewrite (D z b Hz Hb). do 4 f_equal. cbn [un_step RNum fmul fsub f1]. rewrite Rmult_assoc. reflexivity. }
  destruct (@inv_logit_close lg v) as (B1 & B2 & _ & B4). fold y in B1, B2, B4. pose proof (sigmoid_range v) as SR.
  split; [exact B2|]. rewrite DS. split.
  - destruct (Rle_lt_dec (ln rtiny) v) as [H|H].
    + rewrite (B4 H), Rminus_eq_0, Rabs_R0. pose proof tiny_pos. nra.
    + replace (y * (1 - y) - sigmoid v * (1 - sigmoid v)) with ((y - sigmoid v) * (1 - y - sigmoid v)) by ring. rewrite Rabs_mult.
      assert (A : Rabs (1 - y - sigmoid v) <= 1) by (apply Rabs_le; lra). pose proof (Rabs_pos (y - sigmoid v)). nra.
  - intros H. rewrite (B4 H). auto.
Qed.
End Var.
