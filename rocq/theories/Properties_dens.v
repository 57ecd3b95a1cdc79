(* C60: accuracy of normal_lpdf and lognormal_lpdf in binary64.
   Vocabulary: that of Properties_acc (near, clear, fin, rl, roundoff: AccSpec.v) and
   DensSpec.v.  [sum_near n xs v]: v is the sum of xs up to n roundings (the standard leaves
   open how sum adds; C60_sum: left to right, n is the length).  [off_by n x r A]: unless
   x overflowed, it is off r by at most ((1+2^-53)^n - 1) A (C59_factor: about n 2^-53 A).  [score_safe]: nothing
   underflows for this observation.  [log_likelihood normal_density]: Properties_more.
   [of1], [of2]: the procedure as a function of an array.  k is the accuracy of log and of
   the constant log(sqrt(2 pi)). *)
From Coq Require Import ZifyBool ZifyNat Lra.
From Flocq Require Import Core IEEE754.Binary IEEE754.Bits.
From Verif Require Import TapeFacts Findings Claims_acc3.
From Verif Require Export Claims_dens Properties_more Properties_reverse.
Import ListNotations.
Local Open Scope R_scope.
Local Notation "x -b y" := (b64_minus rne x y) (at level 50).

(* ---- C60 ---- *)
Theorem C60_normal (L : Libm) (C : Cfg (B64 L)) env0 (s : @st (B64 L)) ys m sd n k :
  @practical (B64 L) C -> @reachable (B64 L) C env0 s -> (s_lvl s < 10)%Z ->
  0 < rl sd -> Forall (fun y => score_safe sd (y -b m)) ys ->
  near k (rl (l_log L sd)) (ln (rl sd)) -> near k (rl (l_log_sqrt_two_pi L)) (ln (sqrt (2 * PI))) ->
  (forall xs, length xs = length ys -> fin (l_sum L xs) = true -> sum_near n xs (l_sum L xs)) ->
  @roomy (B64 L) s 24 -> ~ @exactly_full (B64 L) C s 24 ->
  let LL := log_likelihood normal_density (map rl ys) in
  let D y := Rabs (rl y - rl m) in
  exists v p q s', @gradient (B64 L) C (of2 (@normal_lpdf_vv (B64 L) C ys)) [m; sd] s = Ok ([v; p; q], s') /\
    off_by (n + (10 + k)) v (LL (rl m) (rl sd)) (sumR (map (fun y => size_value (rl sd) (D y)) ys)) /\
    exists d e, is_derive (fun t => LL t (rl sd)) (rl m) d /\ is_derive (fun t => LL (rl m) t) (rl sd) e /\
      off_by (n + 5) p d (sumR (map (fun y => size_mu (rl sd) (D y)) ys)) /\
      off_by (n + 10) q e (sumR (map (fun y => size_sigma (rl sd) (D y)) ys)).
Proof. exact (fun HP HR HL HD HC HK HB HS => normal_vv L C env0 s HP HR HL n (length ys) HS ys m sd k eq_refl HD HC HK HB). Qed.
Print Assumptions C60_normal.
Theorem C60_normal_mu (L : Libm) (C : Cfg (B64 L)) env0 (s : @st (B64 L)) ys m sd n k :
  @practical (B64 L) C -> @reachable (B64 L) C env0 s -> (s_lvl s < 10)%Z ->
  0 < rl sd -> Forall (fun y => score_safe sd (y -b m)) ys ->
  near k (rl (l_log L sd)) (ln (rl sd)) -> near k (rl (l_log_sqrt_two_pi L)) (ln (sqrt (2 * PI))) ->
  (forall xs, length xs = length ys -> fin (l_sum L xs) = true -> sum_near n xs (l_sum L xs)) ->
  @roomy (B64 L) s 15 -> ~ @exactly_full (B64 L) C s 15 ->
  let LL := log_likelihood normal_density (map rl ys) in
  let D y := Rabs (rl y - rl m) in
  exists v p s', @gradient (B64 L) C (of1 (fun mu => @normal_lpdf_vd (B64 L) C ys mu sd)) (m :: nil) s = Ok ([v; p], s') /\
    off_by (n + (10 + k)) v (LL (rl m) (rl sd)) (sumR (map (fun y => size_value (rl sd) (D y)) ys)) /\
    exists d, is_derive (fun t => LL t (rl sd)) (rl m) d /\ off_by (n + 5) p d (sumR (map (fun y => size_mu (rl sd) (D y)) ys)).
Proof. exact (fun HP HR HL HD HC HK HB HS => normal_vd L C env0 s HP HR HL n (length ys) HS ys m sd k eq_refl HD HC HK HB). Qed.
Print Assumptions C60_normal_mu.
Theorem C60_normal_sigma (L : Libm) (C : Cfg (B64 L)) env0 (s : @st (B64 L)) ys m sd n k :
  @practical (B64 L) C -> @reachable (B64 L) C env0 s -> (s_lvl s < 10)%Z ->
  0 < rl sd -> Forall (fun y => score_safe sd (y -b m)) ys ->
  near k (rl (l_log L sd)) (ln (rl sd)) -> near k (rl (l_log_sqrt_two_pi L)) (ln (sqrt (2 * PI))) ->
  (forall xs, length xs = length ys -> fin (l_sum L xs) = true -> sum_near n xs (l_sum L xs)) ->
  @roomy (B64 L) s 15 -> ~ @exactly_full (B64 L) C s 15 ->
  let LL := log_likelihood normal_density (map rl ys) in
  let D y := Rabs (rl y - rl m) in
  exists v q s', @gradient (B64 L) C (of1 (@normal_lpdf_dv (B64 L) C ys m)) (sd :: nil) s = Ok ([v; q], s') /\
    off_by (n + (10 + k)) v (LL (rl m) (rl sd)) (sumR (map (fun y => size_value (rl sd) (D y)) ys)) /\
    exists e, is_derive (fun t => LL (rl m) t) (rl sd) e /\ off_by (n + 10) q e (sumR (map (fun y => size_sigma (rl sd) (D y)) ys)).
Proof. exact (fun HP HR HL HD HC HK HB HS => normal_dv L C env0 s HP HR HL n (length ys) HS ys m sd k eq_refl HD HC HK HB). Qed.
Print Assumptions C60_normal_sigma.
Theorem C60_normal_real (L : Libm) ys m sd n k :
  0 < rl sd -> Forall (fun y => score_safe sd (y -b m)) ys ->
  near k (rl (l_log L sd)) (ln (rl sd)) -> near k (rl (l_log_sqrt_two_pi L)) (ln (sqrt (2 * PI))) ->
  (forall xs, length xs = length ys -> fin (l_sum L xs) = true -> sum_near n xs (l_sum L xs)) ->
  off_by (n + (10 + k)) (@normal_lpdf_dd (B64 L) ys m sd) (log_likelihood normal_density (map rl ys) (rl m) (rl sd))
    (sumR (map (fun y => size_value (rl sd) (Rabs (rl y - rl m))) ys)).
Proof. exact (fun HD HC HK HB HS => normal_dd L n (length ys) HS ys m sd k eq_refl HD HC HK HB). Qed.
Print Assumptions C60_normal_real.
(* log y - mu may cancel, so the distance counts as |log y| + |mu| *)
Theorem C60_lognormal (L : Libm) (C : Cfg (B64 L)) env0 (s : @st (B64 L)) ys m sd n k :
  @practical (B64 L) C -> @reachable (B64 L) C env0 s -> (s_lvl s < 10)%Z -> 0 < rl sd ->
  Forall (fun y => 0 < rl y /\ near k (rl (l_log L y)) (ln (rl y)) /\ score_safe sd (l_log L y -b m)) ys ->
  near k (rl (l_log L sd)) (ln (rl sd)) -> near k (rl (l_log_sqrt_two_pi L)) (ln (sqrt (2 * PI))) ->
  (forall xs, length xs = length ys -> fin (l_sum L xs) = true -> sum_near n xs (l_sum L xs)) ->
  @roomy (B64 L) s 24 -> ~ @exactly_full (B64 L) C s 24 ->
  let LL := log_likelihood lognormal_density (map rl ys) in
  let D y := Rabs (ln (rl y)) + Rabs (rl m) in
  exists v p q s', @gradient (B64 L) C (of2 (@lognormal_lpdf_vv (B64 L) C ys)) [m; sd] s = Ok ([v; p; q], s') /\
    off_by (n + (11 + 2 * k)) v (LL (rl m) (rl sd)) (sumR (map (fun y => size_value (rl sd) (D y) + Rabs (ln (rl y))) ys)) /\
    exists d e, is_derive (fun t => LL t (rl sd)) (rl m) d /\ is_derive (fun t => LL (rl m) t) (rl sd) e /\
      off_by (n + (5 + k)) p d (sumR (map (fun y => size_mu (rl sd) (D y)) ys)) /\
      off_by (n + (10 + 2 * k)) q e (sumR (map (fun y => size_sigma (rl sd) (D y)) ys)).
Proof. exact (fun HP HR HL HD HY HK HB HS => lognormal_vv L C env0 s HP HR HL n (length ys) HS ys m sd k eq_refl HD HY HK HB). Qed.
Print Assumptions C60_lognormal.
Theorem C60_lognormal_mu (L : Libm) (C : Cfg (B64 L)) env0 (s : @st (B64 L)) ys m sd n k :
  @practical (B64 L) C -> @reachable (B64 L) C env0 s -> (s_lvl s < 10)%Z -> 0 < rl sd ->
  Forall (fun y => 0 < rl y /\ near k (rl (l_log L y)) (ln (rl y)) /\ score_safe sd (l_log L y -b m)) ys ->
  near k (rl (l_log L sd)) (ln (rl sd)) -> near k (rl (l_log_sqrt_two_pi L)) (ln (sqrt (2 * PI))) ->
  (forall xs, length xs = length ys -> fin (l_sum L xs) = true -> sum_near n xs (l_sum L xs)) ->
  @roomy (B64 L) s 15 -> ~ @exactly_full (B64 L) C s 15 ->
  let LL := log_likelihood lognormal_density (map rl ys) in
  let D y := Rabs (ln (rl y)) + Rabs (rl m) in
  exists v p s', @gradient (B64 L) C (of1 (fun mu => @lognormal_lpdf_vd (B64 L) C ys mu sd)) (m :: nil) s = Ok ([v; p], s') /\
    off_by (n + (11 + 2 * k)) v (LL (rl m) (rl sd)) (sumR (map (fun y => size_value (rl sd) (D y) + Rabs (ln (rl y))) ys)) /\
    exists d, is_derive (fun t => LL t (rl sd)) (rl m) d /\ off_by (n + (5 + k)) p d (sumR (map (fun y => size_mu (rl sd) (D y)) ys)).
Proof. exact (fun HP HR HL HD HY HK HB HS => lognormal_vd L C env0 s HP HR HL n (length ys) HS ys m sd k eq_refl HD HY HK HB). Qed.
Print Assumptions C60_lognormal_mu.
Theorem C60_lognormal_sigma (L : Libm) (C : Cfg (B64 L)) env0 (s : @st (B64 L)) ys m sd n k :
  @practical (B64 L) C -> @reachable (B64 L) C env0 s -> (s_lvl s < 10)%Z -> 0 < rl sd ->
  Forall (fun y => 0 < rl y /\ near k (rl (l_log L y)) (ln (rl y)) /\ score_safe sd (l_log L y -b m)) ys ->
  near k (rl (l_log L sd)) (ln (rl sd)) -> near k (rl (l_log_sqrt_two_pi L)) (ln (sqrt (2 * PI))) ->
  (forall xs, length xs = length ys -> fin (l_sum L xs) = true -> sum_near n xs (l_sum L xs)) ->
  @roomy (B64 L) s 15 -> ~ @exactly_full (B64 L) C s 15 ->
  let LL := log_likelihood lognormal_density (map rl ys) in
  let D y := Rabs (ln (rl y)) + Rabs (rl m) in
  exists v q s', @gradient (B64 L) C (of1 (@lognormal_lpdf_dv (B64 L) C ys m)) (sd :: nil) s = Ok ([v; q], s') /\
    off_by (n + (11 + 2 * k)) v (LL (rl m) (rl sd)) (sumR (map (fun y => size_value (rl sd) (D y) + Rabs (ln (rl y))) ys)) /\
    exists e, is_derive (fun t => LL (rl m) t) (rl sd) e /\ off_by (n + (10 + 2 * k)) q e (sumR (map (fun y => size_sigma (rl sd) (D y)) ys)).
Proof. exact (fun HP HR HL HD HY HK HB HS => lognormal_dv L C env0 s HP HR HL n (length ys) HS ys m sd k eq_refl HD HY HK HB). Qed.
Print Assumptions C60_lognormal_sigma.
Theorem C60_lognormal_real (L : Libm) ys m sd n k : 0 < rl sd ->
  Forall (fun y => 0 < rl y /\ near k (rl (l_log L y)) (ln (rl y)) /\ score_safe sd (l_log L y -b m)) ys ->
  near k (rl (l_log L sd)) (ln (rl sd)) -> near k (rl (l_log_sqrt_two_pi L)) (ln (sqrt (2 * PI))) ->
  (forall xs, length xs = length ys -> fin (l_sum L xs) = true -> sum_near n xs (l_sum L xs)) ->
  off_by (n + (11 + 2 * k)) (@lognormal_lpdf_dd (B64 L) ys m sd) (log_likelihood lognormal_density (map rl ys) (rl m) (rl sd))
    (sumR (map (fun y => size_value (rl sd) (Rabs (ln (rl y)) + Rabs (rl m)) + Rabs (ln (rl y))) ys)).
Proof. exact (fun HD HY HK HB HS => lognormal_dd L n (length ys) HS ys m sd k eq_refl HD HY HK HB). Qed.
Print Assumptions C60_lognormal_real.
Theorem C60_sum xs : fin (fold_left (b64_plus rne) xs c0) = true -> sum_near (length xs) xs (fold_left (b64_plus rne) xs c0).
Proof. exact (sum_left xs). Qed.
Print Assumptions C60_sum.

(* ---- a case ---- *)
(* observations 4 and 3, mu = 1, sigma = 2, sum from left to right; what log returns and the
   constant are crude but of the right sign, so that they are right up to some k *)
Section Cases.
Definition L60 : Libm :=
  {| l_sin := l_sin libm0; l_cos := l_cos libm0; l_tan := l_tan libm0; l_asin := l_asin libm0; l_acos := l_acos libm0; l_atan := l_atan libm0;
     l_sinh := l_sinh libm0; l_cosh := l_cosh libm0; l_tanh := l_tanh libm0; l_asinh := l_asinh libm0; l_acosh := l_acosh libm0; l_atanh := l_atanh libm0;
     l_exp := l_exp libm0; l_log := l_log libm0; l_erf := l_erf libm0; l_erfc := l_erfc libm0; l_loggamma := l_loggamma libm0;
     l_aint := l_aint libm0; l_int := l_int libm0; l_ofZ := l_ofZ libm0; l_pow := l_pow libm0; l_hypot := l_hypot libm0;
     l_sum := l_sum libm0; l_dot := l_dot libm0; l_norm2 := l_norm2 libm0; l_maxval := l_maxval libm0; l_mm := l_mm libm0; l_dec := l_dec libm0;
     l_two_over_sqrt_pi := B64.c1; l_log_epsilon := c0; l_log_sqrt_two_pi := B64.c1 |}.
Local Notation BN := (B64 L60).
Local Notation BM := (demo BN).
Local Notation bs := (@state_of BN BM (bwork52 L60)).
Local Notation obs := [c4; c3].
Lemma near_some x e : 0 < x -> 0 < e -> exists k, near k x e.
Proof.
  intros Hx He. pose proof ro_pos as U. assert (Q : 0 < x / e) by (apply Rdiv_lt_0_compat; auto).
  assert (B : forall z, exists k, z <= (1 + roundoff) ^ k).
  { intros z. destruct (archimed_cor1 (roundoff / (Rabs z + 1))) as (k & H1 & H2).
    - apply Rdiv_lt_0_compat; [exact U|]. pose proof (Rabs_pos z). lra.
    - exists k. pose proof (poly k roundoff U) as P. apply (Rle_trans _ (1 + INR k * roundoff)); [|exact P].
      assert (K : 0 < INR k) by (apply lt_0_INR; exact H2). pose proof (Rabs_pos z) as A. pose proof (Rle_abs z) as A2.
      apply (Rmult_lt_compat_r (INR k * (Rabs z + 1))) in H1; [|apply Rmult_lt_0_compat; lra].
      replace (/ INR k * (INR k * (Rabs z + 1))) with (Rabs z + 1) in H1 by (field; lra).
      replace (roundoff / (Rabs z + 1) * (INR k * (Rabs z + 1))) with (INR k * roundoff) in H1 by (field; lra). lra. }
  destruct (B (x / e)) as [a Ha]. destruct (B (/ (x / e))) as [b Hb]. exists (Nat.max a b). exists (x / e). split; [field; lra|].
  pose proof (g_mono a (Nat.max a b) ltac:(lia)). pose proof (g_mono b (Nat.max a b) ltac:(lia)). split; [|lra].
  rewrite <- (Rinv_inv (x / e)). apply Rinv_le_contravar; [apply Rinv_0_lt_compat; exact Q|lra].
Qed.
Lemma ex60_safe (d : binary64) : mid d = true -> let i := b64_div rne B64.c1 c2 in let z := b64_mult rne d i in
  mid z = true -> mid (b64_mult rne i z) = true -> mid (b64_mult rne chalf z) = true -> score_safe c2 d.
Proof.
  intros H1 i z H2 H3 H4. unfold score_safe. fold i. fold z. rewrite <- one_val, <- half_val.
  split; [apply mid_div; vm_compute; reflexivity|]. split; [apply mid_mul; [exact H1|vm_compute; reflexivity]|].
  split; [apply mid_mul; [exact H2|vm_compute; reflexivity]|]. split; [apply mid_mul; [exact H3|exact H2]|].
  split; [apply mid_mul; [vm_compute; reflexivity|exact H2]|apply mid_mul; [exact H4|exact H2]].
Qed.
Lemma ex60_room : @roomy BN bs 24 /\ ~ @exactly_full BN BM bs 24.
Proof.
  assert (H1 : (t_head (s_tape bs) = 13)%Z) by (vm_compute; reflexivity).
  assert (H2 : (t_size (s_tape bs) = 12)%Z) by (vm_compute; reflexivity).
  unfold roomy, exactly_full, storage. rewrite H1, H2. split; [lia|]. intros [_ A].
  destruct (A ltac:(lia)) as (k & Hk & _). change (@init_tape_size BN BM) with 12%Z in Hk.
  destruct k as [|[|k]]; [discriminate Hk|discriminate Hk|]. replace (Z.of_nat (S (S k))) with (2 + Z.of_nat k)%Z in Hk by lia.
  rewrite Z.pow_add_r in Hk by lia. change (2 ^ 2)%Z with 4%Z in Hk. lia.
Qed.
Lemma ex60_logs : exists k, near k (rl (l_log L60 c2)) (ln (rl c2)) /\ near k (rl (l_log_sqrt_two_pi L60)) (ln (sqrt (2 * PI))) /\
  near k (rl (l_log L60 c4)) (ln (rl c4)) /\ near k (rl (l_log L60 c3)) (ln (rl c3)).
Proof.
  assert (E2 : rl c2 = 2) by (vm_compute; lra). assert (E3 : rl c3 = 3) by (vm_compute; lra). assert (E4 : rl c4 = 4) by (vm_compute; lra).
  assert (LP : forall x, 1 < x -> 0 < ln x) by (intros x Hx; rewrite <- ln_1; apply ln_increasing; lra).
  destruct (near_some (rl c2) (ln (rl c2))) as [k1 H1]; [rewrite E2; lra|rewrite E2; apply LP; lra|].
  destruct (near_some (rl B64.c1) (ln (sqrt (2 * PI)))) as [k2 H2]; [rewrite one_val; lra|apply LP; rewrite <- sqrt_1; apply sqrt_lt_1; pose proof PI2_1; lra|].
  destruct (near_some (rl c4) (ln (rl c4))) as [k3 H3]; [rewrite E4; lra|rewrite E4; apply LP; lra|].
  destruct (near_some (rl c3) (ln (rl c3))) as [k4 H4]; [rewrite E3; lra|rewrite E3; apply LP; lra|].
  exists (k1 + k2 + k3 + k4)%nat. repeat split; (eapply near_mono; [|eassumption]; lia).
Qed.
Example C60_normal_ex : exists k, 0 < rl c2 /\ Forall (fun y => score_safe c2 (y -b B64.c1)) obs /\
  near k (rl (l_log L60 c2)) (ln (rl c2)) /\ near k (rl (l_log_sqrt_two_pi L60)) (ln (sqrt (2 * PI))) /\
  (forall xs, length xs = length obs -> fin (l_sum L60 xs) = true -> sum_near 2 xs (l_sum L60 xs)) /\
  @practical BN BM /\ @reachable BN BM [1; 2]%Z bs /\ (s_lvl bs < 10)%Z /\ @roomy BN bs 24 /\ ~ @exactly_full BN BM bs 24 /\
  exists v s', @gradient BN BM (of2 (@normal_lpdf_vv BN BM obs)) [B64.c1; c2] bs = Ok ([v; b64_div rne c5 c4; b64_div rne c5 (b64_mult rne c2 c4)], s').
Proof.
  destruct ex60_logs as (k & K1 & K2 & _). exists k. split; [vm_compute; lra|].
  split; [constructor; [|constructor; [|constructor]]; apply ex60_safe; vm_compute; reflexivity|]. split; [exact K1|]. split; [exact K2|].
  split; [intros xs Hx Hf; change 2%nat with (length obs); rewrite <- Hx; exact (sum_left xs Hf)|].
  split; [apply demo_practical|]. split; [apply ex53_reach|]. split; [vm_compute; reflexivity|]. split; [apply ex60_room|]. split; [apply ex60_room|].
  destruct (@grad_vv BN _ BM [1; 2]%Z bs (demo_practical BN) (ex53_reach L60) ltac:(vm_compute; reflexivity)
    (@n_logp BN) (@n_dmu BN) (@n_dsigma BN) obs B64.c1 c2 (proj1 ex60_room) (proj2 ex60_room)) as [s' E].
  eexists. exists s'. etransitivity; [exact E|]. f_equal. f_equal. f_equal. f_equal; [|f_equal]; apply bits_inj; vm_compute; reflexivity.
Qed.
Example C60_lognormal_ex : exists k, 0 < rl c2 /\
  Forall (fun y => 0 < rl y /\ near k (rl (l_log L60 y)) (ln (rl y)) /\ score_safe c2 (l_log L60 y -b B64.c1)) obs /\
  near k (rl (l_log L60 c2)) (ln (rl c2)) /\ near k (rl (l_log_sqrt_two_pi L60)) (ln (sqrt (2 * PI))) /\
  (forall xs, length xs = length obs -> fin (l_sum L60 xs) = true -> sum_near 2 xs (l_sum L60 xs)).
Proof.
  destruct ex60_logs as (k & K1 & K2 & K3 & K4). exists k. split; [vm_compute; lra|].
  split. { constructor; [|constructor; [|constructor]]; (split; [vm_compute; lra|]; split; [assumption|]; apply ex60_safe; vm_compute; reflexivity). }
  split; [exact K1|]. split; [exact K2|].
  intros xs Hx Hf; change 2%nat with (length obs); rewrite <- Hx; exact (sum_left xs Hf).
Qed.
(* the room for the theorems with one variable *)
Example C60_one_ex : @roomy BN bs 15 /\ ~ @exactly_full BN BM bs 15.
Proof.
  assert (H1 : (t_head (s_tape bs) = 13)%Z) by (vm_compute; reflexivity).
  assert (H2 : (t_size (s_tape bs) = 12)%Z) by (vm_compute; reflexivity).
  unfold roomy, exactly_full, storage. rewrite H1, H2. split; [lia|]. intros [_ A].
  destruct (A ltac:(lia)) as (k & Hk & _). change (@init_tape_size BN BM) with 12%Z in Hk. lia.
Qed.
End Cases.
