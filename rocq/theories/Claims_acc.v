(* C59: reverse accumulation in binary64 is accurate relative to the sum of the
   magnitudes.  Each rounding is a factor (Flocq's relative error bounds); induction over
   the lines. *)
From Coq Require Import Reals Lra ZifyBool ZifyNat.
From Flocq Require Import Core IEEE754.BinarySingleNaN IEEE754.Binary IEEE754.Bits Relative Plus_error.
From Verif Require Import TapeFacts.
From Verif Require Export AccSpec Claims_reverse2.
Import ListNotations.
Local Open Scope R_scope.
Local Notation rnd := (round radix2 (SpecFloat.fexp 53 1024) ZnearestE).

Lemma ro_pos : 0 < roundoff.
Proof. apply bpow_gt_0. Qed.
Lemma g_ge1 m : 1 <= (1 + roundoff) ^ m.
Proof. apply pow_R1_Rle. pose proof ro_pos; lra. Qed.
Lemma g_pos m : 0 < (1 + roundoff) ^ m.
Proof. pose proof (g_ge1 m); lra. Qed.
Lemma g_inv m : 0 < / (1 + roundoff) ^ m <= 1.
Proof. split; [apply Rinv_0_lt_compat, g_pos|]. apply (Rmult_le_reg_l ((1 + roundoff) ^ m)); [apply g_pos|]. rewrite Rinv_r by (pose proof (g_pos m); lra). pose proof (g_ge1 m); lra. Qed.
Lemma g_mono m n : (m <= n)%nat -> (1 + roundoff) ^ m <= (1 + roundoff) ^ n.
Proof. intros. apply Rle_pow; auto. pose proof ro_pos; lra. Qed.

(* ---- [near] ---- *)
Lemma near_refl m e : near m e e.
Proof. exists 1. split; [ring|]. split; [apply g_inv|apply g_ge1]. Qed.
Lemma near_mono m n x e : (m <= n)%nat -> near m x e -> near n x e.
Proof.
  intros H (r & -> & H1 & H2). exists r. split; auto. split.
  - eapply Rle_trans; [|exact H1]. apply Rinv_le_contravar; [apply g_pos|apply g_mono; auto].
  - eapply Rle_trans; [exact H2|apply g_mono; auto].
Qed.
Lemma near_trans m n x y z : near m x y -> near n y z -> near (m + n) x z.
Proof.
  intros (r & -> & H1 & H2) (q & -> & H3 & H4). exists (q * r). split; [ring|].
  rewrite pow_add. pose proof (g_inv m). pose proof (g_inv n). split.
  - rewrite Rinv_mult. rewrite Rmult_comm. apply Rmult_le_compat; lra.
  - rewrite Rmult_comm. apply Rmult_le_compat; lra.
Qed.
Lemma near_mul m n x y e g : near m x e -> near n y g -> near (m + n) (x * y) (e * g).
Proof.
  intros (r & -> & H1 & H2) (q & -> & H3 & H4). exists (r * q). split; [ring|].
  rewrite pow_add. pose proof (g_inv m). pose proof (g_inv n). split.
  - rewrite Rinv_mult. apply Rmult_le_compat; lra.
  - apply Rmult_le_compat; lra.
Qed.
Lemma near_scale m x e c : near m x e -> near m (x * c) (e * c).
Proof. intros (r & -> & H). exists r. split; [ring|auto]. Qed.
Lemma near_scale_l m x e c : near m x e -> near m (c * x) (c * e).
Proof. intros (r & -> & H). exists r. split; [ring|auto]. Qed.
Lemma near_opp m x e : near m x e -> near m (- x) (- e).
Proof. intros (r & -> & H). exists r. split; [ring|auto]. Qed.
Lemma near_inv m y g : near m y g -> near m (/ y) (/ g).
Proof.
  intros (q & -> & H3 & H4). pose proof (g_inv m). assert (0 < q) by lra. exists (/ q). split; [rewrite Rinv_mult; ring|]. split.
  - apply Rinv_le_contravar; lra.
  - rewrite <- (Rinv_inv ((1 + roundoff) ^ m)). apply Rinv_le_contravar; lra.
Qed.
Lemma near_div m n x y e g : near m x e -> near n y g -> near (m + n) (x / y) (e / g).
Proof. intros H1 H2. apply near_mul; auto. apply near_inv; auto. Qed.
Lemma near_0 m e : near m 0 e -> e = 0.
Proof.
  intros (r & H & H1 & _). pose proof (g_inv m). symmetry in H. apply Rmult_integral in H. destruct H; auto. lra.
Qed.
Lemma near_nz m x e : near m x e -> e <> 0 -> x <> 0.
Proof. intros H1 H2 ->. apply H2. eapply near_0; eauto. Qed.
Lemma near_pos m x e : near m x e -> 0 < e -> 0 < x.
Proof. intros (r & -> & H1 & _) He. pose proof (g_inv m). apply Rmult_lt_0_compat; lra. Qed.
(* 1 + x^2 *)
Lemma near_1p m x e : 0 <= e -> near m x e -> near m (1 + x) (1 + e).
Proof.
  intros He (r & -> & H1 & H2). pose proof (g_inv m). pose proof (g_ge1 m).
  exists ((1 + e * r) / (1 + e)). split; [field; lra|]. split.
  - apply (Rmult_le_reg_r (1 + e)); [lra|]. unfold Rdiv at 1. rewrite Rmult_assoc, Rinv_l, Rmult_1_r by lra.
    rewrite Rmult_plus_distr_l, Rmult_1_r. apply Rplus_le_compat; [lra|]. rewrite Rmult_comm. apply Rmult_le_compat_l; lra.
  - apply (Rmult_le_reg_r (1 + e)); [lra|]. unfold Rdiv at 1. rewrite Rmult_assoc, Rinv_l, Rmult_1_r by lra.
    rewrite Rmult_plus_distr_l, Rmult_1_r. apply Rplus_le_compat; [lra|]. rewrite (Rmult_comm _ e). apply Rmult_le_compat_l; lra.
Qed.
Lemma ro_small : roundoff <= / 4.
Proof. change (/ 4) with (bpow radix2 (-2)). apply bpow_le. lia. Qed.
(* differences away from cancellation *)
Lemma near_1m x e : 0 <= e <= / 2 -> near 1 x e -> near 2 (1 - x) (1 - e).
Proof.
  intros He (r & -> & H1 & H2). pose proof ro_pos. pose proof ro_small. rewrite pow_1 in *. set (u := roundoff) in *.
  assert (H3 : 1 - u <= / (1 + u)) by (apply (Rmult_le_reg_r (1 + u)); [lra|]; rewrite Rinv_l by lra; nra).
  exists ((1 - e * r) / (1 - e)). split; [field; lra|]. fold u.
  assert (HE : (1 - e * r) / (1 - e) * (1 - e) = 1 - e * r) by (field; lra). set (q := (1 - e * r) / (1 - e)) in *.
  assert (L : 1 - u <= q) by (apply (Rmult_le_reg_r (1 - e)); [lra|]; rewrite HE; nra).
  assert (U : q <= 1 + u) by (apply (Rmult_le_reg_r (1 - e)); [lra|]; rewrite HE; nra).
  split.
  - eapply Rle_trans; [|exact L]. apply (Rmult_le_reg_r ((1 + u) ^ 2)); [apply pow_lt; lra|]. rewrite Rinv_l by (apply pow_nonzero; lra). nra.
  - eapply Rle_trans; [exact U|]. assert (0 <= u * u) by (apply Rmult_le_pos; lra). replace ((1 + u) ^ 2) with (1 + 2 * u + u * u) by ring. lra.
Qed.
Lemma near_m1 x e : 2 <= e -> near 1 x e -> near 3 (x - 1) (e - 1).
Proof.
  intros He (r & -> & H1 & H2). pose proof ro_pos. pose proof ro_small. rewrite pow_1 in *. set (u := roundoff) in *.
  assert (H3 : 1 - u <= / (1 + u)) by (apply (Rmult_le_reg_r (1 + u)); [lra|]; rewrite Rinv_l by lra; nra).
  exists ((e * r - 1) / (e - 1)). split; [field; lra|]. fold u.
  assert (HE : (e * r - 1) / (e - 1) * (e - 1) = e * r - 1) by (field; lra). set (q := (e * r - 1) / (e - 1)) in *.
  assert (L : 1 - 2 * u <= q) by (apply (Rmult_le_reg_r (e - 1)); [lra|]; rewrite HE; nra).
  assert (U : q <= 1 + 2 * u) by (apply (Rmult_le_reg_r (e - 1)); [lra|]; rewrite HE; nra).
  assert (HM : 1 <= (1 - 2 * u) * (1 + u) ^ 3).
  { assert (u <= / 16) by (change (/ 16) with (bpow radix2 (-4)); apply bpow_le; lia). cbn [pow]. 
    replace ((1 - 2 * u) * ((1 + u) * ((1 + u) * ((1 + u) * 1)))) with (1 + u - 3 * (u * u) - 5 * (u * u * u) - 2 * (u * u * u * u)) by ring.
    assert (u * u <= u * / 16) by nra. assert (u * u * u <= u * / 256) by nra. assert (u * u * u * u <= u * / 256) by nra. nra. }
  split.
  - eapply Rle_trans; [|exact L]. apply (Rmult_le_reg_r ((1 + u) ^ 3)); [apply pow_lt; lra|]. rewrite Rinv_l by (apply pow_nonzero; lra). exact HM.
  - eapply Rle_trans; [exact U|]. assert (0 <= u * u) by (apply Rmult_le_pos; lra). assert (0 <= u * u * u) by (apply Rmult_le_pos; lra).
    replace ((1 + u) ^ 3) with (1 + 3 * u + 3 * (u * u) + u * u * u) by ring. lra.
Qed.
Lemma near_sqrt m x e : 0 <= e -> near m x e -> near m (sqrt x) (sqrt e).
Proof.
  intros He (r & -> & H1 & H2). pose proof (g_inv m). pose proof (g_ge1 m). exists (sqrt r).
  split; [apply sqrt_mult; lra|]. set (G := (1 + roundoff) ^ m) in *. split.
  - apply sqrt_le_1 in H1; try lra. eapply Rle_trans; [|exact H1].
    assert (Q : / G * / G <= / G) by (rewrite <- (Rmult_1_r (/ G)) at 3; apply Rmult_le_compat_l; lra).
    apply sqrt_le_1 in Q; try lra; [|apply Rmult_le_pos; lra]. rewrite sqrt_square in Q by lra. exact Q.
  - apply sqrt_le_1 in H2; try lra. eapply Rle_trans; [exact H2|].
    assert (Q : G <= G * G) by (rewrite <- (Rmult_1_r G) at 1; apply Rmult_le_compat_l; lra).
    apply sqrt_le_1 in Q; try lra. rewrite (sqrt_square G) in Q by lra. exact Q.
Qed.

(* ---- roundings ---- *)
Lemma u_ro_eq : u_ro radix2 53 = roundoff.
Proof.
  unfold u_ro, roundoff. change (/ 2) with (bpow radix2 (-1)). rewrite <- bpow_plus. reflexivity.
Qed.
Lemma eps_near x e : Rabs e <= u_ro radix2 53 / (1 + u_ro radix2 53) -> near 1 (x * (1 + e)) x.
Proof.
  rewrite u_ro_eq. intros H. pose proof ro_pos as P. exists (1 + e). split; [reflexivity|]. rewrite pow_1.
  assert (Q : 1 - roundoff / (1 + roundoff) = / (1 + roundoff)) by (field; lra).
  assert (Q2 : roundoff / (1 + roundoff) <= roundoff).
  { apply Rle_trans with (roundoff * 1); [|lra]. apply Rmult_le_compat_l; [lra|]. pose proof (g_inv 1) as G. rewrite pow_1 in G. lra. }
  apply Rabs_le_inv in H. split; lra.
Qed.
Lemma rnd_near x : clear x -> near 1 (rnd x) x.
Proof.
  intros [-> | H]; [rewrite round_0 by (apply valid_rnd_N); apply near_refl|].
  change (SpecFloat.fexp 53 1024) with (FLT_exp (-1074) 53).
  rewrite round_FLT_FLX by exact H.
  destruct (@relative_error_N_FLX'_ex radix2 53 eq_refl (fun x => negb (Z.even x)) x) as (e & He & E).
  match type of E with _ = ?z => match goal with |- near 1 ?a _ => change (a = z) in E end end. rewrite E. apply eps_near. exact He.
Qed.
Lemma rnd_plus_near (x y : binary64) : near 1 (rnd (rl x + rl y)) (rl x + rl y).
Proof.
  change (SpecFloat.fexp 53 1024) with (FLT_exp (-1074) 53).
  destruct (@FLT_plus_error_N_ex radix2 (-1074) 53 eq_refl (fun x => negb (Z.even x)) (rl x) (rl y)) as (e & He & E);
    try apply (Binary.generic_format_B2R 53 1024).
  match type of E with _ = ?z => match goal with |- near 1 ?a _ => change (a = z) in E end end. rewrite E. apply eps_near. exact He.
Qed.

Lemma plus_fins x y : fin (b64_plus rne x y) = true -> fin x = true /\ fin y = true.
Proof.
  destruct x as [sx|sx|sx px hx|sx mx ex hx], y as [sy|sy|sy py hy|sy my ey hy]; cbn; auto; try discriminate;
  destruct sx, sy; cbn; intros; auto; try discriminate.
Qed.
Lemma ovf_fin (z : binary64) b : Binary.B2FF 53 1024 z = Binary.binary_overflow 53 1024 rne b -> fin z = false.
Proof. unfold Binary.binary_overflow, BinarySingleNaN.binary_overflow. cbn. destruct z; cbn; congruence. Qed.
Lemma plus_near x y : fin (b64_plus rne x y) = true -> near 1 (rl (b64_plus rne x y)) (rl x + rl y).
Proof.
  intros H. destruct (plus_fins x y H) as [Hx Hy].
  pose proof (Binary.Bplus_correct 53 1024 (eq_refl _) (eq_refl _) binop_nan_pl64 rne x y Hx Hy) as Q.
  cbn [round_mode rne BinarySingleNaN.round_mode] in Q.
  destruct (Rlt_bool _ _).
  - destruct Q as [Q _]. unfold b64_plus. rewrite Q. apply rnd_plus_near.
  - destruct Q as [Q _]. apply ovf_fin in Q. unfold b64_plus in H. congruence.
Qed.
Lemma opp_val' x : rl (b64_opp x) = - rl x.
Proof. apply Binary.B2R_Bopp. Qed.
Lemma minus_fins x y : fin (b64_minus rne x y) = true -> fin x = true /\ fin y = true.
Proof.
  destruct x as [sx|sx|sx px hx|sx mx ex hx], y as [sy|sy|sy py hy|sy my ey hy]; cbn; auto; try discriminate;
  destruct sx, sy; cbn; intros; auto; try discriminate.
Qed.
Lemma minus_near x y : fin (b64_minus rne x y) = true -> near 1 (rl (b64_minus rne x y)) (rl x - rl y).
Proof.
  intros H. destruct (minus_fins x y H) as [Hx Hy].
  pose proof (Binary.Bminus_correct 53 1024 (eq_refl _) (eq_refl _) binop_nan_pl64 rne x y Hx Hy) as Q.
  cbn [round_mode rne BinarySingleNaN.round_mode] in Q.
  destruct (Rlt_bool _ _).
  - destruct Q as [Q _]. unfold b64_minus. rewrite Q. unfold Rminus. rewrite <- opp_val'. apply rnd_plus_near.
  - destruct Q as [Q _]. apply ovf_fin in Q. unfold b64_minus in H. congruence.
Qed.
Lemma mult_near x y : fin (b64_mult rne x y) = true -> clear (rl x * rl y) -> near 1 (rl (b64_mult rne x y)) (rl x * rl y).
Proof.
  intros H HC. pose proof (Binary.Bmult_correct 53 1024 (eq_refl _) (eq_refl _) binop_nan_pl64 rne x y) as Q.
  cbn [round_mode rne BinarySingleNaN.round_mode] in Q. destruct (Rlt_bool _ _).
  - destruct Q as [Q _]. unfold b64_mult. rewrite Q. apply rnd_near; auto.
  - apply ovf_fin in Q. unfold b64_mult in H. congruence.
Qed.
Lemma div_near x y : fin (b64_div rne x y) = true -> rl y <> 0 -> clear (rl x / rl y) -> near 1 (rl (b64_div rne x y)) (rl x / rl y).
Proof.
  intros H HY HC. pose proof (Binary.Bdiv_correct 53 1024 (eq_refl _) (eq_refl _) binop_nan_pl64 rne x y HY) as Q.
  cbn [round_mode rne BinarySingleNaN.round_mode] in Q. destruct (Rlt_bool _ _).
  - destruct Q as [Q _]. unfold b64_div. rewrite Q. apply rnd_near; auto.
  - apply ovf_fin in Q. unfold b64_div in H. congruence.
Qed.
Lemma opp_val x : rl (b64_opp x) = - rl x.
Proof. apply Binary.B2R_Bopp. Qed.
Lemma opp_fin x : fin (b64_opp x) = fin x.
Proof. apply Binary.is_finite_Bopp. Qed.
Lemma pos_format x : 0 < rl x -> bpow radix2 (-1074) <= rl x.
Proof.
  intros H. assert (G : generic_format radix2 (FLT_exp (-1074) 53) (rl x)) by apply (Binary.generic_format_B2R 53 1024).
  pose proof (@generic_format_ge_bpow radix2 (FLT_exp (-1074) 53) (-1074) ltac:(intros e; unfold FLT_exp; lia) (rl x) H G). auto.
Qed.
Lemma sqrt_near x : 0 < rl x -> near 1 (rl (b64_sqrt rne x)) (sqrt (rl x)).
Proof.
  intros H. pose proof (Binary.Bsqrt_correct 53 1024 (eq_refl _) (eq_refl _) unop_nan_pl64 rne x) as [Q _].
  cbn [round_mode rne BinarySingleNaN.round_mode] in Q. unfold b64_sqrt. rewrite Q. apply rnd_near. right.
  rewrite Rabs_pos_eq by apply sqrt_pos. apply pos_format, sqrt_le_1_alt in H. eapply Rle_trans; [|exact H].
  change (-1074)%Z with (2 * -537)%Z. rewrite sqrt_bpow. apply bpow_le. lia.
Qed.

(* ---- errors against the sum of the magnitudes ---- *)
Definition off (e : nat) (x r A : R) : Prop := Rabs (x - r) <= ((1 + roundoff) ^ e - 1) * A /\ Rabs r <= A.
Lemma near_off m x e : near m x e -> Rabs (x - e) <= ((1 + roundoff) ^ m - 1) * Rabs e.
Proof.
  intros (r & -> & H1 & H2). replace (e * r - e) with ((r - 1) * e) by ring. rewrite Rabs_mult.
  apply Rmult_le_compat_r; [apply Rabs_pos|]. pose proof (g_ge1 m) as G. set (g := (1 + roundoff) ^ m) in *.
  apply Rabs_le. split; [|lra]. apply Rle_trans with (/ g - 1); [|lra].
  assert (Q : 0 <= (g - 1) * (g - 1) * / g) by (apply Rmult_le_pos; [apply Rmult_le_pos; lra|left; apply Rinv_0_lt_compat; lra]).
  replace ((g - 1) * (g - 1) * / g) with (g - 2 + / g) in Q by (field; lra). lra.
Qed.
Lemma off_mono e f x r A : (e <= f)%nat -> off e x r A -> off f x r A.
Proof.
  intros H [H1 H2]. split; auto. eapply Rle_trans; [exact H1|]. apply Rmult_le_compat_r; [pose proof (Rabs_pos r); lra|].
  pose proof (g_mono e f H). lra.
Qed.
Lemma off_scale e x r A w : off e x r A -> off e (w * x) (w * r) (Rabs w * A).
Proof.
  intros [H1 H2]. split.
  - replace (w * x - w * r) with (w * (x - r)) by ring. rewrite Rabs_mult.
    replace (((1 + roundoff) ^ e - 1) * (Rabs w * A)) with (Rabs w * (((1 + roundoff) ^ e - 1) * A)) by ring.
    apply Rmult_le_compat_l; [apply Rabs_pos|auto].
  - rewrite Rabs_mult. apply Rmult_le_compat_l; [apply Rabs_pos|auto].
Qed.
Lemma off_near e m x y r A : off e x r A -> near m y x -> off (e + m) y r A.
Proof.
  intros [H1 H2] HN. split; auto. apply near_off in HN. rewrite pow_add.
  set (g := (1 + roundoff) ^ e) in *. set (h := (1 + roundoff) ^ m) in *.
  assert (HH : 1 <= h) by apply g_ge1.
  assert (HX : Rabs x <= g * A).
  { replace x with ((x - r) + r) by ring. eapply Rle_trans; [apply Rabs_triang|]. lra. }
  replace (y - r) with ((y - x) + (x - r)) by ring. eapply Rle_trans; [apply Rabs_triang|].
  apply Rle_trans with ((h - 1) * (g * A) + (g - 1) * A); [|right; ring].
  apply Rplus_le_compat; auto. eapply Rle_trans; [exact HN|]. apply Rmult_le_compat_l; lra.
Qed.
Lemma off_add e x y r q A B : off e x r A -> off e y q B -> off e (x + y) (r + q) (A + B).
Proof.
  intros [H1 H2] [H3 H4]. split.
  - replace (x + y - (r + q)) with ((x - r) + (y - q)) by ring. eapply Rle_trans; [apply Rabs_triang|]. lra.
  - eapply Rle_trans; [apply Rabs_triang|]. lra.
Qed.

Lemma count_skip {A} (w : list (list A)) k : (k < length w)%nat -> count (skipn k w) = (length (nth k w []) + count (skipn (S k) w))%nat.
Proof.
  intros H. unfold count. revert k H. induction w as [|x v IH]; intros k H; [cbn in H; lia|].
  destruct k as [|k]; [reflexivity|]. cbn [nth length] in *. change (skipn (S k) (x :: v)) with (skipn k v).
  rewrite IH by lia. reflexivity.
Qed.

Section Sweep.
Context (L : Libm).
Local Notation BN := (B64 L).
Definition alloff (e : nat) (f : nat -> binary64) (r A : nat -> R) : Prop := forall i, off e (rl (f i)) (r i) (A i).
Definition absl (sl : list (nat * R)) : list (nat * R) := map (fun p => (fst p, Rabs (snd p))) sl.

Lemma adds_fin (l : list (nat * binary64)) : forall (f : nat -> binary64),
  (forall i, fin (fold_left (@add_to BN) l f i) = true) -> (forall i, fin (f i) = true) /\ Forall (fun p => fin (snd p) = true) l.
Proof.
  induction l as [|[j c] l IH]; intros f H; [split; [exact H|constructor]|]. cbn [fold_left] in H.
  destruct (IH _ H) as [H1 H2]. unfold add_to in H1. cbn [fst snd] in H1. split.
  - intros i. specialize (H1 i). destruct (Nat.eqb i j); auto. apply (plus_fins _ c). exact H1.
  - constructor; auto. cbn [snd]. specialize (H1 j). rewrite Nat.eqb_refl in H1. apply (plus_fins (f j)). exact H1.
Qed.

Lemma adds_off m e a (ar aa : R) : off e (rl a) ar aa -> forall (l : list (nat * binary64)) sl,
  map fst l = map fst sl -> Forall2 (fun (p : nat * binary64) q => fin (snd p) = true -> near m (rl (snd p)) (snd q * rl a)) l sl ->
  forall n (f : nat -> binary64) r A, (forall i, fin (fold_left (@add_to BN) l f i) = true) -> (e + m <= n)%nat -> alloff n f r A ->
  alloff (n + length l) (fold_left (@add_to BN) l f) (spread sl ar r) (spread (absl sl) aa A).
Proof.
  intros Ha l sl HM HF. revert HM. induction HF as [|[j c] [j' w] l sl Hc HF IH]; intros HM n f r A HN Hn HO.
  - rewrite Nat.add_0_r. exact HO.
  - cbn [map fst] in HM. injection HM as <- HM. cbn [fst snd] in *. unfold spread, absl. cbn [fold_left map length fst snd].
    destruct (adds_fin ((j, c) :: l) f HN) as [H1 H2]. inversion H2 as [|? ? Hcf _]; subst. cbn [snd] in Hcf. specialize (Hc Hcf).
    cbn [fold_left] in HN. destruct (adds_fin l _ HN) as [H3 _].
    replace (n + S (length l))%nat with (S n + length l)%nat by lia.
    apply IH; [exact HM|exact HN|lia|].
    intros i. unfold add_to at 1. cbn [fst snd]. specialize (H3 i). unfold add_to in H3. cbn [fst snd] in H3.
    destruct (Nat.eqb_spec i j) as [Hij|Hij]; [|apply (off_mono n); [lia|apply HO]].
    replace (S n) with (n + 1)%nat by lia. eapply off_near; [|apply plus_near; exact H3].
    apply off_add; [apply HO|]. apply (off_mono (e + m)); [lia|]. eapply off_near; [|exact Hc]. apply off_scale. exact Ha.
Qed.

Lemma spread_away sl a : forall (f : nat -> R) i, ~ In i (map fst sl) -> spread sl a f i = f i.
Proof.
  induction sl as [|[j c] l IH]; intros f i H; [reflexivity|]. unfold spread in *. cbn [fold_left]. cbn [map fst In] in H.
  rewrite IH by tauto. cbn [fst snd]. destruct (Nat.eqb_spec i j); [subst; tauto|reflexivity].
Qed.
Lemma adds_away (l : list (nat * binary64)) : forall (f : nat -> binary64) i, ~ In i (map fst l) -> fold_left (@add_to BN) l f i = f i.
Proof.
  induction l as [|[j c] l IH]; intros f i H; [reflexivity|]. cbn [fold_left]. cbn [map fst In] in H.
  rewrite IH by tauto. unfold add_to. cbn [fst snd]. destruct (Nat.eqb_spec i j); [subst; tauto|reflexivity].
Qed.

Context (m : nat) (t : list (@line BN)) (w : list (list (nat * R))) (y : nat).
Context (HS : sloped L m t w y).
Definition part (k : nat) : nat -> binary64 := fold_right (@back BN t) (@seed BN y) (seq k (length t - k)).

Lemma part_step k : (k < length t)%nat -> part k = @back BN t k (part (S k)).
Proof.
  intros H. unfold part. replace (length t - k)%nat with (S (length t - S k)) by lia. reflexivity.
Qed.
Lemma part_same k i : (k <= length t)%nat -> (k <= S i)%nat -> part 0 i = part k i.
Proof using HS.
  induction k as [|k IH]; intros Hk Hi; [reflexivity|]. rewrite IH by lia. rewrite part_step by lia.
  unfold back. apply adds_away. destruct HS as [_ SB ST _]. rewrite (ST k ltac:(lia)).
  intros Hin. apply in_map_iff in Hin. destruct Hin as (p & <- & Hp). pose proof (SB k p ltac:(lia) Hp). lia.
Qed.

Lemma beyond i : (length t <= i)%nat -> @reverse BN t (seed y) i = @seed BN y i.
Proof using HS.
  intros Hi. transitivity (part 0 i); [unfold part; rewrite Nat.sub_0_r; reflexivity|].
  rewrite (part_same (length t) i) by lia. unfold part. rewrite Nat.sub_diag. reflexivity.
Qed.
Context (HF0 : forall i, (i < length t)%nat -> fin (@reverse BN t (seed y) i) = true).
Lemma HF i : fin (@reverse BN t (seed y) i) = true.
Proof using HS HF0.
  destruct (Nat.lt_ge_cases i (length t)) as [H|H]; [auto|]. rewrite beyond by exact H. unfold seed. destruct (Nat.eqb i y); reflexivity.
Qed.
Lemma part_fin k i : (k <= length t)%nat -> fin (part k i) = true.
Proof using HS HF0.
  revert i. induction k as [|k IH]; intros i Hk.
  - unfold part. rewrite Nat.sub_0_r. apply HF.
  - assert (H : forall i, fin (@back BN t k (part (S k)) i) = true).
    { intros j. rewrite <- part_step by lia. apply IH. lia. }
    unfold back in H. apply adds_fin in H. apply H.
Qed.
Definition rpart (v : list (list (nat * R))) (k : nat) : nat -> R :=
  fold_right (fun k f => spread (nth k v []) (f k) f) (unit_at y) (seq k (length v - k)).
Lemma rpart_step v k : (k < length v)%nat -> rpart v k = spread (nth k v []) (rpart v (S k) k) (rpart v (S k)).
Proof.
  intros H. unfold rpart. replace (length v - k)%nat with (S (length v - S k)) by lia. reflexivity.
Qed.

Definition bound (k : nat) : nat := (m * (length t - k) + count (skipn k w))%nat.
Lemma sweep_off n : (n <= length t)%nat -> alloff (bound (length t - n)) (part (length t - n)) (rpart w (length t - n)) (rpart (map absl w) (length t - n)).
Proof using HS HF0.
  pose proof (sl_length L m t w y HS) as HL. induction n as [|n IH]; intros Hn.
  - rewrite Nat.sub_0_r. intros i. unfold part, rpart. rewrite map_length, HL, Nat.sub_diag. cbn [seq fold_right].
    unfold off, seed, unit_at. destruct (Nat.eqb i y).
    + change (rl (@f1 BN)) with (rl B64.c1). replace (rl B64.c1) with 1 by (vm_compute; lra).
      rewrite Rminus_eq_0, Rabs_R0, Rabs_R1. split; [|lra]. apply Rmult_le_pos; [pose proof (g_ge1 (bound (length t))); lra|lra].
    + change (rl (@f0 BN)) with 0. rewrite Rminus_eq_0, Rabs_R0. split; lra.
  - set (k := (length t - S n)%nat). replace (length t - n)%nat with (S k) in IH by lia. specialize (IH ltac:(lia)).
    assert (Hk : (k < length t)%nat) by lia. rewrite part_step by lia.
    rewrite rpart_step by lia. rewrite (rpart_step (map absl w)) by (rewrite map_length; lia).
    change (nth k (map absl w) []) with (nth k (map absl w) (absl [])). rewrite map_nth.
    unfold back. destruct HS as [_ SB ST SA].
    assert (LL : length (l_back (nth k t (@given BN c0)) (part (S k) k)) = length (nth k w [])).
    { rewrite <- (map_length fst (l_back _ _)), (ST k Hk), map_length. reflexivity. }
    assert (EB : bound k = (bound (S k) + m + length (l_back (nth k t (@given BN c0)) (part (S k) k)))%nat).
    { rewrite LL. unfold bound. rewrite count_skip by lia. replace (length t - k)%nat with (S (length t - S k)) by lia. lia. }
    rewrite EB. apply (adds_off m (bound (S k)) (part (S k) k)).
    + apply IH.
    + apply (ST k Hk).
    + pose proof (SA k Hk) as Q. unfold accurate in Q. replace (@reverse BN t (seed y) k) with (part (S k) k) in Q; [exact Q|].
      rewrite <- (part_same (S k) k) by lia. unfold part. rewrite Nat.sub_0_r. reflexivity.
    + intros i. pose proof (part_fin k i ltac:(lia)) as Q. rewrite part_step in Q by lia. exact Q.
    + lia.
    + intros i. apply (off_mono (bound (S k))); [lia|apply IH].
Qed.
End Sweep.

Theorem reverse_accurate (L : Libm) m (t : list (@line (B64 L))) w y : sloped L m t w y ->
  (forall i, (i < length t)%nat -> fin (@reverse (B64 L) t (seed y) i) = true) -> forall i,
  Rabs (rl (@reverse (B64 L) t (seed y) i) - slope_of w y i) <= ((1 + roundoff) ^ (m * length t + count w) - 1) * size_of w y i.
Proof.
  intros HS HF i. pose proof (sweep_off L m t w y HS HF (length t) ltac:(lia) i) as [Q _].
  rewrite Nat.sub_diag in Q. unfold bound, part, rpart in Q. rewrite !Nat.sub_0_r in Q. cbn [skipn] in Q. exact Q.
Qed.
