(* C59: the steps of the operations are accurate; calls of gradient. *)
From Coq Require Import Reals Lra ZifyBool ZifyNat.
From Flocq Require Import Core IEEE754.BinarySingleNaN IEEE754.Binary IEEE754.Bits.
From Coquelicot Require Import Coquelicot.
From Verif Require Import TapeFacts Calculus.
From Verif Require Export Claims_acc.
Import ListNotations.
Local Open Scope R_scope.

Lemma mult_fins x y : fin (b64_mult rne x y) = true -> fin x = true /\ fin y = true.
Proof.
  destruct x as [sx|sx|sx px hx|sx mx ex hx], y as [sy|sy|sy py hy|sy my ey hy]; cbn; auto; try discriminate.
Qed.
Lemma div_fin x y : fin (b64_div rne x y) = true -> rl y <> 0 -> fin x = true.
Proof.
  destruct x as [sx|sx|sx px hx|sx mx ex hx], y as [sy|sy|sy py hy|sy my ey hy]; cbn; auto; try discriminate; intros; lra.
Qed.
Lemma near_nz_l m x e : near m x e -> x <> 0 -> e <> 0.
Proof. intros (r & -> & _) H ->. apply H. ring. Qed.
Lemma near_eq m x e g : near m x e -> e = g -> near m x g.
Proof. intros H <-. exact H. Qed.
Lemma two_val : rl c2 = 2.
Proof. vm_compute; lra. Qed.
Lemma half_val : rl chalf = / 2.
Proof. vm_compute; lra. Qed.
Lemma one_val : rl B64.c1 = 1.
Proof. vm_compute; lra. Qed.

Section Steps.
Context (L : Libm).
Local Notation BN := (B64 L).

Local Notation "x *b y" := (b64_mult rne x y) (at level 40).
Local Notation "x /b y" := (b64_div rne x y) (at level 40).
Local Notation "x +b y" := (b64_plus rne x y) (at level 50).

Lemma acc_square x a : un_safe USquare x a -> fin (a *b c2 *b x) = true -> near 2 (rl (a *b c2 *b x)) (2 * rl x * rl a).
Proof.
  intros [H1 H2] HF. destruct (mult_fins _ _ HF) as [HF1 _].
  eapply near_eq; [eapply (near_trans 1 1); [apply mult_near; auto|apply near_scale, mult_near; auto]|].
  - rewrite two_val. exact H1.
  - rewrite two_val. ring.
Qed.
Lemma acc_sqrt x a : un_safe USqrt x a -> fin (chalf *b a /b b64_sqrt rne x) = true ->
  near 3 (rl (chalf *b a /b b64_sqrt rne x)) (/ 2 * 1 / sqrt (rl x) * rl a).
Proof.
  intros (H0 & H1 & H2) HF. pose proof (sqrt_near x H0) as HN. pose proof (sqrt_lt_R0 _ H0) as HP.
  assert (HZ : rl (b64_sqrt rne x) <> 0) by (apply (near_nz 1 _ _ HN); lra).
  eapply near_eq; [eapply (near_trans 1 2); [apply div_near; auto|apply (near_div 1 1); [apply mult_near; [exact (div_fin _ _ HF HZ)|]|exact HN]]|].
  - rewrite half_val. exact H1.
  - rewrite half_val. field. lra.
Qed.
Lemma acc_inv x a : un_safe UInv x a -> fin (a /b (x *b x)) = true -> rl x <> 0 /\ near 2 (rl (a /b (x *b x))) (1 / (rl x * rl x) * rl a).
Proof.
  intros (H1 & H2 & H3) HF.
  assert (HFX : fin (x *b x) = true).
  { destruct (x *b x) as [s|s|s p h|s m e h]; cbn in H2 |- *; auto; lra. }
  pose proof (mult_near x x HFX H1) as HN. pose proof (near_nz_l _ _ _ HN H2) as HX.
  assert (rl x <> 0) by (intros Q; apply HX; rewrite Q; ring). split; auto.
  eapply near_eq; [eapply (near_trans 1 1); [apply div_near; auto|apply (near_div 0 1); [apply near_refl|exact HN]]|]. field. auto.
Qed.
Lemma acc_isqrt x a : un_safe UInvSqrt x a -> fin (chalf *b a /b (x *b b64_sqrt rne x)) = true ->
  near 4 (rl (chalf *b a /b (x *b b64_sqrt rne x))) (/ 2 * 1 / (rl x * sqrt (rl x)) * rl a).
Proof.
  intros (H0 & H1 & H2 & H3 & H4) HF. pose proof (sqrt_near x H0) as HN. pose proof (sqrt_lt_R0 _ H0) as HP.
  assert (HFX : fin (x *b b64_sqrt rne x) = true).
  { destruct (x *b b64_sqrt rne x) as [s|s|s p h|s m e h]; cbn in H3 |- *; auto; lra. }
  eapply near_eq; [eapply (near_trans 1 3); [apply div_near; auto|apply (near_div 1 2);
    [apply mult_near; [exact (div_fin _ _ HF H3)|]|eapply (near_trans 1 1); [apply mult_near; auto|apply near_scale_l; exact HN]]]|].
  - rewrite half_val. exact H1.
  - rewrite half_val. field. split; lra.
Qed.
Lemma acc_log x a : un_safe ULog x a -> fin (a /b x) = true -> near 1 (rl (a /b x)) (/ rl x * rl a).
Proof. intros (H0 & H1) HF. eapply near_eq; [apply div_near; auto; lra|]. field. lra. Qed.
Lemma acc_atan x a : un_safe UAtan x a -> fin (a /b (B64.c1 +b (x *b x))) = true -> near 3 (rl (a /b (B64.c1 +b (x *b x)))) (1 / (1 + rl x * rl x) * rl a).
Proof.
  intros (H0 & H1 & H2) HF. destruct (plus_fins _ _ H0) as [_ HFX].
  assert (HN : near 2 (rl (B64.c1 +b (x *b x))) (1 + rl x * rl x)).
  { eapply (near_trans 1 1); [apply plus_near; auto|]. rewrite one_val. apply near_1p; [nra|apply mult_near; auto]. }
  assert (HP : 0 < 1 + rl x * rl x) by nra.
  eapply near_eq; [eapply (near_trans 1 2); [apply div_near; auto; apply (near_nz 2 _ _ HN); lra|apply (near_div 0 2); [apply near_refl|exact HN]]|]. field. lra.
Qed.
Lemma acc_asinh x a : un_safe UAsinh x a -> fin (a /b b64_sqrt rne (x *b x +b B64.c1)) = true ->
  near 4 (rl (a /b b64_sqrt rne (x *b x +b B64.c1))) (1 / sqrt (rl x * rl x + 1) * rl a).
Proof.
  intros (H0 & H1 & H2) HF. destruct (plus_fins _ _ H0) as [HFX _].
  assert (HP : 0 < rl x * rl x + 1) by nra.
  assert (HN : near 2 (rl (x *b x +b B64.c1)) (rl x * rl x + 1)).
  { eapply (near_trans 1 1); [apply plus_near; auto|]. rewrite one_val, (Rplus_comm _ 1), (Rplus_comm _ 1). apply near_1p; [nra|apply mult_near; auto]. }
  pose proof (near_pos _ _ _ HN HP) as HP2.
  assert (HQ : near 3 (rl (b64_sqrt rne (x *b x +b B64.c1))) (sqrt (rl x * rl x + 1))).
  { eapply (near_trans 1 2); [apply sqrt_near; auto|]. apply near_sqrt; [lra|exact HN]. }
  pose proof (sqrt_lt_R0 _ HP) as HP3.
  eapply near_eq; [eapply (near_trans 1 3); [apply div_near; auto; apply (near_nz 3 _ _ HQ); lra|apply (near_div 0 3); [apply near_refl|exact HQ]]|]. field. lra.
Qed.

Local Notation "x -b y" := (b64_minus rne x y) (at level 50).
Lemma one_m x : rl x * rl x <= / 2 -> fin (B64.c1 -b (x *b x)) = true -> clear (rl x * rl x) -> near 3 (rl (B64.c1 -b (x *b x))) (1 - rl x * rl x).
Proof.
  intros H0 HF H1. destruct (minus_fins _ _ HF) as [_ HX]. eapply (near_trans 1 2); [apply minus_near; exact HF|]. rewrite one_val.
  apply near_1m; [split; [apply Rle_0_sqr|exact H0]|apply mult_near; assumption].
Qed.
Lemma acc_quot_near m (a z : binary64) e : e <> 0 -> near m (rl z) e -> clear (rl a / rl z) -> fin (a /b z) = true -> near (1 + m) (rl (a /b z)) (1 / e * rl a).
Proof.
  intros HE HN HC HF. eapply near_eq; [eapply (near_trans 1 m); [apply div_near; auto; apply (near_nz m _ _ HN HE)|apply (near_div 0 m); [apply near_refl|exact HN]]|].
  field. exact HE.
Qed.
Lemma acc_root_near m (a z : binary64) e : 0 < e -> near m (rl z) e -> clear (rl a / rl (b64_sqrt rne z)) -> fin (a /b b64_sqrt rne z) = true ->
  near (2 + m) (rl (a /b b64_sqrt rne z)) (1 / sqrt e * rl a).
Proof.
  intros HE HN HC HF. pose proof (sqrt_lt_R0 _ HE) as HP. apply (acc_quot_near (1 + m)); auto; [lra|].
  eapply (near_trans 1 m); [apply sqrt_near, (near_pos _ _ _ HN HE)|]. apply near_sqrt; [lra|exact HN].
Qed.
Lemma half_in x : x * x <= / 2 -> -1 < x < 1.
Proof. intros H. split; nra. Qed.
Lemma acc_asin x a : un_safe UAsin x a -> fin (a /b b64_sqrt rne (B64.c1 -b (x *b x))) = true ->
  near 5 (rl (a /b b64_sqrt rne (B64.c1 -b (x *b x)))) (1 / sqrt (1 - rl x * rl x) * rl a).
Proof. intros (H0 & H1 & H2 & H3) HF. apply (acc_root_near 3); auto; [lra|apply one_m; assumption]. Qed.
Lemma acc_atanh x a : un_safe UAtanh x a -> fin (a /b (B64.c1 -b (x *b x))) = true ->
  near 4 (rl (a /b (B64.c1 -b (x *b x)))) (1 / (1 - rl x * rl x) * rl a).
Proof. intros (H0 & H1 & H2 & H3) HF. apply (acc_quot_near 3); auto; [lra|apply one_m; assumption]. Qed.
Lemma acc_acosh x a : un_safe UAcosh x a -> fin (a /b b64_sqrt rne ((x *b x) -b B64.c1)) = true ->
  near 6 (rl (a /b b64_sqrt rne ((x *b x) -b B64.c1))) (1 / sqrt (rl x * rl x - 1) * rl a).
Proof.
  intros (HX & H0 & H1 & H3) HF. apply (acc_root_near 4); auto; [lra|]. destruct (minus_fins _ _ H1) as [HM _].
  eapply (near_trans 1 3); [apply minus_near; exact H1|]. rewrite one_val. apply near_m1; [exact H0|]. apply mult_near; [exact HM|].
  right. rewrite Rabs_pos_eq by lra. apply Rle_trans with (bpow radix2 0); [apply bpow_le; lia|cbn; lra].
Qed.
Lemma acc_logit x a : un_safe ULogit x a -> fin (a /b (x -b (x *b x))) = true ->
  near 4 (rl (a /b (x -b (x *b x)))) (1 / (rl x - rl x * rl x) * rl a).
Proof.
  intros (HX & H1 & H2 & H3) HF. destruct (minus_fins _ _ H1) as [_ HM]. apply (acc_quot_near 3); auto; [nra|].
  eapply (near_trans 1 2); [apply minus_near; exact H1|]. destruct (mult_near _ _ HM H2) as (r & E & Hr). rewrite E.
  replace (rl x - rl x * rl x * r) with (rl x * (1 - rl x * r)) by ring. replace (rl x - rl x * rl x) with (rl x * (1 - rl x)) by ring.
  apply near_scale_l. apply near_1m; [lra|]. exists r. split; [reflexivity|exact Hr].
Qed.
Theorem acc_un f (x a : binary64) : un_safe f x a -> fin (@un_step BN f x (@un_value BN f x) a) = true ->
  exists d, is_derive (@un_fun (fun z => z) f) (rl x) d /\ near (un_rounds f) (rl (@un_step BN f x (@un_value BN f x) a)) (d * rl a).
Proof.
  intros HS HF. destruct f; try contradiction HS.
  - exists (1 / sqrt (1 - rl x * rl x)). split; [exact (d_asin _ (half_in _ (proj1 HS)))|exact (acc_asin x a HS HF)].
  - exists (- (1 / sqrt (1 - rl x * rl x))). split; [exact (d_acos _ (half_in _ (proj1 HS)))|].
    change (fin (b64_opp (a /b b64_sqrt rne (B64.c1 -b (x *b x)))) = true) in HF. rewrite opp_fin in HF.
    change (near 5 (rl (b64_opp (a /b b64_sqrt rne (B64.c1 -b (x *b x))))) (- (1 / sqrt (1 - rl x * rl x)) * rl a)).
    rewrite opp_val, Ropp_mult_distr_l_reverse. apply near_opp, acc_asin; assumption.
  - exists (1 / (1 + rl x * rl x)). split; [exact (d_atan _)|exact (acc_atan x a HS HF)].
  - exists (1 / sqrt (rl x * rl x + 1)). split; [exact (d_asinh _)|exact (acc_asinh x a HS HF)].
  - exists (1 / sqrt (rl x * rl x - 1)). split; [|exact (acc_acosh x a HS HF)]. apply d_acosh. destruct HS as (H1 & H2 & _). nra.
  - exists (1 / (1 - rl x * rl x)). split; [exact (d_atanh _ (half_in _ (proj1 HS)))|exact (acc_atanh x a HS HF)].
  - exists (/ rl x). split; [|exact (acc_log x a HS HF)]. apply is_derive_ln, HS.
  - exists (/ 2 * 1 / sqrt (rl x)). split; [apply d_sqrt, HS|exact (acc_sqrt x a HS HF)].
  - exists (2 * rl x). split; [|exact (acc_square x a HS HF)]. apply (deriv_ext (fun t => t * t)); [reflexivity|]. auto_derive; auto. ring.
  - change (fin (b64_opp (a /b (x *b x))) = true) in HF. rewrite opp_fin in HF. destruct (acc_inv x a HS HF) as [HX HN].
    exists (- (1 / (rl x * rl x))). split; [apply d_inv; auto|].
    change (near 2 (rl (b64_opp (a /b (x *b x)))) (- (1 / (rl x * rl x)) * rl a)). rewrite opp_val, Ropp_mult_distr_l_reverse. apply near_opp, HN.
  - change (fin (b64_opp (chalf *b a /b (x *b b64_sqrt rne x))) = true) in HF. rewrite opp_fin in HF. pose proof (acc_isqrt x a HS HF) as HN.
    exists (- (/ 2 * 1 / (rl x * sqrt (rl x)))). split; [apply d_isqrt, HS|].
    change (near 4 (rl (b64_opp (chalf *b a /b (x *b b64_sqrt rne x)))) (- (/ 2 * 1 / (rl x * sqrt (rl x))) * rl a)).
    rewrite opp_val, Ropp_mult_distr_l_reverse. apply near_opp, HN.
  - exists (1 / (rl x - rl x * rl x)). split; [|exact (acc_logit x a HS HF)]. apply d_logit. destruct HS as (H1 & _). lra.
  - exists (-1). split; [apply (deriv_ext (fun t => - t)); [reflexivity|]; auto_derive; auto; ring|].
    change (near 0 (rl (b64_opp a)) (-1 * rl a)). rewrite opp_val. eapply near_eq; [apply near_refl|ring].
Qed.

Theorem acc_lib f (x a c : binary64) (e : R) k : un_partner L f x = Some (c, e) -> near k (rl c) e ->
  clear (rl a * rl c) -> fin (@un_step BN f x (@un_value BN f x) a) = true ->
  exists d, is_derive (@un_fun (fun z => z) f) (rl x) d /\ near (S k) (rl (@un_step BN f x (@un_value BN f x) a)) (d * rl a).
Proof.
  intros HE HN HC HF.
  assert (HM : fin (a *b c) = true -> near (S k) (rl (a *b c)) (e * rl a)).
  { intros H. eapply near_eq; [eapply (near_trans 1 k); [apply mult_near; auto|apply near_scale_l; exact HN]|ring]. }
  destruct f; try discriminate HE; injection HE as <- <-.
  - exists (cos (rl x)). split; [apply is_derive_sin|exact (HM HF)].
  - exists (- sin (rl x)). split; [apply is_derive_cos|].
    change (fin (b64_opp (a *b l_sin L x)) = true) in HF. rewrite opp_fin in HF. specialize (HM HF).
    change (near (S k) (rl (b64_opp (a *b l_sin L x))) (- sin (rl x) * rl a)). rewrite opp_val, Ropp_mult_distr_l_reverse. apply near_opp, HM.
  - exists (cosh (rl x)). split; [apply d_sinh|exact (HM HF)].
  - exists (sinh (rl x)). split; [apply d_cosh|exact (HM HF)].
  - exists (exp (rl x)). split; [apply is_derive_exp|exact (HM HF)].
Qed.

Lemma acc_quot x y a : rl y <> 0 -> fin (x /b y) = true -> clear (rl x / rl y) -> clear (rl (x /b y) * rl a) -> clear (rl (x /b y *b a) / rl y) ->
  fin (x /b y *b a /b y) = true -> near 3 (rl (b64_opp (x /b y *b a /b y))) (- (rl x / (rl y * rl y)) * rl a).
Proof.
  intros HY HF1 H1 H2 H3 HF. rewrite opp_val. replace (- (rl x / (rl y * rl y)) * rl a) with (- (rl x / rl y * rl a / rl y)) by (field; auto).
  apply near_opp. eapply (near_trans 1 2); [apply div_near; auto|]. apply (near_div 2 0); [|apply near_refl].
  eapply (near_trans 1 1); [apply mult_near; auto; exact (div_fin _ _ HF HY)|]. apply near_scale. apply div_near; auto.
Qed.
Lemma d_den c y : y <> 0 -> is_derive (fun t => c / t) y (- (c / (y * y))).
Proof. intros H. auto_derive; auto. field; auto. Qed.

Lemma acc_vv0 k b (x y a : binary64) : vv_safe b x y a -> exists p q d e,
  @vv_step BN b x y (@bin_value BN b x y) a = [p; q] /\
  is_derive (fun t => bin_fun b t (rl y)) (rl x) d /\ is_derive (fun t => bin_fun b (rl x) t) (rl y) e /\
  (fin p = true -> near (bin_rounds k b) (rl p) (d * rl a)) /\ (fin q = true -> near (bin_rounds k b) (rl q) (e * rl a)).
Proof.
  intros HS. destruct b; try contradiction HS.
  - exists a, a, 1, 1. split; [reflexivity|]. cbn [bin_fun bin_rounds]. split; [auto_derive; auto; ring|]. split; [auto_derive; auto; ring|]. split;
    intros _; rewrite Rmult_1_l; apply near_refl.
  - exists a, (b64_opp a), 1, (-1). split; [reflexivity|]. cbn [bin_fun bin_rounds]. split; [auto_derive; auto; ring|]. split; [auto_derive; auto; ring|]. split.
    + intros _. rewrite Rmult_1_l. apply near_refl.
    + intros _. rewrite opp_val. eapply near_eq; [apply near_refl|ring].
  - exists (y *b a), (x *b a), (rl y), (rl x). destruct HS. split; [reflexivity|]. cbn [bin_fun bin_rounds]. split; [auto_derive; auto; ring|]. split; [auto_derive; auto; ring|]. split;
    intros HF; apply mult_near; auto.
  - destruct HS as (HY & HF & H1 & H2 & H3 & H4). exists (a /b y), (b64_opp (x /b y *b a /b y)), (/ rl y), (- (rl x / (rl y * rl y))).
    split; [reflexivity|]. cbn [bin_fun bin_rounds]. split; [auto_derive; auto; field; auto|]. split; [apply d_den; auto|]. split; intros HFF.
    + apply (near_mono 1); [lia|]. eapply near_eq; [apply div_near; auto|]. field; auto.
    + rewrite opp_fin in HFF. apply acc_quot; auto.
Qed.
Lemma acc_vd0 b (x d a : binary64) : vd_safe b d a -> exists p e,
  @vd_step BN b x d (@vd_value BN b x d) a = [p] /\ is_derive (fun t => bin_fun b t (rl d)) (rl x) e /\
  (fin p = true -> near 1 (rl p) (e * rl a)).
Proof.
  intros HS. destruct b; try contradiction HS.
  - exists a, 1. split; [reflexivity|]. cbn [bin_fun]. split; [auto_derive; auto; ring|]. intros _. rewrite Rmult_1_l; apply near_refl.
  - exists a, 1. split; [reflexivity|]. cbn [bin_fun]. split; [auto_derive; auto; ring|]. intros _. rewrite Rmult_1_l; apply near_refl.
  - exists (a *b d), (rl d). split; [reflexivity|]. cbn [bin_fun]. split; [auto_derive; auto; ring|]. intros HF.
    rewrite Rmult_comm. apply mult_near; auto.
  - destruct HS. exists (a /b d), (/ rl d). split; [reflexivity|]. cbn [bin_fun]. split; [auto_derive; auto; field; auto|]. intros HF.
    eapply near_eq; [apply div_near; auto|]. field; auto.
Qed.
Lemma acc_dv0 k b (d x a : binary64) : dv_safe b d x a -> exists p e,
  @dv_step BN b d x (@dv_value BN b d x) a = [p] /\ is_derive (fun t => bin_fun b (rl d) t) (rl x) e /\
  (fin p = true -> near (bin_rounds k b) (rl p) (e * rl a)).
Proof.
  intros HS. destruct b; try contradiction HS.
  - exists a, 1. split; [reflexivity|]. cbn [bin_fun]. split; [auto_derive; auto; ring|]. intros _. rewrite Rmult_1_l; apply near_refl.
  - exists (b64_opp a), (-1). split; [reflexivity|]. cbn [bin_fun]. split; [auto_derive; auto; ring|]. intros _. rewrite opp_val. eapply near_eq; [apply near_refl|ring].
  - exists (a *b d), (rl d). split; [reflexivity|]. cbn [bin_fun]. split; [auto_derive; auto; ring|]. intros HF.
    rewrite Rmult_comm. apply mult_near; auto.
  - destruct HS as (HY & HF & H2 & H3 & H4). exists (b64_opp (d /b x *b a /b x)), (- (rl d / (rl x * rl x))).
    split; [reflexivity|]. cbn [bin_fun]. split; [apply d_den; auto|]. intros HFF. rewrite opp_fin in HFF. apply acc_quot; auto.
Qed.
(* what sum, dot_product, matmul and var_with_partials add: the adjoint times a number *)
(* ---- with an intrinsic function ---- *)
Lemma acc_ratio k a x v e : ratio_safe k a x v e -> fin (a *b x /b v) = true -> near (2 + k) (rl (a *b x /b v)) (rl x / e * rl a).
Proof.
  intros (HE & HN & H1 & H2) HF. pose proof (near_nz _ _ _ HN HE) as HV. pose proof (div_fin _ _ HF HV) as HM.
  pose proof (div_near _ _ HF HV H2) as N2. pose proof (mult_near _ _ HM H1) as N1.
  apply (near_eq _ _ (rl a * rl x / e)); [|field; exact HE].
  apply (near_trans 1 (1 + k) _ _ _ N2). apply near_div; assumption.
Qed.
Lemma feq_pos (x : binary64) : 0 < rl x -> b_eq x c0 = false.
Proof.
  intros H. destruct x as [s|s|s p h|s m e h]; try (cbn in H; lra). unfold b_eq, b_cmp, b64_compare. 
  cbn. destruct s; reflexivity.
Qed.
Lemma acc_powx k a y v x e : 0 < rl x -> near k (rl v) e -> clear (rl a * rl y) -> clear (rl (a *b y) * rl v) -> clear (rl (a *b y *b v) / rl x) ->
  fin (a *b y *b v /b x) = true -> near (3 + 2 * k) (rl (a *b y *b v /b x)) (rl y * e / rl x * rl a).
Proof.
  intros HX HN H1 H2 H3 HF. assert (HZ : rl x <> 0) by lra. pose proof (div_fin _ _ HF HZ) as HM. destruct (mult_fins _ _ HM) as [HM1 _].
  pose proof (div_near _ _ HF HZ H3) as N3. pose proof (mult_near _ _ HM H2) as N2. pose proof (mult_near _ _ HM1 H1) as N1.
  apply (near_mono (1 + (1 + (1 + k)))); [lia|]. apply (near_eq _ _ (rl a * rl y * e / rl x)); [|field; exact HZ].
  apply (near_trans 1 (1 + (1 + k)) _ _ _ N3). unfold Rdiv. apply near_scale. apply (near_trans 1 (1 + k) _ _ _ N2). apply near_mul; assumption.
Qed.
Lemma acc_powy k a v l e g : near k (rl v) e -> near k (rl l) g -> clear (rl a * rl v) -> clear (rl (a *b v) * rl l) ->
  fin (a *b v *b l) = true -> near (3 + 2 * k) (rl (a *b v *b l)) (e * g * rl a).
Proof.
  intros HN HG H1 H2 HF. destruct (mult_fins _ _ HF) as [HM1 _].
  pose proof (mult_near _ _ HF H2) as N2. pose proof (mult_near _ _ HM1 H1) as N1.
  apply (near_mono (1 + ((1 + k) + k))); [lia|]. apply (near_eq _ _ (rl a * e * g)); [|ring].
  apply (near_trans 1 ((1 + k) + k) _ _ _ N2). apply near_mul; [|exact HG].
  apply (near_trans 1 k _ _ _ N1). apply near_scale_l. exact HN.
Qed.
Lemma hyp_nz x y : sqrt (x * x + y * y) <> 0 -> x <> 0 \/ y <> 0.
Proof.
  intros H. destruct (Req_dec x 0) as [->|]; [|left; assumption]. right. intros ->. apply H. rewrite Rmult_0_l, Rplus_0_l. apply sqrt_0.
Qed.
Lemma pow_d1 (v w : R) : 0 < v -> is_derive (fun t => bin_fun BPow t w) v (w * Rpower v w / v).
Proof.
  intros H. eapply deriv_eq; [apply rpower_d1; exact H|].
  unfold Rminus. rewrite Rpower_plus, Rpower_Ropp, Rpower_1 by exact H. field. lra.
Qed.
Theorem acc_vv k b (x y a : binary64) : vv_fine L k b x y a -> exists p q d e,
  @vv_step BN b x y (@bin_value BN b x y) a = [p; q] /\
  is_derive (fun t => bin_fun b t (rl y)) (rl x) d /\ is_derive (fun t => bin_fun b (rl x) t) (rl y) e /\
  (fin p = true -> near (bin_rounds k b) (rl p) (d * rl a)) /\ (fin q = true -> near (bin_rounds k b) (rl q) (e * rl a)).
Proof.
  intros HS. destruct b; try exact (acc_vv0 k _ x y a HS).
  - destruct HS as (HX & HV & HG & H1 & H2 & H3 & H4 & H5). set (v := l_pow L x y) in *.
    exists (a *b y *b v /b x), (a *b v *b l_log L x), (rl y * Rpower (rl x) (rl y) / rl x), (Rpower (rl x) (rl y) * ln (rl x)).
    split; [unfold vv_step; change (@feq BN x (@f0 BN)) with (b_eq x c0); rewrite (feq_pos x HX); reflexivity|].
    split; [apply pow_d1; exact HX|]. split; [apply rpower_d2; exact HX|]. split; intros HF; [apply acc_powx|apply acc_powy]; assumption.
  - destruct HS as (H1 & H2). set (v := l_hypot L x y) in *. exists (a *b x /b v), (a *b y /b v), (rl x / sqrt (rl x * rl x + rl y * rl y)), (rl y / sqrt (rl x * rl x + rl y * rl y)).
    pose proof (hyp_nz _ _ (proj1 H1)) as HZ.
    split; [reflexivity|]. split; [apply hypot_d1; exact HZ|]. split; [apply hypot_d2; exact HZ|]. split; apply acc_ratio; assumption.
Qed.
Theorem acc_vd k b (x d a : binary64) : vd_fine L k b x d a -> exists p e,
  @vd_step BN b x d (@vd_value BN b x d) a = [p] /\ is_derive (fun t => bin_fun b t (rl d)) (rl x) e /\
  (fin p = true -> near (1 + bin_rounds k b) (rl p) (e * rl a)).
Proof.
  intros HS. assert (H0 : vd_safe b d a -> exists p e,
    @vd_step BN b x d (@vd_value BN b x d) a = [p] /\ is_derive (fun t => bin_fun b t (rl d)) (rl x) e /\ (fin p = true -> near (1 + bin_rounds k b) (rl p) (e * rl a))).
  { intros H. destruct (acc_vd0 b x d a H) as (p & e & E1 & E2 & E3). exists p, e. split; [exact E1|]. split; [exact E2|].
    intros HF. apply (near_mono 1); [lia|auto]. }
  destruct b; try exact (H0 HS); clear H0.
  - destruct HS as (HP & HX & HV & H1 & H2 & H3). set (v := l_pow L x d) in *.
    exists (a *b d *b v /b x), (rl d * Rpower (rl x) (rl d) / rl x). unfold vd_step, vd_value. rewrite HP.
    split; [change (@feq BN x (@f0 BN)) with (b_eq x c0); rewrite (feq_pos x HX); reflexivity|].
    split; [apply pow_d1; exact HX|]. intros HF. apply (near_mono (3 + 2 * k)); [cbn; lia|]. apply acc_powx; assumption.
  - set (v := l_hypot L x d) in *. exists (a *b x /b v), (rl x / sqrt (rl x * rl x + rl d * rl d)).
    split; [reflexivity|]. split; [apply hypot_d1, hyp_nz, (proj1 HS)|]. intros HF. apply (near_mono (2 + k)); [cbn; lia|]. apply acc_ratio; assumption.
Qed.
Theorem acc_dv k b (d x a : binary64) : dv_fine L k b d x a -> exists p e,
  @dv_step BN b d x (@dv_value BN b d x) a = [p] /\ is_derive (fun t => bin_fun b (rl d) t) (rl x) e /\
  (fin p = true -> near (bin_rounds k b) (rl p) (e * rl a)).
Proof.
  intros HS. destruct b; try exact (acc_dv0 k _ d x a HS).
  - destruct HS as (HX & HV & HG & H1 & H2). set (v := l_pow L d x) in *.
    exists (a *b v *b l_log L d), (Rpower (rl d) (rl x) * ln (rl d)).
    split; [unfold dv_step; change (@feq BN d (@f0 BN)) with (b_eq d c0); rewrite (feq_pos d HX); reflexivity|].
    split; [apply rpower_d2; exact HX|]. intros HF. apply acc_powy; assumption.
  - set (v := l_hypot L x d) in *. exists (a *b x /b v), (rl x / sqrt (rl d * rl d + rl x * rl x)).
    split; [reflexivity|]. split; [apply hypot_d2, hyp_nz, (proj1 HS)|]. intros HF. apply acc_ratio; assumption.
Qed.
Theorem acc_fine k f (x a : binary64) : un_fine L k f x a -> fin (@un_step BN f x (@un_value BN f x) a) = true ->
  exists d, is_derive (@un_fun (fun z => z) f) (rl x) d /\ near (un_rounds_of k f) (rl (@un_step BN f x (@un_value BN f x) a)) (d * rl a).
Proof.
  intros HS HF.
  assert (HG : match un_partner L f x with Some (c, e) => near k (rl c) e /\ clear (rl a * rl c) | None => un_safe f x a end ->
    f <> UTan -> f <> UTanh -> exists d, is_derive (@un_fun (fun z => z) f) (rl x) d /\ near (un_rounds_of k f) (rl (@un_step BN f x (@un_value BN f x) a)) (d * rl a)).
  { intros HP N1 N2. destruct (un_partner L f x) as [[c e]|] eqn:EP.
    - destruct HP as [HN HC]. replace (un_rounds_of k f) with (S k) by (destruct f; try discriminate EP; reflexivity). apply (acc_lib f x a c e k); assumption.
    - replace (un_rounds_of k f) with (un_rounds f) by (destruct f; try discriminate EP; try congruence; reflexivity). apply acc_un; assumption. }
  destruct f; try (apply HG; [exact HS|discriminate|discriminate]); clear HG.
  - destruct HS as (HC & HN & H1 & H2 & H3). exists (1 * (1 + tan (rl x) * tan (rl x))). split; [exact (d_tan _ HC)|].
    set (y := l_tan L x) in *. change (fin (a *b b64_plus rne B64.c1 (y *b y)) = true) in HF.
    change (near (3 + 2 * k) (rl (a *b b64_plus rne B64.c1 (y *b y))) (1 * (1 + tan (rl x) * tan (rl x)) * rl a)).
    pose proof (mult_near _ _ HF H3) as N3. pose proof (plus_near _ _ H2) as N2. destruct (plus_fins _ _ H2) as [_ HM]. pose proof (mult_near _ _ HM H1) as N1.
    apply (near_mono (1 + (1 + (1 + (k + k))))); [lia|]. apply (near_eq _ _ (rl a * (1 + tan (rl x) * tan (rl x)))); [|ring].
    apply (near_trans 1 _ _ _ _ N3). apply near_scale_l. apply (near_trans 1 _ _ _ _ N2). rewrite one_val.
    apply near_1p; [apply Rle_0_sqr|]. apply (near_trans 1 _ _ _ _ N1). apply near_mul; assumption.
  - destruct HS as (HN & H1 & H2 & H3). exists (1 / (cosh (rl x) * cosh (rl x))). split; [exact (d_tanh _)|].
    set (c := l_cosh L x) in *. change (fin (a /b (c *b c)) = true) in HF.
    change (near (2 + 2 * k) (rl (a /b (c *b c))) (1 / (cosh (rl x) * cosh (rl x)) * rl a)).
    assert (HP : cosh (rl x) <> 0) by (pose proof (exp_pos (rl x)); pose proof (exp_pos (- rl x)); unfold cosh; lra).
    pose proof (mult_near _ _ H1 H2) as N1.
    assert (NC : near (1 + (k + k)) (rl (c *b c)) (cosh (rl x) * cosh (rl x))) by (apply (near_trans 1 _ _ _ _ N1); apply near_mul; assumption).
    assert (HZ : rl (c *b c) <> 0) by (apply (near_nz _ _ _ NC), Rmult_integral_contrapositive_currified; assumption).
    pose proof (div_near _ _ HF HZ H3) as N3. apply (near_mono (1 + (0 + (1 + (k + k))))); [lia|].
    apply (near_eq _ _ (rl a / (cosh (rl x) * cosh (rl x)))); [|field; exact HP].
    apply (near_trans 1 _ _ _ _ N3). apply near_div; [apply near_refl|exact NC].
Qed.
Lemma vv_len k b (x y a : binary64) : vv_fine L k b x y a -> forall v z, length (@vv_step BN b x y v z) = 2%nat.
Proof.
  intros HS v z. destruct b; try reflexivity. unfold vv_step. change (@feq BN x (@f0 BN)) with (b_eq x c0). rewrite (feq_pos x (proj1 HS)). reflexivity.
Qed.
Lemma vd_len k b (x d a : binary64) : vd_fine L k b x d a -> forall v z, length (@vd_step BN b x d v z) = 1%nat.
Proof.
  intros HS v z. destruct b; try reflexivity. destruct HS as (HP & HX & _). unfold vd_step. rewrite HP. change (@feq BN x (@f0 BN)) with (b_eq x c0). rewrite (feq_pos x HX). reflexivity.
Qed.
Lemma dv_len k b (d x a : binary64) : dv_fine L k b d x a -> forall v z, length (@dv_step BN b d x v z) = 1%nat.
Proof.
  intros HS v z. destruct b; try reflexivity. unfold dv_step. change (@feq BN d (@f0 BN)) with (b_eq d c0). rewrite (feq_pos d (proj1 HS)). reflexivity.
Qed.
Lemma vv_in k b x y a : vv_fine L k b x y a -> vv_dom b (rl x) (rl y).
Proof. intros HS. destruct b; cbn [vv_dom]; auto; try exact (proj1 HS). apply hyp_nz. apply (proj1 HS). Qed.
Lemma vd_in k b x d a : vd_fine L k b x d a -> vv_dom b (rl x) (rl d).
Proof. intros HS. destruct b; cbn [vv_dom]; auto; try exact (proj1 HS); [exact (proj1 (proj2 HS))|]. apply hyp_nz. apply (proj1 HS). Qed.
Lemma dv_in k b d x a : dv_fine L k b d x a -> vv_dom b (rl d) (rl x).
Proof. intros HS. destruct b; cbn [vv_dom]; auto; try exact (proj1 HS). apply hyp_nz. apply (proj1 HS). Qed.
Theorem acc_product (c a : binary64) : clear (rl a * rl c) -> fin (a *b c) = true -> near 1 (rl (a *b c)) (rl c * rl a).
Proof. intros. rewrite Rmult_comm. apply mult_near; auto. Qed.
End Steps.

Theorem gradient_accurate (L : Libm) (C : Cfg (B64 L)) env0 (s : @st (B64 L)) env ws xs (f : @fn (B64 L)) y ys t m w :
  @practical (B64 L) C -> reachable env0 s -> (s_lvl s < 10)%Z -> Forall (alive s) env -> mapM (var_val s) env = Ok ws ->
  let t0 := map given (ws ++ xs) in let rs := seq 0 (length ws + length xs) in let n := (6 * zlen xs + cost f rs t0)%Z in
  well_formed f rs t0 -> roomy s n -> ~ exactly_full s n -> trace f rs t0 = Some (y :: ys, t) ->
  sloped L m t w y -> (forall i, (i < length t)%nat -> fin (@reverse (B64 L) t (seed y) i) = true) ->
  exists v ds s', gradient (fun xv => call_fn1 f (env ++ xv)) xs s = Ok (v :: ds, s') /\ length ds = length xs /\
    forall i d, nth_error ds i = Some d ->
      Rabs (rl d - slope_of w y (length ws + i)) <= ((1 + roundoff) ^ (m * length t + count w) - 1) * size_of w y (length ws + i).
Proof.
  intros HP HR HL HA HV t0 rs n HW HM HE HT HS HF.
  destruct (gradient_reverse s env ws xs f y ys t HP (reach_snd env0 s HP HR) HL HA HV HW HM HE HT) as (s' & E).
  eexists. eexists. exists s'. split; [exact E|]. split; [rewrite map_length, seq_length; reflexivity|].
  intros i d Hd. rewrite nth_error_map in Hd. destruct (nth_error (seq (length ws) (length xs)) i) as [k|] eqn:Ek; [|discriminate].
  injection Hd as <-. assert (Hi : (i < length xs)%nat) by (rewrite <- (seq_length (length xs) (length ws)); apply nth_error_Some; congruence).
  rewrite (nth_error_nth' _ 0%nat) in Ek by (rewrite seq_length; exact Hi). rewrite seq_nth in Ek by exact Hi. injection Ek as <-.
  apply (reverse_accurate L m t w y HS HF).
Qed.
