(* Accuracy of normal_lpdf and lognormal_lpdf in binary64 (C60). *)
From Verif Require Import TapeFacts.
From Coq Require Import ZifyBool ZifyNat Lra.
From Flocq Require Import Core IEEE754.Binary IEEE754.Bits.
From Verif Require Import CvodesFacts Claims_reverse Claims_lpdf Claims_branch Claims_acc3.
From Verif Require Export DensSpec.
Import ListNotations.
Local Open Scope R_scope.
Local Notation "x *b y" := (b64_mult rne x y) (at level 40).
Local Notation "x /b y" := (b64_div rne x y) (at level 40).
Local Notation "x -b y" := (b64_minus rne x y) (at level 50).
Local Notation g := (1 + roundoff).

Lemma off_of m x e : near m x e -> off m x e (Rabs e).
Proof. intros H. split; [apply near_off, H|lra]. Qed.
Lemma off_size e x r A : off e x r A -> Rabs x <= g ^ e * A.
Proof.
  intros [H1 H2]. pose proof (g_ge1 e). replace x with ((x - r) + r) by ring.
  eapply Rle_trans; [apply Rabs_triang|]. replace (g ^ e * A) with ((g ^ e - 1) * A + A) by ring. lra.
Qed.
Lemma off_pos e x r A : off e x r A -> 0 <= A.
Proof. intros [_ H]. pose proof (Rabs_pos r). lra. Qed.
Lemma off_mul e f x y r q A B : off e x r A -> off f y q B -> off (e + f) (x * y) (r * q) (A * B).
Proof.
  intros H1 H2. pose proof (off_size _ _ _ _ H2) as S2. pose proof (off_pos _ _ _ _ H1) as PA. pose proof (off_pos _ _ _ _ H2) as PB.
  pose proof (g_ge1 e) as G1. pose proof (g_ge1 f) as G2. destruct H1 as [H1 R1], H2 as [H2 R2]. split.
  - replace (x * y - r * q) with ((x - r) * y + r * (y - q)) by ring. eapply Rle_trans; [apply Rabs_triang|]. rewrite !Rabs_mult, pow_add.
    assert (Rabs (x - r) * Rabs y <= (g ^ e - 1) * A * (g ^ f * B)) by (apply Rmult_le_compat; auto using Rabs_pos).
    assert (Rabs r * Rabs (y - q) <= A * ((g ^ f - 1) * B)) by (apply Rmult_le_compat; auto using Rabs_pos).
    replace ((g ^ e * g ^ f - 1) * (A * B)) with ((g ^ e - 1) * A * (g ^ f * B) + A * ((g ^ f - 1) * B)) by ring. lra.
  - rewrite Rabs_mult. apply Rmult_le_compat; auto using Rabs_pos.
Qed.
Lemma off_opp e x r A : off e x r A -> off e (- x) (- r) A.
Proof. intros [H1 H2]. split; [replace (- x - - r) with (- (x - r)) by ring|]; rewrite Rabs_Ropp; assumption. Qed.
Lemma off_sub e f x y r q A B : off e x r A -> off f y q B -> off (Nat.max e f) (x - y) (r - q) (A + B).
Proof.
  intros H1 H2. unfold Rminus. apply off_add; [eapply off_mono; [|exact H1]; lia|]. apply off_opp. eapply off_mono; [|exact H2]. lia.
Qed.

Lemma off_total {A} e (f : A -> binary64) (r S : A -> R) (ys : list A) : (forall y, In y ys -> off e (rl (f y)) (r y) (S y)) ->
  Rabs (sumR (map (fun y => rl (f y)) ys) - sumR (map r ys)) <= (g ^ e - 1) * sumR (map S ys) /\
  sumR (map (fun y => Rabs (rl (f y))) ys) <= g ^ e * sumR (map S ys) /\ 0 <= sumR (map S ys).
Proof.
  induction ys as [|y ys IH]; intros H; cbn [map sumR fold_right].
  - rewrite Rminus_0_r, Rabs_R0. lra.
  - destruct (IH (fun z Hz => H z (or_intror Hz))) as (I1 & I2 & I3). pose proof (H y (or_introl eq_refl)) as Hy.
    pose proof (off_size _ _ _ _ Hy). pose proof (off_pos _ _ _ _ Hy). destruct Hy as [Hy _]. change (fold_right Rplus 0) with sumR.
    split; [|split; [lra|lra]].
    replace (rl (f y) + sumR (map (fun y => rl (f y)) ys) - (r y + sumR (map r ys))) with
      ((rl (f y) - r y) + (sumR (map (fun y => rl (f y)) ys) - sumR (map r ys))) by ring.
    eapply Rle_trans; [apply Rabs_triang|]. lra.
Qed.
Lemma sum_off {A} k e (f : A -> binary64) (r S : A -> R) ys v : sum_near k (map f ys) v ->
  (forall y, In y ys -> fin (f y) = true -> off e (rl (f y)) (r y) (S y)) -> off_by (k + e) v (sumR (map r ys)) (sumR (map S ys)).
Proof.
  intros (HF & _ & HB) H. assert (H' : forall y, In y ys -> off e (rl (f y)) (r y) (S y)).
  { intros y Hy. apply H; auto. rewrite Forall_forall in HF. apply HF, in_map, Hy. }
  destruct (off_total e f r S ys H') as (I1 & I2 & I3). rewrite !map_map in HB. pose proof (g_ge1 k). pose proof (g_ge1 e). intros _. rewrite pow_add.
  replace (rl v - sumR (map r ys)) with ((rl v - sumR (map (fun y => rl (f y)) ys)) + (sumR (map (fun y => rl (f y)) ys) - sumR (map r ys))) by ring.
  eapply Rle_trans; [apply Rabs_triang|].
  assert ((g ^ k - 1) * sumR (map (fun y => Rabs (rl (f y))) ys) <= (g ^ k - 1) * (g ^ e * sumR (map S ys))) by (apply Rmult_le_compat_l; lra).
  replace ((g ^ k * g ^ e - 1) * sumR (map S ys)) with ((g ^ k - 1) * (g ^ e * sumR (map S ys)) + (g ^ e - 1) * sumR (map S ys)) by ring. lra.
Qed.

(* left to right summation is such a sum *)
Theorem sum_left xs : fin (fold_left (b64_plus rne) xs c0) = true -> sum_near (length xs) xs (fold_left (b64_plus rne) xs c0).
Proof.
  assert (Z0 : rl c0 = 0) by reflexivity.
  enough (G : forall v A r, off 0 (rl v) r A \/ True -> fin (fold_left (b64_plus rne) xs v) = true -> Forall (fun x => fin x = true) xs /\
    forall e, off e (rl v) r A -> off (e + length xs) (rl (fold_left (b64_plus rne) xs v)) (r + sumR (map rl xs)) (A + sumR (map (fun x => Rabs (rl x)) xs))).
  { intros HF. destruct (G c0 0 0 (or_intror I) HF) as [G1 G2]. split; [exact G1|]. split; [exact HF|].
    assert (O : off 0 (rl c0) 0 0) by (rewrite Z0; split; rewrite ?Rminus_0_r, Rabs_R0; cbn [pow]; lra).
    destruct (G2 0%nat O) as [G3 _]. rewrite !Rplus_0_l in G3. exact G3. }
  induction xs as [|x xs IH]; intros v A r _ HF; cbn [fold_left map sumR fold_right length] in *.
  - split; [constructor|]. intros e H. rewrite !Rplus_0_r, Nat.add_0_r. exact H.
  - destruct (IH (b64_plus rne v x) (A + Rabs (rl x)) (r + rl x) (or_intror I) HF) as [I1 I2].
    assert (HV : fin (b64_plus rne v x) = true).
    { clear - HF. revert HF. generalize (b64_plus rne v x). induction xs as [|z xs IH]; intros w H; [exact H|]. cbn [fold_left] in H.
      apply IH in H. apply (proj1 (plus_fins _ _ H)). }
    split; [constructor; [exact (proj2 (plus_fins _ _ HV))|exact I1]|]. intros e H.
    replace (e + S (length xs))%nat with ((e + 1) + length xs)%nat by lia. rewrite <- !Rplus_assoc. apply I2.
    eapply off_near; [|apply plus_near, HV]. apply off_add; [exact H|]. split; [|lra]. rewrite Rminus_diag_eq, Rabs_R0 by reflexivity.
    pose proof (g_ge1 e). apply Rmult_le_pos; [lra|apply Rabs_pos].
Qed.

(* ---- one observation ---- *)
Section One.
Context (sd d : binary64) (e : nat) (dr D : R) (HS : 0 < rl sd) (HO : off e (rl d) dr D) (HC : score_safe sd d).
Local Notation i := (B64.c1 /b sd).
Local Notation z := (d *b i).
Local Notation s := (rl sd).

Lemma one_i : fin i = true -> off 1 (rl i) (1 / s) (1 / s).
Proof.
  intros H. destruct HC as (C1 & _). assert (P : 0 < 1 / s) by (apply Rdiv_lt_0_compat; lra).
  pose proof (div_near B64.c1 sd H ltac:(lra)) as N. rewrite one_val in N. specialize (N C1).
  apply off_of in N. rewrite (Rabs_pos_eq (1 / s)) in N by lra. exact N.
Qed.
Lemma one_z : fin z = true -> off (e + 2) (rl z) (dr * (1 / s)) (D * (1 / s)).
Proof.
  intros H. destruct (mult_fins _ _ H) as [_ F2]. destruct HC as (_ & C2 & _).
  replace (e + 2)%nat with ((e + 1) + 1)%nat by lia. eapply off_near; [|apply mult_near; [exact H|exact C2]]. apply off_mul; [exact HO|apply one_i, F2].
Qed.
Lemma one_mu : fin (z *b i) = true -> off (e + 4) (rl (z *b i)) (dr * (1 / s) * (1 / s)) (D * (1 / s) * (1 / s)).
Proof.
  intros H. destruct (mult_fins _ _ H) as [F1 F2]. destruct HC as (_ & _ & C3 & _).
  replace (e + 4)%nat with ((e + 2 + 1) + 1)%nat by lia. eapply off_near; [|apply mult_near; [exact H|exact C3]]. apply off_mul; [apply one_z, F1|apply one_i, F2].
Qed.
Lemma one_sigma : fin ((i *b z) *b z -b i) = true ->
  off (2 * e + 8) (rl ((i *b z) *b z -b i)) (1 / s * (dr * (1 / s)) * (dr * (1 / s)) - 1 / s) (1 / s * (D * (1 / s)) * (D * (1 / s)) + 1 / s).
Proof.
  intros H. destruct (minus_fins _ _ H) as [F1 F2]. destruct (mult_fins _ _ F1) as [F3 F4]. destruct HC as (_ & _ & C3 & C4 & _).
  replace (2 * e + 8)%nat with (Nat.max (2 * e + 7) 1 + 1)%nat by lia. eapply off_near; [|apply minus_near, H]. apply off_sub; [|apply one_i, F2].
  replace (2 * e + 7)%nat with ((e + 4) + (e + 2) + 1)%nat by lia. eapply off_near; [|apply mult_near; [exact F1|exact C4]]. apply off_mul; [|apply one_z, F4].
  replace (e + 4)%nat with (1 + (e + 2) + 1)%nat by lia. eapply off_near; [|apply mult_near; [exact F3|rewrite Rmult_comm; exact C3]]. apply off_mul; [apply one_i, F2|apply one_z, F4].
Qed.
Lemma one_square : fin ((chalf *b z) *b z) = true ->
  off (2 * e + 6) (rl ((chalf *b z) *b z)) (/ 2 * (dr * (1 / s)) * (dr * (1 / s))) (/ 2 * (D * (1 / s)) * (D * (1 / s))).
Proof.
  intros H. destruct (mult_fins _ _ H) as [F3 F4]. destruct HC as (_ & _ & _ & _ & C5 & C6).
  replace (2 * e + 6)%nat with ((e + 3) + (e + 2) + 1)%nat by lia. eapply off_near; [|apply mult_near; [exact H|exact C6]]. apply off_mul; [|apply one_z, F4].
  replace (e + 3)%nat with ((e + 2) + 1)%nat by lia.
  eapply off_near; [|apply mult_near; [exact F3|rewrite half_val; exact C5]]. rewrite half_val.
  pose proof (off_scale _ _ _ _ (/ 2) (one_z F4)) as O. rewrite (Rabs_pos_eq (/ 2)) in O by lra. exact O.
Qed.
End One.

(* ---- the terms of the sums ---- *)
Section Terms.
Context (L : Libm) (k : nat) (m sd y : binary64) (HS : 0 < rl sd).
Local Notation BN := (B64 L).
Local Notation RN := (RNum (fun z => z)).
Local Notation c := (l_log_sqrt_two_pi L).

Lemma const_pos : 0 <= ln (sqrt (2 * PI)).
Proof.
  rewrite <- ln_1. apply Rlt_le, ln_increasing; [lra|]. rewrite <- sqrt_1. apply sqrt_lt_1; pose proof PI2_1; lra.
Qed.
Lemma sz_mu D : size_mu (rl sd) D = D * (1 / rl sd) * (1 / rl sd).
Proof. unfold size_mu. field. lra. Qed.
Lemma sz_sigma D : size_sigma (rl sd) D = 1 / rl sd * (D * (1 / rl sd)) * (D * (1 / rl sd)) + 1 / rl sd.
Proof. unfold size_sigma. field. lra. Qed.
Lemma sz_value D : size_value (rl sd) D = / 2 * (D * (1 / rl sd)) * (D * (1 / rl sd)) + Rabs (ln (rl sd)) + Rabs (ln (sqrt (2 * PI))).
Proof. unfold size_value. rewrite (Rabs_pos_eq (ln (sqrt _))) by apply const_pos. field. lra. Qed.

Section Normal.
Context (HC : score_safe sd (y -b m)).
Lemma n_off : fin (y -b m) = true -> off 1 (rl (y -b m)) (rl y - rl m) (Rabs (rl y - rl m)).
Proof. intros H. apply off_of, minus_near, H. Qed.
Lemma n_mu_off : fin (@n_dmu BN m sd y) = true -> off 5 (rl (@n_dmu BN m sd y)) (@n_dmu RN (rl m) (rl sd) (rl y)) (size_mu (rl sd) (Rabs (rl y - rl m))).
Proof.
  intros H. rewrite sz_mu. cbn in H. pose proof (proj1 (mult_fins _ _ (proj1 (mult_fins _ _ H)))) as F.
  exact (one_mu sd _ 1 _ _ HS (n_off F) HC H).
Qed.
Lemma n_sigma_off : fin (@n_dsigma BN m sd y) = true ->
  off 10 (rl (@n_dsigma BN m sd y)) (@n_dsigma RN (rl m) (rl sd) (rl y)) (size_sigma (rl sd) (Rabs (rl y - rl m))).
Proof.
  intros H. rewrite sz_sigma. cbn in H. pose proof (proj1 (mult_fins _ _ (proj2 (mult_fins _ _ (proj1 (minus_fins _ _ H)))))) as F.
  exact (one_sigma sd _ 1 _ _ HS (n_off F) HC H).
Qed.
Lemma n_value_off : near k (rl (l_log L sd)) (ln (rl sd)) -> near k (rl c) (ln (sqrt (2 * PI))) -> fin (@n_logp BN m sd y) = true ->
  off (10 + k) (rl (@n_logp BN m sd y)) (@n_logp RN (rl m) (rl sd) (rl y)) (size_value (rl sd) (Rabs (rl y - rl m))).
Proof.
  intros H1 H2 H. rewrite sz_value. cbn in H. destruct (minus_fins _ _ H) as [F1 _]. destruct (minus_fins _ _ F1) as [F2 _].
  rewrite opp_fin in F2. pose proof (proj1 (mult_fins _ _ (proj2 (mult_fins _ _ F2)))) as F.
  apply (off_mono (Nat.max (Nat.max 8 k + 1) k + 1)); [lia|].
  eapply off_near; [|apply minus_near, H]. apply off_sub; [|apply off_of, H2].
  eapply off_near; [|apply minus_near, F1]. apply off_sub; [|apply off_of, H1].
  rewrite opp_val. apply off_opp. exact (one_square sd _ 1 _ _ HS (n_off F) HC F2).
Qed.
End Normal.

Section Lognormal.
Local Notation ly := (l_log L y).
Local Notation D := (Rabs (ln (rl y)) + Rabs (rl m)).
Context (HL : near k (rl ly) (ln (rl y))) (HC : score_safe sd (ly -b m)).
Lemma ln_off : fin (ly -b m) = true -> off (k + 1) (rl (ly -b m)) (ln (rl y) - rl m) D.
Proof.
  intros H. eapply off_near; [|apply minus_near, H]. apply (off_mono (Nat.max k 0)); [lia|]. apply off_sub; [apply off_of, HL|].
  apply off_of, near_refl.
Qed.
Lemma ln_mu_off : fin (@ln_dmu BN m sd y) = true -> off (5 + k) (rl (@ln_dmu BN m sd y)) (@ln_dmu RN (rl m) (rl sd) (rl y)) (size_mu (rl sd) D).
Proof.
  intros H. rewrite sz_mu. cbn in H. pose proof (proj1 (mult_fins _ _ (proj1 (mult_fins _ _ H)))) as F.
  replace (5 + k)%nat with (k + 1 + 4)%nat by lia. exact (one_mu sd _ _ _ _ HS (ln_off F) HC H).
Qed.
Lemma ln_sigma_off : fin (@ln_dsigma BN m sd y) = true ->
  off (10 + 2 * k) (rl (@ln_dsigma BN m sd y)) (@ln_dsigma RN (rl m) (rl sd) (rl y)) (size_sigma (rl sd) D).
Proof.
  intros H. rewrite sz_sigma. cbn in H. pose proof (proj1 (mult_fins _ _ (proj2 (mult_fins _ _ (proj1 (minus_fins _ _ H)))))) as F.
  replace (10 + 2 * k)%nat with (2 * (k + 1) + 8)%nat by lia. exact (one_sigma sd _ _ _ _ HS (ln_off F) HC H).
Qed.
Lemma ln_form : @ln_logp BN m sd y =
  b64_opp (chalf *b ((ly -b m) *b (B64.c1 /b sd)) *b ((ly -b m) *b (B64.c1 /b sd))) -b l_log L sd -b ly -b c.
Proof. reflexivity. Qed.
Lemma ln_real : @ln_logp RN (rl m) (rl sd) (rl y) = - (/ 2 * ((ln (rl y) - rl m) * (1 / rl sd)) * ((ln (rl y) - rl m) * (1 / rl sd))) -
  ln (rl sd) - ln (rl y) - ln (sqrt (2 * PI)).
Proof. reflexivity. Qed.
Lemma ln_value_off : near k (rl (l_log L sd)) (ln (rl sd)) -> near k (rl c) (ln (sqrt (2 * PI))) -> fin (@ln_logp BN m sd y) = true ->
  off (11 + 2 * k) (rl (@ln_logp BN m sd y)) (@ln_logp RN (rl m) (rl sd) (rl y)) (size_value (rl sd) D + Rabs (ln (rl y))).
Proof.
  intros H1 H2 H. rewrite sz_value. rewrite ln_form in *. rewrite ln_real. destruct (minus_fins _ _ H) as [F0 _]. destruct (minus_fins _ _ F0) as [F1 _]. destruct (minus_fins _ _ F1) as [F2 _].
  rewrite opp_fin in F2. pose proof (proj1 (mult_fins _ _ (proj2 (mult_fins _ _ F2)))) as F.
  match goal with |- off _ _ _ ?S => replace S with (/ 2 * (D * (1 / rl sd)) * (D * (1 / rl sd)) + Rabs (ln (rl sd)) + Rabs (ln (rl y)) + Rabs (ln (sqrt (2 * PI)))) by ring end.
  apply (off_mono (Nat.max (Nat.max (Nat.max (2 * (k + 1) + 6) k + 1) k + 1) k + 1)); [lia|].
  eapply off_near; [|apply minus_near, H]. apply off_sub; [|apply off_of, H2].
  eapply off_near; [|apply minus_near, F0]. apply off_sub; [|apply off_of, HL].
  eapply off_near; [|apply minus_near, F1]. apply off_sub; [|apply off_of, H1].
  rewrite opp_val. apply off_opp. exact (one_square sd _ _ _ _ HS (ln_off F) HC F2).
Qed.
End Lognormal.
End Terms.

(* ---- gradient of a density ---- *)
Section Call.
Context {N : Num} {RL : RepLaws N} {C : Cfg N}.

Lemma gradient_ext (f1 f2 : list Z -> M Z) xs (s : st) r : gradient f1 xs s = r ->
  (forall xv s2, length xv = length xs -> f1 xv s2 = f2 xv s2) -> gradient f2 xs s = r.
Proof.
  intros <- HF. unfold gradient, mbind. destruct (begin_nested s) as [[[] s1]| | |]; cbn [bind]; try reflexivity.
  destruct (new_var_vals xs s1) as [[xv s2]| | |] eqn:E2; cbn [bind]; try reflexivity. rewrite (HF xv s2); [reflexivity|].
  exact (new_vals_len _ _ _ _ E2).
Qed.
Lemma part_call2 (f : Z -> Z -> M Z) (v : list F -> F) (p : list F -> list F) a b s :
  exec_op [a; b] (OPart v p [0; 1]%nat) s = one (f a b) s -> call_fn1 (FCall (OPart v p [0; 1]%nat) (FRet [2%nat])) [a; b] s = f a b s.
Proof.
  intros E. unfold call_fn1. cbn [call_fn]. unfold mbind at 1 2. rewrite E. unfold one, mbind, mret.
  destruct (f a b s) as [[h s']| | |]; reflexivity.
Qed.
Lemma part_call1 (f : Z -> M Z) (v : list F -> F) (p : list F -> list F) a s :
  exec_op [a] (OPart v p [0%nat]) s = one (f a) s -> call_fn1 (FCall (OPart v p [0%nat]) (FRet [1%nat])) [a] s = f a s.
Proof.
  intros E. unfold call_fn1. cbn [call_fn]. unfold mbind at 1 2. rewrite E. unfold one, mbind, mret.
  destruct (f a s) as [[h s']| | |]; reflexivity.
Qed.
Context (env0 : list Z) (s : st) (HP : practical) (HR : reachable env0 s) (HL : (s_lvl s < 10)%Z).
Theorem grad_vv (lp dm ds : F -> F -> F -> F) ys m sd : roomy s 24 -> ~ exactly_full s 24 ->
  exists s', gradient (of2 (lpdf_vv lp dm ds ys)) [m; sd] s =
    Ok ([fsum (map (lp m sd) ys); fadd f0 (fmul f1 (fsum (map (dm m sd) ys))); fadd f0 (fmul f1 (fsum (map (ds m sd) ys)))], s').
Proof.
  intros H1 H2.
  pose (o := OPart (fun l => fsum (map (lp (nth 0 l f0) (nth 1 l f0)) ys))
    (fun l => [fsum (map (dm (nth 0 l f0) (nth 1 l f0)) ys); fsum (map (ds (nth 0 l f0) (nth 1 l f0)) ys)]) [0; 1]%nat).
  destruct (gradient_reverse s [] [] [m; sd] (FCall o (FRet [2%nat])) 2%nat [] 
    [given m; given sd; mkLine (fsum (map (lp m sd) ys)) (fun a => combine [0; 1]%nat (map (fmul a) [fsum (map (dm m sd) ys); fsum (map (ds m sd) ys)]))]
    HP (reach_snd env0 s HP HR) HL (Forall_nil _) eq_refl) as [s' E].
  - cbn. split; [repeat constructor|]. split; [intros l _; reflexivity|]. split; [reflexivity|]. repeat constructor.
  - exact H1.
  - exact H2.
  - reflexivity.
  - exists s'. eapply gradient_ext; [exact E|]. intros [|a [|b [|c xv]]] s2 HX; try discriminate HX. cbn [app of2].
    apply part_call2. exact (lpdf_vv_op lp dm ds ys [a; b] 0 1 s2 a b eq_refl eq_refl).
Qed.
Theorem grad_vd (lp dm : F -> F -> F -> F) ys m sd : roomy s 15 -> ~ exactly_full s 15 ->
  exists s', gradient (of1 (fun mu => lpdf_vd lp dm ys mu sd)) [m] s =
    Ok ([fsum (map (lp m sd) ys); fadd f0 (fmul f1 (fsum (map (dm m sd) ys)))], s').
Proof.
  intros H1 H2.
  pose (o := OPart (fun l => fsum (map (lp (nth 0 l f0) sd) ys)) (fun l => [fsum (map (dm (nth 0 l f0) sd) ys)]) [0%nat]).
  destruct (gradient_reverse s [] [] [m] (FCall o (FRet [1%nat])) 1%nat []
    [given m; mkLine (fsum (map (lp m sd) ys)) (fun a => combine [0%nat] (map (fmul a) [fsum (map (dm m sd) ys)]))]
    HP (reach_snd env0 s HP HR) HL (Forall_nil _) eq_refl) as [s' E].
  - cbn. split; [repeat constructor|]. split; [intros l _; reflexivity|]. split; [reflexivity|]. repeat constructor.
  - exact H1.
  - exact H2.
  - reflexivity.
  - exists s'. eapply gradient_ext; [exact E|]. intros [|a [|b xv]] s2 HX; try discriminate HX. cbn [app of1].
    apply (part_call1 (fun mu => lpdf_vd lp dm ys mu sd)). exact (lpdf_vd_op lp dm ys sd [a] 0 s2 a eq_refl).
Qed.
Theorem grad_dv (lp ds : F -> F -> F -> F) ys m sd : roomy s 15 -> ~ exactly_full s 15 ->
  exists s', gradient (of1 (lpdf_dv lp ds ys m)) [sd] s =
    Ok ([fsum (map (lp m sd) ys); fadd f0 (fmul f1 (fsum (map (ds m sd) ys)))], s').
Proof.
  intros H1 H2.
  pose (o := OPart (fun l => fsum (map (lp m (nth 0 l f0)) ys)) (fun l => [fsum (map (ds m (nth 0 l f0)) ys)]) [0%nat]).
  destruct (gradient_reverse s [] [] [sd] (FCall o (FRet [1%nat])) 1%nat []
    [given sd; mkLine (fsum (map (lp m sd) ys)) (fun a => combine [0%nat] (map (fmul a) [fsum (map (ds m sd) ys)]))]
    HP (reach_snd env0 s HP HR) HL (Forall_nil _) eq_refl) as [s' E].
  - cbn. split; [repeat constructor|]. split; [intros l _; reflexivity|]. split; [reflexivity|]. repeat constructor.
  - exact H1.
  - exact H2.
  - reflexivity.
  - exists s'. eapply gradient_ext; [exact E|]. intros [|a [|b xv]] s2 HX; try discriminate HX. cbn [app of1].
    apply (part_call1 (lpdf_dv lp ds ys m)). exact (lpdf_dv_op lp ds ys m [a] 0 s2 a eq_refl).
Qed.
End Call.

(* ---- C60 ---- *)
Lemma unit_part p : fin p = true -> rl (b64_plus rne c0 (B64.c1 *b p)) = rl p.
Proof.
  intros H. assert (G : generic_format radix2 (SpecFloat.fexp 53 1024) (rl p)) by apply Binary.generic_format_B2R.
  assert (B : Rabs (rl p) < bpow radix2 1024) by apply Binary.abs_B2R_lt_emax.
  assert (M : rl (B64.c1 *b p) = rl p /\ fin (B64.c1 *b p) = true).
  { pose proof (Binary.Bmult_correct 53 1024 (eq_refl _) (eq_refl _) binop_nan_pl64 rne B64.c1 p) as M.
    rewrite one_val, Rmult_1_l, round_generic in M by (auto with typeclass_instances). rewrite Rlt_bool_true in M by exact B.
    destruct M as (M1 & M2 & _). rewrite H in M2. split; [exact M1|exact M2]. }
  destruct M as [M1 M2].
  pose proof (Binary.Bplus_correct 53 1024 (eq_refl _) (eq_refl _) binop_nan_pl64 rne c0 (B64.c1 *b p) eq_refl M2) as P.
  rewrite M1 in P. change (rl c0) with 0 in P. rewrite Rplus_0_l, round_generic in P by (auto with typeclass_instances).
  rewrite Rlt_bool_true in P by exact B. exact (proj1 P).
Qed.

Section Densities.
Context (L : Libm) (C : Cfg (B64 L)) (env0 : list Z) (s : @st (B64 L)).
Local Notation BN := (B64 L).
Context (HP : @practical BN C) (HR : @reachable BN C env0 s) (HL : (s_lvl s < 10)%Z).
Context (n len : nat) (HSUM : forall xs, length xs = len -> fin (l_sum L xs) = true -> sum_near n xs (l_sum L xs)).
Section Any.
Context (density lpR dmR dsR : R -> R -> R -> R) (lp dm ds : binary64 -> binary64 -> binary64 -> binary64) (ys : list binary64) (m sd : binary64).
Context (HS : scores density lpR dmR dsR (map rl ys)) (HD : 0 < rl sd) (HN : length ys = len) (e1 e2 e3 : nat) (S1 S2 S3 : binary64 -> R).
Local Notation LL := (log_likelihood density (map rl ys)).
Definition terms (f : binary64 -> binary64 -> binary64 -> binary64) (fR : R -> R -> R -> R) (e : nat) (S : binary64 -> R) : Prop :=
  forall y, In y ys -> fin (f m sd y) = true -> off e (rl (f m sd y)) (fR (rl m) (rl sd) (rl y)) (S y).
Lemma terms_off f fR e S : terms f fR e S -> off_by (n + e) (l_sum L (map (f m sd) ys)) (rsum (map (fR (rl m) (rl sd)) (map rl ys))) (sumR (map S ys)).
Proof.
  intros H HF. rewrite map_map. apply (sum_off n e (f m sd) (fun y => fR (rl m) (rl sd) (rl y)) S ys _); [|exact H|exact HF].
  apply HSUM; [rewrite map_length; exact HN|exact HF].
Qed.
Lemma terms_part f fR e S : terms f fR e S ->
  off_by (n + e) (b64_plus rne c0 (B64.c1 *b l_sum L (map (f m sd) ys))) (rsum (map (fR (rl m) (rl sd)) (map rl ys))) (sumR (map S ys)).
Proof.
  intros H HF. pose proof (proj2 (mult_fins _ _ (proj2 (plus_fins _ _ HF)))) as F. rewrite unit_part by exact F. apply terms_off; [exact H|exact F].
Qed.
Lemma terms_value : terms lp lpR e1 S1 -> off_by (n + e1) (l_sum L (map (lp m sd) ys)) (LL (rl m) (rl sd)) (sumR (map S1 ys)).
Proof. intros H. rewrite <- (scores_val _ _ _ _ _ HS (rl m) (rl sd) HD). apply terms_off, H. Qed.

Lemma any_vv : terms lp lpR e1 S1 -> terms dm dmR e2 S2 -> terms ds dsR e3 S3 -> @roomy BN s 24 -> ~ @exactly_full BN C s 24 ->
  exists v p q s', @gradient BN C (of2 (@lpdf_vv BN C lp dm ds ys)) [m; sd] s = Ok ([v; p; q], s') /\
    off_by (n + e1) v (LL (rl m) (rl sd)) (sumR (map S1 ys)) /\
    exists d e, is_derive (fun t => LL t (rl sd)) (rl m) d /\ is_derive (fun t => LL (rl m) t) (rl sd) e /\
      off_by (n + e2) p d (sumR (map S2 ys)) /\ off_by (n + e3) q e (sumR (map S3 ys)).
Proof.
  intros T1 T2 T3 H1 H2. destruct (@grad_vv BN _ C env0 s HP HR HL lp dm ds ys m sd H1 H2) as [s' E].
  do 4 eexists. split; [exact E|]. split; [exact (terms_value T1)|].
  do 2 eexists. split; [apply (d_mu _ _ _ _ _ HS), HD|]. split; [apply (d_sg _ _ _ _ _ HS), HD|].
  split; [exact (terms_part dm dmR e2 S2 T2)|exact (terms_part ds dsR e3 S3 T3)].
Qed.
Lemma any_vd : terms lp lpR e1 S1 -> terms dm dmR e2 S2 -> @roomy BN s 15 -> ~ @exactly_full BN C s 15 ->
  exists v p s', @gradient BN C (of1 (fun mu => @lpdf_vd BN C lp dm ys mu sd)) [m] s = Ok ([v; p], s') /\
    off_by (n + e1) v (LL (rl m) (rl sd)) (sumR (map S1 ys)) /\
    exists d, is_derive (fun t => LL t (rl sd)) (rl m) d /\ off_by (n + e2) p d (sumR (map S2 ys)).
Proof.
  intros T1 T2 H1 H2. destruct (@grad_vd BN _ C env0 s HP HR HL lp dm ys m sd H1 H2) as [s' E].
  do 3 eexists. split; [exact E|]. split; [exact (terms_value T1)|].
  eexists. split; [apply (d_mu _ _ _ _ _ HS), HD|]. exact (terms_part dm dmR e2 S2 T2).
Qed.
Lemma any_dv : terms lp lpR e1 S1 -> terms ds dsR e3 S3 -> @roomy BN s 15 -> ~ @exactly_full BN C s 15 ->
  exists v q s', @gradient BN C (of1 (@lpdf_dv BN C lp ds ys m)) [sd] s = Ok ([v; q], s') /\
    off_by (n + e1) v (LL (rl m) (rl sd)) (sumR (map S1 ys)) /\
    exists e, is_derive (fun t => LL (rl m) t) (rl sd) e /\ off_by (n + e3) q e (sumR (map S3 ys)).
Proof.
  intros T1 T3 H1 H2. destruct (@grad_dv BN _ C env0 s HP HR HL lp ds ys m sd H1 H2) as [s' E].
  do 3 eexists. split; [exact E|]. split; [exact (terms_value T1)|].
  eexists. split; [apply (d_sg _ _ _ _ _ HS), HD|]. exact (terms_part ds dsR e3 S3 T3).
Qed.
End Any.

Context (ys : list binary64) (m sd : binary64) (k : nat) (HN : length ys = len).
Local Notation dist y := (Rabs (rl y - rl m)).
Local Notation far y := (Rabs (ln (rl y)) + Rabs (rl m)).
Local Notation NL := (log_likelihood normal_density (map rl ys)).
Local Notation LN := (log_likelihood lognormal_density (map rl ys)).

Section NormalCalls.
Context (HD : 0 < rl sd) (HC : Forall (fun y => score_safe sd (y -b m)) ys).
Context (HK : near k (rl (l_log L sd)) (ln (rl sd))) (HB : near k (rl (l_log_sqrt_two_pi L)) (ln (sqrt (2 * PI)))).
Local Notation RN := (RNum (fun z => z)).
Lemma nt_value : terms ys m sd (@n_logp BN) (@n_logp RN) (10 + k) (fun y => size_value (rl sd) (dist y)).
Proof. intros y Hy F. rewrite Forall_forall in HC. exact (n_value_off L k m sd y HD (HC y Hy) HK HB F). Qed.
Lemma nt_mu : terms ys m sd (@n_dmu BN) (@n_dmu RN) 5 (fun y => size_mu (rl sd) (dist y)).
Proof. intros y Hy F. rewrite Forall_forall in HC. exact (n_mu_off L m sd y HD (HC y Hy) F). Qed.
Lemma nt_sigma : terms ys m sd (@n_dsigma BN) (@n_dsigma RN) 10 (fun y => size_sigma (rl sd) (dist y)).
Proof. intros y Hy F. rewrite Forall_forall in HC. exact (n_sigma_off L m sd y HD (HC y Hy) F). Qed.

Theorem normal_vv : @roomy BN s 24 -> ~ @exactly_full BN C s 24 ->
  exists v p q s', @gradient BN C (of2 (@normal_lpdf_vv BN C ys)) [m; sd] s = Ok ([v; p; q], s') /\
    off_by (n + (10 + k)) v (NL (rl m) (rl sd)) (sumR (map (fun y => size_value (rl sd) (dist y)) ys)) /\
    exists d e, is_derive (fun t => NL t (rl sd)) (rl m) d /\ is_derive (fun t => NL (rl m) t) (rl sd) e /\
      off_by (n + 5) p d (sumR (map (fun y => size_mu (rl sd) (dist y)) ys)) /\
      off_by (n + 10) q e (sumR (map (fun y => size_sigma (rl sd) (dist y)) ys)).
Proof. exact (any_vv _ _ _ _ _ _ _ _ _ _ (normal_scores (lg := fun z => z) _) HD HN _ _ _ _ _ _ nt_value nt_mu nt_sigma). Qed.
Theorem normal_vd : @roomy BN s 15 -> ~ @exactly_full BN C s 15 ->
  exists v p s', @gradient BN C (of1 (fun mu => @normal_lpdf_vd BN C ys mu sd)) [m] s = Ok ([v; p], s') /\
    off_by (n + (10 + k)) v (NL (rl m) (rl sd)) (sumR (map (fun y => size_value (rl sd) (dist y)) ys)) /\
    exists d, is_derive (fun t => NL t (rl sd)) (rl m) d /\ off_by (n + 5) p d (sumR (map (fun y => size_mu (rl sd) (dist y)) ys)).
Proof. exact (any_vd _ _ _ _ _ _ _ _ _ (normal_scores (lg := fun z => z) _) HD HN _ _ _ _ nt_value nt_mu). Qed.
Theorem normal_dv : @roomy BN s 15 -> ~ @exactly_full BN C s 15 ->
  exists v q s', @gradient BN C (of1 (@normal_lpdf_dv BN C ys m)) [sd] s = Ok ([v; q], s') /\
    off_by (n + (10 + k)) v (NL (rl m) (rl sd)) (sumR (map (fun y => size_value (rl sd) (dist y)) ys)) /\
    exists e, is_derive (fun t => NL (rl m) t) (rl sd) e /\ off_by (n + 10) q e (sumR (map (fun y => size_sigma (rl sd) (dist y)) ys)).
Proof. exact (any_dv _ _ _ _ _ _ _ _ _ (normal_scores (lg := fun z => z) _) HD HN _ _ _ _ nt_value nt_sigma). Qed.
Theorem normal_dd : off_by (n + (10 + k)) (@normal_lpdf_dd BN ys m sd) (NL (rl m) (rl sd)) (sumR (map (fun y => size_value (rl sd) (dist y)) ys)).
Proof. eapply terms_value; [exact (normal_scores (lg := fun z => z) _)|exact HD|exact HN|exact nt_value]. Qed.
End NormalCalls.

Section LognormalCalls.
Context (HD : 0 < rl sd) (HY : Forall (fun y => 0 < rl y /\ near k (rl (l_log L y)) (ln (rl y)) /\ score_safe sd (l_log L y -b m)) ys).
Context (HK : near k (rl (l_log L sd)) (ln (rl sd))) (HB : near k (rl (l_log_sqrt_two_pi L)) (ln (sqrt (2 * PI)))).
Local Notation RN := (RNum (fun z => z)).
Lemma lt_value : terms ys m sd (@ln_logp BN) (@ln_logp RN) (11 + 2 * k) (fun y => size_value (rl sd) (far y) + Rabs (ln (rl y))).
Proof. intros y Hy F. rewrite Forall_forall in HY. destruct (HY y Hy) as (_ & H1 & H2). exact (ln_value_off L k m sd y HD H1 H2 HK HB F). Qed.
Lemma lt_mu : terms ys m sd (@ln_dmu BN) (@ln_dmu RN) (5 + k) (fun y => size_mu (rl sd) (far y)).
Proof. intros y Hy F. rewrite Forall_forall in HY. destruct (HY y Hy) as (_ & H1 & H2). exact (ln_mu_off L k m sd y HD H1 H2 F). Qed.
Lemma lt_sigma : terms ys m sd (@ln_dsigma BN) (@ln_dsigma RN) (10 + 2 * k) (fun y => size_sigma (rl sd) (far y)).
Proof. intros y Hy F. rewrite Forall_forall in HY. destruct (HY y Hy) as (_ & H1 & H2). exact (ln_sigma_off L k m sd y HD H1 H2 F). Qed.
Lemma pos_obs : Forall (fun y => 0 < y) (map rl ys).
Proof. apply Forall_map. eapply Forall_impl; [|exact HY]. intros y H. apply H. Qed.

Theorem lognormal_vv : @roomy BN s 24 -> ~ @exactly_full BN C s 24 ->
  exists v p q s', @gradient BN C (of2 (@lognormal_lpdf_vv BN C ys)) [m; sd] s = Ok ([v; p; q], s') /\
    off_by (n + (11 + 2 * k)) v (LN (rl m) (rl sd)) (sumR (map (fun y => size_value (rl sd) (far y) + Rabs (ln (rl y))) ys)) /\
    exists d e, is_derive (fun t => LN t (rl sd)) (rl m) d /\ is_derive (fun t => LN (rl m) t) (rl sd) e /\
      off_by (n + (5 + k)) p d (sumR (map (fun y => size_mu (rl sd) (far y)) ys)) /\
      off_by (n + (10 + 2 * k)) q e (sumR (map (fun y => size_sigma (rl sd) (far y)) ys)).
Proof. exact (any_vv _ _ _ _ _ _ _ _ _ _ (lognormal_scores (lg := fun z => z) _ pos_obs) HD HN _ _ _ _ _ _ lt_value lt_mu lt_sigma). Qed.
Theorem lognormal_vd : @roomy BN s 15 -> ~ @exactly_full BN C s 15 ->
  exists v p s', @gradient BN C (of1 (fun mu => @lognormal_lpdf_vd BN C ys mu sd)) [m] s = Ok ([v; p], s') /\
    off_by (n + (11 + 2 * k)) v (LN (rl m) (rl sd)) (sumR (map (fun y => size_value (rl sd) (far y) + Rabs (ln (rl y))) ys)) /\
    exists d, is_derive (fun t => LN t (rl sd)) (rl m) d /\ off_by (n + (5 + k)) p d (sumR (map (fun y => size_mu (rl sd) (far y)) ys)).
Proof. exact (any_vd _ _ _ _ _ _ _ _ _ (lognormal_scores (lg := fun z => z) _ pos_obs) HD HN _ _ _ _ lt_value lt_mu). Qed.
Theorem lognormal_dv : @roomy BN s 15 -> ~ @exactly_full BN C s 15 ->
  exists v q s', @gradient BN C (of1 (@lognormal_lpdf_dv BN C ys m)) [sd] s = Ok ([v; q], s') /\
    off_by (n + (11 + 2 * k)) v (LN (rl m) (rl sd)) (sumR (map (fun y => size_value (rl sd) (far y) + Rabs (ln (rl y))) ys)) /\
    exists e, is_derive (fun t => LN (rl m) t) (rl sd) e /\ off_by (n + (10 + 2 * k)) q e (sumR (map (fun y => size_sigma (rl sd) (far y)) ys)).
Proof. exact (any_dv _ _ _ _ _ _ _ _ _ (lognormal_scores (lg := fun z => z) _ pos_obs) HD HN _ _ _ _ lt_value lt_sigma). Qed.
Theorem lognormal_dd : off_by (n + (11 + 2 * k)) (@lognormal_lpdf_dd BN ys m sd) (LN (rl m) (rl sd))
  (sumR (map (fun y => size_value (rl sd) (far y) + Rabs (ln (rl y))) ys)).
Proof. eapply terms_value; [exact (lognormal_scores (lg := fun z => z) _ pos_obs)|exact HD|exact HN|exact lt_value]. Qed.
End LognormalCalls.
End Densities.
