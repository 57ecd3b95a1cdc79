(* Lemmas behind C32: error returns and reflection formula of digamma, in exact
   real arithmetic with the decimal constants of the source. *)
From Coq Require Import ZifyBool ZifyNat Lra Psatz Ratan Machin.
From Verif Require Import TapeFacts.
From Verif Require Export Claims_exact.
Local Open Scope R_scope.

(* ---- constants of src/digamma.F90 as reals ---- *)
Definition XINF : R := 17 * 10 ^ 37.          (* 1.70D+38 *)
Definition XMIN1 : R := 589 / 10 ^ 41.        (* 5.89D-39 *)
Definition XMAX1 : R := 36 * 10 ^ 15.         (* 3.60D+16 *)
Definition XSMALL : R := 205 / 10 ^ 11.       (* 2.05D-09 *)
Definition PIOV4 : R := 78539816339744830962 / 10 ^ 20.   (* 7.8539816339744830962D-01 *)

(* -pi cot(pi x), the difference psi(x) - psi(1-x) *)
Definition reflection (x : R) : R := - (PI * cos (PI * x) / sin (PI * x)).

Lemma piov4_close : Rabs (PIOV4 - PI / 4) <= 5 / 10 ^ 21.
Proof.
  unfold PIOV4. pose proof (PI_2_3_7_ineq 10) as [A B]. apply Rabs_le.
  unfold tg_alt, PI_2_3_7_tg, Ratan_seq, sum_f_R0 in A, B. cbn [Nat.mul Nat.add] in A, B.
  cbn -[IZR Rmult Rplus Rminus Rdiv pow INR] in A, B.
  repeat match goal with H : context [INR ?n] |- _ =>
    let v := eval vm_compute in (Z.of_nat n) in replace (INR n) with (IZR v) in H by (rewrite INR_IZR_INZ; reflexivity) end.
  split; lra.
Qed.
Lemma pi_range : 314 / 100 < PI < 315 / 100.
Proof. pose proof piov4_close as H. apply Rabs_le_between in H. unfold PIOV4 in H. lra. Qed.

(* ---- elementary bounds ---- *)
Lemma sin_low v : 0 <= v <= 1 -> v - v * v * v / 6 <= sin v.
Proof.
  intros H. pose proof pi_range as HP. destruct (sin_bound v 0) as [A _]; [lra|lra|].
  unfold sin_approx in A. cbn in A. eapply Rle_trans; [|exact A]. unfold sin_term. cbn. right. field.
Qed.
Lemma cos_low v : 0 <= v <= 1 -> 1 - v * v / 2 <= cos v.
Proof.
  intros H. pose proof pi_range as HP. destruct (cos_bound v 0) as [A _]; [lra|lra|].
  unfold cos_approx in A. cbn in A. eapply Rle_trans; [|exact A]. unfold cos_term. cbn. right. field.
Qed.
Lemma cos_up v : 0 <= v <= 1 -> cos v <= 1 - v * v / 2 + v * v * v * v / 24.
Proof.
  intros H. pose proof pi_range as HP. destruct (cos_bound v 0) as [_ A]; [lra|lra|].
  unfold cos_approx in A. cbn in A. eapply Rle_trans; [exact A|]. unfold cos_term. cbn. right. field.
Qed.
Lemma sin_up v : 0 <= v -> sin v <= v.
Proof. intros [H| <-]; [left; apply sin_lt_x; auto|rewrite sin_0; lra]. Qed.

Lemma mvt_bound (f f' : R -> R) a b K : (forall c, Rmin a b <= c <= Rmax a b -> is_derive f c (f' c) /\ Rabs (f' c) <= K) ->
  Rabs (f b - f a) <= K * Rabs (b - a).
Proof.
  intros H. destruct (MVT_abs f f' a b) as (c & E & Hc).
  - intros c Hc. apply is_derive_Reals. apply H. exact Hc.
  - rewrite E. apply Rmult_le_compat_r; [apply Rabs_pos|]. apply H. exact Hc.
Qed.

Definition small_angle (p : R) : Prop := 78 / 100 <= p <= 79 / 100.
Lemma piov4_angle : small_angle PIOV4.
Proof. unfold small_angle, PIOV4. lra. Qed.
Lemma pi4_angle : small_angle (PI / 4).
Proof. pose proof piov4_close as H. apply Rabs_le_between in H. unfold small_angle. unfold PIOV4 in H. lra. Qed.
Lemma angle_between a b c : small_angle a -> small_angle b -> Rmin a b <= c <= Rmax a b -> small_angle c.
Proof.
  unfold small_angle. intros H1 H2 [A B]. unfold Rmin, Rmax in *. destruct (Rle_dec a b); lra.
Qed.

(* 4 p cot(p u) and 4 p tan(p u) hardly depend on p *)
Lemma cot_stable p q u : small_angle p -> small_angle q -> 0 < u <= 1 ->
  Rabs (4 * p * (cos (p * u) / sin (p * u)) - 4 * q * (cos (q * u) / sin (q * u))) <= 3 * Rabs (p - q).
Proof.
  intros Hp Hq Hu.
  apply (mvt_bound (fun c => 4 * c * (cos (c * u) / sin (c * u)))
    (fun c => 4 * ((cos (c * u) * sin (c * u) - c * u) / (sin (c * u) * sin (c * u)))) q p 3).
  intros c Hc. pose proof (angle_between q p c Hq Hp Hc) as HA. unfold small_angle in HA.
  set (v := c * u). assert (Hv : 0 < v <= 79 / 100) by (unfold v; nra).
  pose proof (sin_low v ltac:(lra)) as S1. pose proof (sin_up v ltac:(lra)) as S2.
  assert (S3 : 89 / 100 * v <= sin v) by nra.
  assert (SP : 0 < sin v) by nra. split.
  - auto_derive; [fold v; lra|]. fold v. field_simplify; [|lra|lra].
    replace (cos v ^ 2) with (1 - sin v ^ 2). 2:{ pose proof (sin2_cos2 v) as E. unfold Rsqr in E. nra. }
    unfold v. field. fold v. lra.
  - pose proof (sin_low (2 * v)) as D1. assert (D2 : 2 * v - (2 * v) * (2 * v) * (2 * v) / 6 <= sin (2 * v)).
    { pose proof pi_range as HP. destruct (sin_bound (2 * v) 0) as [A _]; [lra|lra|].
      unfold sin_approx in A. cbn in A. eapply Rle_trans; [|exact A]. unfold sin_term. cbn. right. field. }
    pose proof (sin_up (2 * v) ltac:(lra)) as D3. rewrite sin_2a in D2, D3.
    set (w := cos v * sin v - v). assert (W : - (2 / 3 * (v * v * v)) <= w <= 0) by (unfold w; nra).
    assert (Q : 0 < sin v * sin v) by nra. assert (Q2 : 79 / 100 * (v * v) <= sin v * sin v) by nra.
    rewrite Rabs_mult, (Rabs_pos_eq 4) by lra. unfold Rdiv. rewrite Rabs_mult, (Rabs_pos_eq (/ _)) by (left; apply Rinv_0_lt_compat; auto).
    rewrite Rabs_left1 by lra.
    apply Rmult_le_reg_r with (sin v * sin v); auto. rewrite !Rmult_assoc. rewrite Rinv_l by lra. nra.
Qed.

Lemma tan_stable p q u : small_angle p -> small_angle q -> 0 <= u <= 1 ->
  Rabs (4 * p * tan (p * u) - 4 * q * tan (q * u)) <= 13 * Rabs (p - q).
Proof.
  intros Hp Hq Hu.
  apply (mvt_bound (fun c => 4 * c * tan (c * u))
    (fun c => 4 * (sin (c * u) / cos (c * u) + c * u * (1 / (cos (c * u) * cos (c * u))))) q p 13).
  intros c Hc. pose proof (angle_between q p c Hq Hp Hc) as HA. unfold small_angle in HA.
  set (v := c * u). assert (Hv : 0 <= v <= 79 / 100) by (unfold v; nra).
  pose proof (cos_low v ltac:(lra)) as C1. pose proof (sin_up v ltac:(lra)) as S2.
  assert (S0 : 0 <= sin v). { apply sin_ge_0; [lra|]. pose proof pi_range. lra. }
  assert (C2 : 68 / 100 <= cos v) by nra. pose proof (COS_bound v) as [_ C3]. split.
  - unfold tan. auto_derive; [fold v; lra|]. fold v. field_simplify; [|lra|lra].
    replace (sin v ^ 2) with (1 - cos v ^ 2). 2:{ pose proof (sin2_cos2 v) as E. unfold Rsqr in E. nra. }
    unfold v. field. fold v. lra.
  - assert (I1 : sin v / cos v <= 117 / 100).
    { apply Rmult_le_reg_r with (cos v); [lra|]. unfold Rdiv. rewrite Rmult_assoc, Rinv_l by lra. nra. }
    assert (I2 : 1 / (cos v * cos v) <= 217 / 100).
    { assert (0 < cos v * cos v) by nra. apply Rmult_le_reg_r with (cos v * cos v); [auto|]. unfold Rdiv. rewrite Rmult_assoc, Rinv_l by lra. nra. }
    assert (I0 : 0 <= sin v / cos v) by (apply Rmult_le_pos; [auto|left; apply Rinv_0_lt_compat; lra]).
    assert (I3 : 0 <= 1 / (cos v * cos v)) by (apply Rmult_le_pos; [lra|left; apply Rinv_0_lt_compat; nra]).
    rewrite Rabs_pos_eq; nra.
Qed.

(* ---- the branches ---- *)
Section Branches.
Context {lg : R -> R}.
Notation N := (RNum lg).

Lemma dec_pos m n : @fdec N m (Z.of_nat n) = IZR m * 10 ^ n.
Proof. cbn [fdec RNum]. rewrite <- pow_powerRZ. reflexivity. Qed.
Lemma dec_neg m n : @fdec N m (- Z.of_nat n) = IZR m / 10 ^ n.
Proof. cbn [fdec RNum]. rewrite powerRZ_neg by lra. rewrite <- pow_powerRZ, <- Rinv_pow by lra. reflexivity. Qed.

Lemma c_piov4 : @piov4 N = PIOV4. Proof. exact (dec_neg 78539816339744830962 20). Qed.
Lemma c_xinf : @psi_xinf N = XINF. Proof. unfold XINF. etransitivity; [exact (dec_pos 170 36)|]. lra. Qed.
Lemma c_xmin1 : @psi_xmin1 N = XMIN1. Proof. exact (dec_neg 589 41). Qed.
Lemma c_xmax1 : @psi_xmax1 N = XMAX1. Proof. unfold XMAX1. etransitivity; [exact (dec_pos 360 14)|]. lra. Qed.
Lemma c_xsmall : @psi_xsmall N = XSMALL. Proof. exact (dec_neg 205 11). Qed.
Lemma c_f4 : @f4 N = 4. Proof. etransitivity; [exact (dec_pos 4 0)|]. lra. Qed.
Lemma c_f3 : @f3 N = 3. Proof. etransitivity; [exact (dec_pos 3 0)|]. lra. Qed.
Lemma c_quart : @fquart N = / 4. Proof. etransitivity; [exact (dec_neg 25 2)|]. lra. Qed.
Lemma const_order : 0 < XMIN1 < XSMALL /\ XSMALL < / 4 /\ 1 < XMAX1 /\ 0 < XINF.
Proof. unfold XMIN1, XSMALL, XMAX1, XINF. lra. Qed.

Lemma int_part_at r z : r - 1 < IZR z <= r -> z = Int_part r.
Proof.
  intros [A B]. destruct (base_Int_part r) as [D1 D2]. set (n := Int_part r) in *.
  assert (H1 : (z < n + 1)%Z) by (apply lt_IZR; rewrite plus_IZR; lra). assert (H2 : (n < z + 1)%Z) by (apply lt_IZR; rewrite plus_IZR; lra). lia.
Qed.

(* the fractional part of |x| *)
Definition fr (x : R) : R := Rabs x - IZR (Int_part (Rabs x)).
Lemma fr_range x : 0 <= fr x < 1.
Proof. unfold fr. destruct (base_Int_part (Rabs x)). lra. Qed.
Lemma trunc_pos x : 0 <= x -> rtrunc x = Int_part x.
Proof. intros H. unfold rtrunc. destruct (Rle_dec 0 x); [reflexivity|lra]. Qed.
Lemma trunc_at x z : 0 <= x -> IZR z <= x < IZR z + 1 -> rtrunc x = z.
Proof. intros H H1. rewrite trunc_pos by auto. symmetry. apply int_part_at. lra. Qed.

Definition sgn0 (p x : R) : R := if Rlt_dec x 0 then p else - p.

Lemma aug_gen (S p f : R) : p <> 0 -> 0 <= f < 1 ->
  (let nq := rtrunc (f * 4) in
   let w2 := 4 * (f - IZR nq * / 4) in
   let n := Z.quot nq 2 in
   let w3 := if (n + n =? nq)%Z then w2 else 1 - w2 in
   let z := p * w3 in
   let sgn := if (Z.rem n 2 =? 0)%Z then S else - S in
   if (Z.rem (Z.quot (nq + 1) 2) 2 =? 0)%Z then if req z 0 then None else Some (sgn * (4 / tan z))
   else Some (sgn * (4 * tan z))) =
    (if Req_EM_T f 0 then None
     else if Rlt_dec f (/ 4) then Some (S * (4 / tan (p * (4 * f))))
     else if Rlt_dec f (/ 2) then Some (S * (4 * tan (p * (2 - 4 * f))))
     else if Rlt_dec f (3 / 4) then Some (- S * (4 * tan (p * (4 * f - 2))))
     else Some (- S * (4 / tan (p * (4 - 4 * f))))).
Proof.
  intros Hp HF.
  assert (RZ : forall a, a <> 0 -> req (p * a) 0 = false) by (intros a Ha; apply req_false; intros E; apply Rmult_integral in E; tauto).
  destruct (Rlt_dec f (/ 4)) as [A|A].
  { rewrite (trunc_at (f * 4) 0) by lra. cbv zeta. change (Z.quot 0 2) with 0%Z. change (0 + 0 =? 0)%Z with true.
    change (Z.rem 0 2 =? 0)%Z with true. change (Z.rem (Z.quot (0 + 1) 2) 2 =? 0)%Z with true. cbv beta iota.
    replace (4 * (f - 0 * / 4)) with (4 * f) by lra.
    destruct (Req_EM_T f 0) as [E|E].
    - rewrite E. replace (p * (4 * 0)) with 0 by ring. rewrite (proj2 (req_true 0 0) eq_refl). reflexivity.
    - rewrite RZ by lra. reflexivity. }
  destruct (Req_EM_T f 0) as [E|E]; [lra|].
  destruct (Rlt_dec f (/ 2)) as [B|B].
  { rewrite (trunc_at (f * 4) 1) by lra. cbv zeta. change (Z.quot 1 2) with 0%Z. change (0 + 0 =? 1)%Z with false.
    change (Z.rem 0 2 =? 0)%Z with true. change (Z.rem (Z.quot (1 + 1) 2) 2 =? 0)%Z with false. cbv beta iota.
    replace (1 - 4 * (f - 1 * / 4)) with (2 - 4 * f) by field. reflexivity. }
  destruct (Rlt_dec f (3 / 4)) as [D|D].
  { rewrite (trunc_at (f * 4) 2) by lra. cbv zeta. change (Z.quot 2 2) with 1%Z. change (1 + 1 =? 2)%Z with true.
    change (Z.rem 1 2 =? 0)%Z with false. change (Z.rem (Z.quot (2 + 1) 2) 2 =? 0)%Z with false. cbv beta iota.
    replace (4 * (f - 2 * / 4)) with (4 * f - 2) by field. reflexivity. }
  rewrite (trunc_at (f * 4) 3) by lra. cbv zeta. change (Z.quot 3 2) with 1%Z.
  change (1 + 1 =? 3)%Z with false. change (Z.rem 1 2 =? 0)%Z with false. change (Z.rem (Z.quot (3 + 1) 2) 2 =? 0)%Z with true. cbv beta iota.
  replace (1 - 4 * (f - 3 * / 4)) with (4 - 4 * f) by field. rewrite RZ by lra. reflexivity.
Qed.

Lemma aug_form p x : p <> 0 ->
  @psi_aug N p x (Rabs x) =
    (if Req_EM_T (fr x) 0 then None
     else if Rlt_dec (fr x) (/ 4) then Some (sgn0 p x * (4 / tan (p * (4 * fr x))))
     else if Rlt_dec (fr x) (/ 2) then Some (sgn0 p x * (4 * tan (p * (2 - 4 * fr x))))
     else if Rlt_dec (fr x) (3 / 4) then Some (- sgn0 p x * (4 * tan (p * (4 * fr x - 2))))
     else Some (- sgn0 p x * (4 / tan (p * (4 - 4 * fr x))))).
Proof.
  intros Hp. etransitivity; [|exact (aug_gen (sgn0 p x) p (fr x) Hp (fr_range x))]. unfold psi_aug. rewrite c_f4, c_quart.
  assert (EF : Rabs x - IZR (rtrunc (Rabs x)) = fr x) by (rewrite trunc_pos by apply Rabs_pos; reflexivity).
  cbv zeta. cbn [RNum flt f0 fneg fsub faint fint fmul fofZ f1 feq fdiv ftan]. rewrite EF.
  unfold sgn0, rlt. destruct (Rlt_dec x 0); reflexivity.
Qed.

Lemma fr_int x z : x = IZR z -> fr x = 0.
Proof.
  intros ->. unfold fr. rewrite <- abs_IZR. replace (Int_part (IZR (Z.abs z))) with (Z.abs z); [ring|]. apply int_part_at. lra.
Qed.
Lemma fr_zero x : fr x = 0 -> exists z, x = IZR z.
Proof.
  unfold fr. intros E. destruct (Rcase_abs x) as [H|H].
  - rewrite Rabs_left in E by auto. exists (- Int_part (- x))%Z. rewrite opp_IZR. lra.
  - rewrite Rabs_right in E by auto. exists (Int_part x). lra.
Qed.

(* pi cot(pi x) for the reduced argument *)
Lemma cot_period x : sin (PI * x) <> 0 -> cos (PI * x) / sin (PI * x) = (if Rlt_dec x 0 then -1 else 1) * (cos (PI * fr x) / sin (PI * fr x)).
Proof.
  intros HS.
  assert (K : forall z : Z, forall y, cos (y + IZR z * PI) / sin (y + IZR z * PI) = cos y / sin y).
  { assert (K1 : forall n : nat, forall y, cos (y + INR n * PI) / sin (y + INR n * PI) = cos y / sin y).
    { induction n as [|n IH]; intros y; [cbn [INR]; rewrite Rmult_0_l, Rplus_0_r; reflexivity|].
      rewrite S_INR. replace (y + (INR n + 1) * PI) with ((y + INR n * PI) + PI) by ring. rewrite neg_cos, neg_sin.
      rewrite <- IH. unfold Rdiv. destruct (Req_dec (sin (y + INR n * PI)) 0) as [E|E].
      - rewrite E, Ropp_0, Rinv_0. ring.
      - field. auto. }
    intros z y. destruct z as [|q|q].
    - rewrite Rmult_0_l, Rplus_0_r. reflexivity.
    - rewrite <- (positive_nat_Z q), <- INR_IZR_INZ. apply K1.
    - rewrite <- (K1 (Pos.to_nat q)). rewrite INR_IZR_INZ, positive_nat_Z. rewrite <- Pos2Z.opp_pos, opp_IZR.
      do 2 f_equal; ring. }
  assert (EX : PI * x = (if Rlt_dec x 0 then -1 else 1) * (PI * fr x + IZR (Int_part (Rabs x)) * PI)).
  { unfold fr. destruct (Rlt_dec x 0); [rewrite Rabs_left by auto|rewrite Rabs_right by lra]; ring. }
  rewrite EX. destruct (Rlt_dec x 0).
  - replace (-1 * (PI * fr x + IZR (Int_part (Rabs x)) * PI)) with (- (PI * fr x + IZR (Int_part (Rabs x)) * PI)) by ring.
    rewrite cos_neg, sin_neg. rewrite <- (K (Int_part (Rabs x)) (PI * fr x)).
    destruct (Req_dec (sin (PI * fr x + IZR (Int_part (Rabs x)) * PI)) 0) as [E|E]; [rewrite E, Ropp_0; unfold Rdiv; rewrite Rinv_0; ring|field; auto].
  - rewrite Rmult_1_l, Rmult_1_l. apply K.
Qed.

Lemma sin_fr x : fr x <> 0 -> 0 < sin (PI * fr x).
Proof. intros H. pose proof (fr_range x). pose proof pi_range. apply sin_gt_0; nra. Qed.
Lemma sin_int0 x : fr x <> 0 -> sin (PI * x) <> 0.
Proof.
  intros H E. apply sin_eq_0_0 in E. destruct E as [k E]. apply H. apply (fr_int x k). pose proof pi_range.
  apply Rmult_eq_reg_l with PI; [|lra]. rewrite E. ring.
Qed.
Lemma reflection_fr x : fr x <> 0 -> reflection x = (if Rlt_dec x 0 then PI else - PI) * (cos (PI * fr x) / sin (PI * fr x)).
Proof.
  intros H. unfold reflection. pose proof (cot_period x (sin_int0 x H)) as E. unfold Rdiv in *. rewrite Rmult_assoc, E. destruct (Rlt_dec x 0); ring.
Qed.

(* the cotangent branch: -pi cot(pi x) up to the rounding of the constant *)
Lemma aug_close x : fr x <> 0 -> exists a, @psi_aug N PIOV4 x (Rabs x) = Some a /\ Rabs (a - reflection x) <= 1 / 10 ^ 19.
Proof.
  intros H. rewrite (aug_form PIOV4 x) by (unfold PIOV4; lra). rewrite (reflection_fr x H). destruct (Req_EM_T (fr x) 0) as [E|E]; [tauto|].
  pose proof (fr_range x) as HF. pose proof piov4_close as HC. set (f := fr x) in *. pose proof piov4_angle as A1. pose proof pi4_angle as A2.
  pose proof (sin_fr x H) as SP. fold f in SP.
  assert (HQ : forall c, PI / 4 * c = PI * (c / 4)) by (intros; field).
  assert (GOAL : forall a b e, Rabs (a - b) <= 13 * Rabs (PIOV4 - PI / 4) -> e = b \/ e = - b ->
    forall a', (e = b /\ a' = a) \/ (e = - b /\ a' = - a) -> Rabs (a' - e) <= 1 / 10 ^ 19).
  { intros a b e H1 _ a' H2. assert (E1 : Rabs (a' - e) = Rabs (a - b)).
    { destruct H2 as [[-> ->]|[-> ->]]; [reflexivity|]. rewrite <- (Rabs_Ropp (a - b)). f_equal. ring. }
    rewrite E1. eapply Rle_trans; [exact H1|]. lra. }
  assert (SG : forall a, (if Rlt_dec x 0 then PI else - PI) * a = PI * a \/ (if Rlt_dec x 0 then PI else - PI) * a = - (PI * a)).
  { intros a. destruct (Rlt_dec x 0); [left|right]; ring. }
  set (ct := cos (PI * f) / sin (PI * f)) in *.
  destruct (Rlt_dec f (/ 4)) as [L1|L1].
  { eexists. split; [reflexivity|]. pose proof (cot_stable PIOV4 (PI / 4) (4 * f) A1 A2 ltac:(lra)) as K.
    rewrite (HQ (4 * f)) in K. replace (4 * f / 4) with f in K by field. fold ct in K.
    apply (GOAL (4 * PIOV4 * (cos (PIOV4 * (4 * f)) / sin (PIOV4 * (4 * f)))) (PI * ct)).
    - replace (PI * ct) with (4 * (PI / 4) * ct) by field. eapply Rle_trans; [exact K|]. pose proof (Rabs_pos (PIOV4 - PI / 4)). lra.
    - apply SG.
    - assert (T : 4 / tan (PIOV4 * (4 * f)) = 4 * (cos (PIOV4 * (4 * f)) / sin (PIOV4 * (4 * f)))).
      { unfold tan. assert (V : 0 < PIOV4 * (4 * f) <= 1) by (unfold PIOV4; lra).
        pose proof (sin_low _ (conj (Rlt_le _ _ (proj1 V)) (proj2 V))). pose proof (cos_low _ (conj (Rlt_le _ _ (proj1 V)) (proj2 V))).
        set (v := PIOV4 * (4 * f)) in *. assert (0 < sin v) by nra. assert (0 < cos v) by nra. field. split; lra. }
      rewrite T. unfold sgn0. destruct (Rlt_dec x 0); [left|right]; split; ring. }
  destruct (Rlt_dec f (/ 2)) as [L2|L2].
  { eexists. split; [reflexivity|]. pose proof (tan_stable PIOV4 (PI / 4) (2 - 4 * f) A1 A2 ltac:(lra)) as K.
    assert (T : tan (PI / 4 * (2 - 4 * f)) = ct).
    { replace (PI / 4 * (2 - 4 * f)) with (PI / 2 - PI * f) by field. unfold tan. rewrite sin_shift, cos_shift. reflexivity. }
    rewrite T in K. apply (GOAL (4 * PIOV4 * tan (PIOV4 * (2 - 4 * f))) (PI * ct)).
    - replace (PI * ct) with (4 * (PI / 4) * ct) by field. exact K.
    - apply SG.
    - unfold sgn0. destruct (Rlt_dec x 0); [left|right]; split; ring. }
  destruct (Rlt_dec f (3 / 4)) as [L3|L3].
  { eexists. split; [reflexivity|]. pose proof (tan_stable PIOV4 (PI / 4) (4 * f - 2) A1 A2 ltac:(lra)) as K.
    assert (T : tan (PI / 4 * (4 * f - 2)) = - ct).
    { replace (PI / 4 * (4 * f - 2)) with (- (PI / 2 - PI * f)) by field. rewrite tan_neg. unfold tan. rewrite sin_shift, cos_shift. reflexivity. }
    rewrite T in K. apply (GOAL (4 * PIOV4 * tan (PIOV4 * (4 * f - 2))) (- (PI * ct))).
    - replace (- (PI * ct)) with (4 * (PI / 4) * - ct) by field. exact K.
    - rewrite Ropp_involutive. apply or_comm. apply SG.
    - unfold sgn0. destruct (Rlt_dec x 0); [right|left]; split; ring. }
  eexists. split; [reflexivity|]. pose proof (cot_stable PIOV4 (PI / 4) (4 - 4 * f) A1 A2 ltac:(lra)) as K.
  assert (T : cos (PI / 4 * (4 - 4 * f)) / sin (PI / 4 * (4 - 4 * f)) = - ct).
  { replace (PI / 4 * (4 - 4 * f)) with (PI - PI * f) by field. rewrite Rtrigo_facts.cos_pi_minus, Rtrigo_facts.sin_pi_minus. unfold ct. field. lra. }
  rewrite T in K. apply (GOAL (4 * PIOV4 * (cos (PIOV4 * (4 - 4 * f)) / sin (PIOV4 * (4 - 4 * f)))) (- (PI * ct))).
  - replace (- (PI * ct)) with (4 * (PI / 4) * - ct) by field. eapply Rle_trans; [exact K|]. pose proof (Rabs_pos (PIOV4 - PI / 4)). lra.
  - rewrite Ropp_involutive. apply or_comm. apply SG.
  - assert (T2 : 4 / tan (PIOV4 * (4 - 4 * f)) = 4 * (cos (PIOV4 * (4 - 4 * f)) / sin (PIOV4 * (4 - 4 * f)))).
    { unfold tan. assert (V : 0 < PIOV4 * (4 - 4 * f) <= 1) by (unfold PIOV4; lra).
      pose proof (sin_low _ (conj (Rlt_le _ _ (proj1 V)) (proj2 V))). pose proof (cos_low _ (conj (Rlt_le _ _ (proj1 V)) (proj2 V))).
      set (v := PIOV4 * (4 - 4 * f)) in *. assert (0 < sin v) by nra. assert (0 < cos v) by nra. field. split; lra. }
    rewrite T2. unfold sgn0. destruct (Rlt_dec x 0); [right|left]; split; ring.
Qed.

(* ---- digamma ---- *)
Lemma psi_200_plus x a : @psi_200 N x a = @psi_200 N x 0 + a.
Proof.
  unfold psi_200. destruct (fgt x f3).
  - unfold psi_300. destruct (flt x psi_xlarge); cbn [RNum fadd]; cbv zeta; cbn [RNum fadd fsub]; rring.
  - cbv zeta. cbn [RNum fadd]. rring.
Qed.

Lemma dg_high x : / 2 <= x -> @digamma N x = @psi_200 N x 0.
Proof.
  intros H. pose proof const_order as HO. unfold digamma. cbv zeta. rewrite c_xmax1, c_xmin1. unfold fge. cbn [RNum fneg fabs flt fle fhalf f0].
  rewrite Rabs_pos_eq by lra.
  assert (E1 : rle XMAX1 (- x) = false) by (apply rle_false; lra). assert (E2 : rlt x XMIN1 = false) by (apply rlt_false; lra).
  assert (E3 : rle (/ 2) x = true) by (apply rle_true; lra). rewrite E1, E2, E3. reflexivity.
Qed.

(* XINF: x <= -XMAX1, zero or a negative integer, (-XMIN1, 0); -XINF: (0, XMIN1) *)
Theorem digamma_errors x :
  (x < - XMAX1 \/ x = 0 \/ (x < 0 /\ exists z : Z, x = IZR z) \/ - XMIN1 < x < 0 -> @digamma N x = XINF) /\
  (0 < x < XMIN1 -> @digamma N x = - XINF).
Proof.
  pose proof const_order as HO. unfold digamma. cbv zeta. rewrite c_xmax1, c_xmin1, c_xsmall, c_piov4. unfold fge, psi_410, fgt. rewrite c_xinf.
  cbn [RNum fneg fabs flt fle fhalf f0].
  split.
  - intros H. assert (HN : rlt 0 x = false) by (apply rlt_false; lra).
    destruct (rle XMAX1 (- x)) eqn:E1; [cbn [orb]; rewrite HN; reflexivity|]. apply rle_false in E1.
    destruct (rlt (Rabs x) XMIN1) eqn:E2; [cbn [orb]; rewrite HN; reflexivity|]. apply rlt_false in E2.
    destruct H as [H|[H|[[H (z & Hz)]|H]]]; [lra|rewrite H, Rabs_R0 in E2; lra| |rewrite Rabs_left in E2 by lra; lra].
    cbn [orb]. assert (E3 : rle (/ 2) x = false) by (apply rle_false; lra). rewrite E3.
    assert (H1 : (z < 0)%Z) by (apply lt_IZR; lra). assert (H2 : 1 <= Rabs x).
    { rewrite Rabs_left by auto. rewrite Hz, <- opp_IZR. apply IZR_le. lia. }
    assert (E4 : rle (Rabs x) XSMALL = false) by (apply rle_false; lra). rewrite E4.
    rewrite (aug_form PIOV4 x) by (unfold PIOV4; lra). destruct (Req_EM_T (fr x) 0) as [_|C0]; [rewrite HN; reflexivity|].
    exfalso. apply C0. apply (fr_int x z Hz).
  - intros H. assert (E2 : rlt (Rabs x) XMIN1 = true) by (apply rlt_true; rewrite Rabs_pos_eq by lra; lra). rewrite E2, orb_true_r.
    assert (HN : rlt 0 x = true) by (apply rlt_true; lra). rewrite HN. reflexivity.
Qed.

(* everywhere else below 1/2: the reflection formula *)
Theorem digamma_reflects x : - XMAX1 < x < / 2 -> XMIN1 <= Rabs x -> ~ (x < 0 /\ exists z : Z, x = IZR z) ->
  (XSMALL < Rabs x -> Rabs (@digamma N x - (@digamma N (1 - x) + reflection x)) <= 1 / 10 ^ 19) /\
  (Rabs x <= XSMALL -> @digamma N x = @digamma N (1 - x) - 1 / x /\
     Rabs (@digamma N x - (@digamma N (1 - x) + reflection x)) <= 21 / 10 ^ 9).
Proof.
  intros HX HM HI. pose proof const_order as HO. rewrite (dg_high (1 - x)) by lra. unfold digamma. cbv zeta.
  rewrite c_xmax1, c_xmin1, c_xsmall, c_piov4. unfold fge, psi_150. cbn [RNum fneg fabs flt fle fhalf f0 f1 fsub fdiv].
  assert (E1 : rle XMAX1 (- x) = false) by (apply rle_false; lra). assert (E2 : rlt (Rabs x) XMIN1 = false) by (apply rlt_false; lra).
  assert (E3 : rle (/ 2) x = false) by (apply rle_false; lra). rewrite E1, E2, E3. cbn [orb].
  assert (HF : fr x <> 0).
  { intros E. destruct (fr_zero x E) as [z Hz]. apply HI. destruct (Rlt_dec x 0) as [L|L]; [split; eauto|]. exfalso.
    rewrite Rabs_pos_eq in HM by lra. assert (H1 : (0 < z)%Z) by (apply lt_IZR; lra). assert (H2 : 1 <= x) by (rewrite Hz; apply IZR_le; lia). lra. }
  split; intros HS.
  - assert (E4 : rle (Rabs x) XSMALL = false) by (apply rle_false; lra). rewrite E4.
    destruct (aug_close x HF) as (a & EA & HA). rewrite EA. rewrite psi_200_plus.
    replace (@psi_200 N (1 - x) 0 + a - (@psi_200 N (1 - x) 0 + reflection x)) with (a - reflection x) by ring. exact HA.
  - assert (E4 : rle (Rabs x) XSMALL = true) by (apply rle_true; lra). rewrite E4. rewrite psi_200_plus. split; [rring|].
    replace (@psi_200 N (1 - x) 0 + - (1 / x) - (@psi_200 N (1 - x) 0 + reflection x)) with (- (1 / x + reflection x)) by ring.
    rewrite Rabs_Ropp. unfold reflection.
    (* pi (1/u - cot u), u = pi x; odd in u *)
    assert (POS : forall u, 0 < u <= / 100 -> Rabs (1 / u - cos u / sin u) <= u / 2 * (101 / 100)).
    { intros u Hu. pose proof (sin_low u ltac:(lra)) as S1. pose proof (sin_up u ltac:(lra)) as S2. pose proof (cos_low u ltac:(lra)) as C1.
      assert (SP : 0 < sin u) by nra. pose proof (COS_bound u) as [_ C2].
      replace (1 / u - cos u / sin u) with ((sin u - u * cos u) / (u * sin u)) by (field; lra).
      assert (C3 : u * cos u <= sin u).
      { pose proof (cos_up u ltac:(lra)) as C3. assert (0 < u * u * u) by (apply Rmult_lt_0_compat; [nra|lra]). nra. }
      rewrite Rabs_pos_eq by (apply Rmult_le_pos; [lra|left; apply Rinv_0_lt_compat; nra]).
      apply Rmult_le_reg_r with (u * sin u); [nra|]. unfold Rdiv at 1. rewrite Rmult_assoc, Rinv_l by nra.
      assert (S3 : 999 / 1000 * u <= sin u) by nra.
      assert (S4 : sin u - u * cos u <= u * u * u / 2) by nra. assert (0 < u * u) by nra. nra. }
    pose proof pi_range as HPI. assert (HXS : 0 < Rabs x <= XSMALL) by lra.
    assert (HB : Rabs (1 / x - PI * cos (PI * x) / sin (PI * x)) = PI * Rabs (1 / (PI * Rabs x) - cos (PI * Rabs x) / sin (PI * Rabs x))).
    { assert (SP : forall t, 0 < t <= XSMALL -> 0 < sin (PI * t)) by (intros t Ht; apply sin_gt_0; unfold XSMALL in *; nra).
      transitivity (Rabs (PI * (1 / (PI * Rabs x) - cos (PI * Rabs x) / sin (PI * Rabs x)))); [|rewrite Rabs_mult, (Rabs_pos_eq PI) by lra; reflexivity].
      destruct (Rcase_abs x) as [L|L].
      - rewrite (Rabs_left x) by auto. rewrite Rabs_left in HXS by auto. specialize (SP (- x) HXS).
        replace (PI * x) with (- (PI * - x)) by ring. rewrite cos_neg, sin_neg.
        rewrite <- (Rabs_Ropp (1 / x - _)). f_equal. field. lra.
      - rewrite (Rabs_right x) by auto. rewrite (Rabs_right x) in HXS by auto. specialize (SP x HXS). f_equal. field. lra. }
    unfold Rminus in HB. rewrite HB. fold (Rminus (1 / (PI * Rabs x)) (cos (PI * Rabs x) / sin (PI * Rabs x))).
    specialize (POS (PI * Rabs x) ltac:(unfold XSMALL in *; nra)).
    apply Rle_trans with (PI * (PI * Rabs x / 2 * (101 / 100))); [apply Rmult_le_compat_l; [lra|exact POS]|].
    unfold XSMALL in *. nra.
Qed.
End Branches.
