(* One library call: the value is the function it denotes and the contributions
   of its chain step are the partial derivatives. *)
From Verif Require Import TapeFacts.
From Coq Require Import ZifyBool ZifyNat.
From Verif Require Export Adjoint.
Local Open Scope R_scope.

Section Deriv.
Context {lg : R -> R} {C : Cfg (RNum lg)}.
Notation N := (RNum lg).
Notation graph := (@graph N).

(* G: result of the call as its operands move along curves with the rates tau *)
Definition step_right (g : graph) (tau : nat -> R) (t0 : R) (kk : list nat) (G : R -> R) (a : @act N) : Prop :=
  match a with
  | ANew v ops ds (Some ch) => ops = kk /\ G t0 = v /\
      exists cl, @contrib N C ch v 1 (map (gval g) kk) ds = Some cl /\ is_derive G t0 (rdot cl (map tau kk))
  | ANew v ops ds None => ops = [] /\ ds = [] /\ G t0 = v /\ is_derive G t0 0
  | AAlias k None => kk = [k] /\ G t0 = gval g k /\ is_derive G t0 (tau k)
  | _ => False
  end.

Lemma rdot1 a b : rdot [a] [b] = a * b.
Proof. rewrite rdot_cons, rdot_nil_l. ring. Qed.
Lemma rdot2 a1 a2 b1 b2 : rdot [a1; a2] [b1; b2] = a1 * b1 + a2 * b2.
Proof. rewrite !rdot_cons, rdot_nil_l. ring. Qed.

Context (g : graph) (tau : nat -> R) (t0 : R).

(* a curve through the value of node k with its rate *)
Definition moves (c : R -> R) (k : nat) : Prop := c t0 = gval g k /\ is_derive c t0 (tau k).

Lemma step_new1 (h : R -> R) c k (v : R) (ds : list R) ch (d : R) : moves c k -> h (c t0) = v ->
  @contrib N C ch v 1 [@gval N g k] ds = Some [d] -> is_derive h (c t0) d ->
  step_right g tau t0 [k] (fun u => h (c u)) (@ANew N v [k] ds (Some ch)).
Proof.
  intros [M1 M2] HV HC HD. cbn [step_right]. split; auto. split; auto. exists [d]. split; auto.
  cbn [map]. rewrite rdot1. apply comp1; auto.
Qed.

Lemma is_nan_R (x : R) : @is_nan_d N x = false.
Proof. unfold is_nan_d, fne. cbn. unfold req. destruct (Req_EM_T x x); [reflexivity|tauto]. Qed.

Lemma inv_logit_R x : ln rtiny <= x -> @inv_logit_d N x = 1 / (1 + exp (- x)).
Proof.
  intros H. unfold inv_logit_d. cbn [flt RNum fexp fadd f1 f0 fneg fdiv c_log_epsilon].
  destruct (rlt x 0); [|reflexivity].
  destruct (rlt x (ln rtiny)) eqn:E; [apply rlt_true in E; lra|]. apply inv_logit_neg.
Qed.

Ltac new1 D := apply step_new1 with (d := D); auto;
  match goal with M : _ = @gval _ _ _ |- _ => cbn; rewrite <- ?M; auto end.

Lemma step_un u c k : moves c k -> un_dom u (c t0) ->
  step_right g tau t0 [k] (fun t => @un_fun lg u (c t)) (@act_un N u g k).
Proof.
  intros M HD. pose proof M as [M1 M2]. set (x := c t0) in *.
  destruct u; cbn [act_un un_dom] in *; try tauto; unfold anew1.
  - new1 (1 * cos x). rewrite Rmult_1_l. apply (is_derive_sin x).
  - new1 (- (1 * sin x)). rewrite Rmult_1_l. apply (is_derive_cos x).
  - new1 (1 * (1 + tan x * tan x)). apply d_tan; auto.
  - new1 (1 / sqrt (1 - x * x)). apply d_asin; auto.
  - new1 (- (1 / sqrt (1 - x * x))). apply d_acos; auto.
  - new1 (1 / (1 + x * x)). apply d_atan.
  - new1 (1 * cosh x). rewrite Rmult_1_l. apply d_sinh.
  - new1 (1 * sinh x). rewrite Rmult_1_l. apply d_cosh.
  - new1 (1 / (cosh x * cosh x)). apply d_tanh.
  - new1 (1 / sqrt (x * x + 1)). apply d_asinh.
  - rewrite is_nan_R. change (@fle N (gval g k) f1) with (rle (gval g k) 1). rewrite <- M1.
    destruct (rle x 1) eqn:E; [apply rle_true in E; lra|].
    new1 (1 / sqrt (x * x - 1)). apply d_acosh; auto.
  - rewrite is_nan_R. change (@fle N (gval g k) (fneg f1)) with (rle (gval g k) (- (1))).
    change (@fge N (gval g k) f1) with (rle 1 (gval g k)). rewrite <- M1.
    destruct (rle x (- (1))) eqn:E; [apply rle_true in E; lra|].
    destruct (rle 1 x) eqn:E2; [apply rle_true in E2; lra|]. cbn [orb].
    new1 (1 / (1 - x * x)). apply d_atanh; auto.
  - new1 (1 * exp x). rewrite Rmult_1_l. apply (is_derive_exp x).
  - new1 (1 / x). eapply deriv_eq; [apply (is_derive_ln x HD)|]. unfold Rdiv. ring.
  - new1 (/ 2 * 1 / sqrt x). apply d_sqrt; auto.
  - new1 (1 * 2 * x). eapply deriv_eq; [apply (d_mult (fun y => y) (fun y => y) x 1 1); apply (is_derive_id x)|]. ring.
  - new1 (- (1 / (x * x))). apply d_inv; auto.
  - new1 (- (/ 2 * 1 / (x * sqrt x))). apply d_isqrt; auto.
  - new1 (1 / (x - x * x)). apply d_logit; auto.
  - pose proof (inv_logit_R x HD) as E.
    apply step_new1 with (d := 1 * (1 / (1 + exp (- x))) * (1 - 1 / (1 + exp (- x)))); auto.
    + rewrite <- M1, E. reflexivity.
    + rewrite <- M1, E. reflexivity.
    + apply d_inv_logit.
  - new1 (1 * (2 / sqrt PI) * exp (- (x * x))). apply d_erf.
  - new1 (- (1 * (2 / sqrt PI) * exp (- (x * x)))). eapply deriv_eq.
    + apply (is_derive_minus (fun _ => 1) rerf x 0 _ (d_const 1 x) (d_erf x)).
    + unfold minus, plus, opp; cbn. ring.
  - new1 (- (1)). apply (is_derive_opp (fun y => y) x 1). apply (is_derive_id x).
  - cbn [step_right]. auto.
  - unfold act_abs. change (@fgt N (gval g k) f0) with (rlt 0 (gval g k)). change (@flt N (gval g k) f0) with (rlt (gval g k) 0).
    rewrite <- M1. pose proof (d_abs x HD) as DA.
    destruct (Rlt_dec 0 x) as [P|P].
    + replace (rlt 0 x) with true by (symmetry; apply rlt_true; auto). cbn [step_right un_fun].
      split; auto. split; [fold x; rewrite <- M1; apply Rabs_pos_eq; lra|].
      eapply deriv_eq; [apply (comp1 Rabs c t0 (tau k) 1 M2 DA)|]. ring.
    + replace (rlt 0 x) with false by (symmetry; apply rlt_false; auto).
      replace (rlt x 0) with true by (symmetry; apply rlt_true; lra).
      apply step_new1 with (d := - (1)); auto.
      apply Rabs_left. lra.
Qed.

Lemma step_vv b c1 c2 k1 k2 : moves c1 k1 -> moves c2 k2 -> vv_dom b (c1 t0) (c2 t0) ->
  step_right g tau t0 [k1; k2] (fun t => bin_fun b (c1 t) (c2 t)) (@act_vv N b g k1 k2).
Proof.
  intros [A1 A2] [B1 B2] HD.
  assert (NEW : forall v ch (d1 d2 : R), bin_fun b (c1 t0) (c2 t0) = v ->
    @contrib N C ch v 1 [@gval N g k1; @gval N g k2] [] = Some [d1; d2] ->
    is_derive (fun t => bin_fun b (c1 t) (c2 t)) t0 (d1 * tau k1 + d2 * tau k2) ->
    step_right g tau t0 [k1; k2] (fun t => bin_fun b (c1 t) (c2 t)) (@ANew N v [k1; k2] [] (Some ch))).
  { intros v ch d1 d2 HV HC HDD. cbn [step_right]. split; auto. split; auto. exists [d1; d2]. split; auto.
    cbn [map]. rewrite rdot2. exact HDD. }
  destruct b; cbn [act_vv vv_dom bin_fun] in *.
  - apply NEW with (d1 := 1) (d2 := 1).
    + rewrite A1, B1. reflexivity.
    + reflexivity.
    + eapply deriv_eq; [apply d_plus; eauto|]. ring.
  - apply NEW with (d1 := 1) (d2 := - (1)).
    + rewrite A1, B1. reflexivity.
    + reflexivity.
    + eapply deriv_eq; [apply (is_derive_minus c1 c2 t0 _ _ A2 B2)|]. unfold minus, plus, opp; cbn. ring.
  - apply NEW with (d1 := gval g k2 * 1) (d2 := gval g k1 * 1).
    + rewrite A1, B1. reflexivity.
    + reflexivity.
    + eapply deriv_eq; [apply d_mult; eauto|]. rewrite A1, B1. ring.
  - apply NEW with (d1 := 1 / gval g k2) (d2 := - (c1 t0 / c2 t0 * 1 / gval g k2)).
    + rewrite A1, B1. reflexivity.
    + rewrite A1, B1. reflexivity.
    + eapply deriv_eq; [apply (is_derive_div c1 c2 t0 _ _ A2 B2 HD)|].
      rewrite <- B1. unfold Rdiv. match goal with |- ?x = ?y => change (@eq R x y) end. field. auto.
  - apply NEW with (d1 := 1 * gval g k2 * rpow (c1 t0) (c2 t0) / gval g k1) (d2 := 1 * rpow (c1 t0) (c2 t0) * ln (gval g k1)).
    + rewrite A1, B1. reflexivity.
    + cbn [contrib is_nil andb]. rewrite <- A1, <- B1. cbn [RNum fne feq f0].
      unfold fne. cbn [feq RNum f0]. replace (req (c1 t0) 0) with false by (symmetry; apply req_false; lra).
      reflexivity.
    + rewrite <- A1, <- B1. apply d_rpower; auto.
  - apply NEW with (d1 := 1 * gval g k1 / sqrt (c1 t0 * c1 t0 + c2 t0 * c2 t0))
                   (d2 := 1 * gval g k2 / sqrt (c1 t0 * c1 t0 + c2 t0 * c2 t0)).
    + rewrite A1, B1. reflexivity.
    + rewrite A1, B1. reflexivity.
    + rewrite <- A1, <- B1. apply d_hypot; auto.
Qed.

Lemma half_not_int z : / 2 <> IZR z.
Proof.
  intros H. assert (E : IZR (2 * z) = IZR 1) by (rewrite mult_IZR; lra). apply eq_IZR in E. lia.
Qed.

Lemma mhalf_not_int z : - / 2 <> IZR z.
Proof.
  intros H. assert (E : IZR (2 * z) = IZR (-1)) by (rewrite mult_IZR; lra). apply eq_IZR in E. lia.
Qed.

Lemma step_vd b c k (d : R) r : moves c k -> vd_dom b (c t0) d -> @neutral N (@OVD N b r d) = false ->
  step_right g tau t0 [k] (fun t => bin_fun b (c t) d) (@act_vd N b g k d).
Proof.
  intros M HD HN. pose proof M as [M1 M2]. destruct b; cbn [act_vd neutral vd_dom] in *; unfold fne.
  - rewrite HN. cbn [negb]. apply (step_new1 (fun x => bin_fun BAdd x d)) with (d := 1); auto.
    + rewrite M1. reflexivity.
    + eapply deriv_eq; [apply (d_plus (fun y => y) (fun _ => d)); [apply (is_derive_id (c t0))|apply d_const]|]. 
      unfold one; cbn. ring.
  - rewrite HN. cbn [negb]. apply (step_new1 (fun x => bin_fun BSub x d)) with (d := 1); auto.
    + rewrite M1. reflexivity.
    + eapply deriv_eq; [apply (d_plus (fun y => y) (fun _ => - d)); [apply (is_derive_id (c t0))|apply d_const]|].
      unfold one; cbn. ring.
  - rewrite HN. cbn [negb]. apply (step_new1 (fun x => bin_fun BMul x d)) with (d := 1 * d); auto.
    + rewrite M1. reflexivity.
    + eapply deriv_eq; [apply (d_mult (fun y => y) (fun _ => d)); [apply (is_derive_id (c t0))|apply d_const]|].
      unfold one; cbn. ring.
  - rewrite HN. cbn [negb]. apply (step_new1 (fun x => bin_fun BDiv x d)) with (d := 1 / d); auto.
    + rewrite M1. reflexivity.
    + eapply deriv_eq; [apply (d_mult (fun y => y) (fun _ => / d)); [apply (is_derive_id (c t0))|apply d_const]|].
      unfold one, Rdiv; cbn. ring.
  - destruct HD as [D2 HD]. cbn [feq RNum fhalf f1 f2 fneg].
    destruct (req d (/ 2)) eqn:E1.
    { apply req_true in E1. subst d. assert (P : 0 < c t0) by (destruct HD as [|(z & Hz & _)]; auto; destruct (half_not_int z Hz)).
      unfold anew1. apply (step_new1 (fun x => bin_fun BPow x (/ 2))) with (d := / 2 * 1 / sqrt (c t0)); auto.
      - cbn [bin_fun]. rewrite rpow_half, M1 by auto. reflexivity.
      - rewrite M1. reflexivity.
      - cbn [bin_fun]. eapply deriv_eq; [apply (d_rpow_vd (/ 2) (fun y => y) (c t0) 1); [apply (is_derive_id (c t0))|auto]|].
        rewrite rpow_half by auto. pose proof (sqrt_pos_ne _ P).
        assert (E : c t0 = sqrt (c t0) * sqrt (c t0)) by (rewrite sqrt_sqrt; lra).
        remember (sqrt (c t0)) as q. rewrite E. field. auto. }
    destruct (req d 1) eqn:E2.
    { apply req_true in E2. subst d. cbn [step_right bin_fun]. split; auto. split; [rewrite rpow_1; auto|].
      apply deriv_ext with (f := c); auto. intros; rewrite rpow_1; auto. }
    destruct (req d 2) eqn:E3.
    { apply req_true in E3. subst d. unfold anew1.
      apply (step_new1 (fun x => bin_fun BPow x 2)) with (d := 1 * 2 * c t0); auto.
      - cbn [bin_fun]. rewrite rpow_2, M1. reflexivity.
      - rewrite M1. reflexivity.
      - cbn [bin_fun]. apply deriv_ext with (f := fun y => y * y); [intros; rewrite rpow_2; auto|].
        eapply deriv_eq; [apply (d_mult (fun y => y) (fun y => y) (c t0) 1 1); apply (is_derive_id (c t0))|]. ring. }
    destruct (req d (- (2))) eqn:E4; [apply req_true in E4; lra|].
    destruct (req d (- (1))) eqn:E5.
    { apply req_true in E5. subst d. assert (P : c t0 <> 0).
      { destruct HD as [|(z & Hz & [|H])]; auto; [lra|]. apply (eq_IZR (-1)) in Hz. lia. }
      unfold anew1. apply (step_new1 (fun x => bin_fun BPow x (-1))) with (d := - (1 / (c t0 * c t0))); auto.
      - cbn [bin_fun]. rewrite rpow_m1, M1. reflexivity.
      - rewrite M1. reflexivity.
      - cbn [bin_fun]. apply deriv_ext with (f := fun y => 1 / y); [intros; rewrite rpow_m1; auto|]. apply d_inv; auto. }
    destruct (req d (- / 2)) eqn:E6.
    { apply req_true in E6. subst d. assert (P : 0 < c t0) by (destruct HD as [|(z & Hz & _)]; auto; destruct (mhalf_not_int z Hz)).
      unfold anew1. apply (step_new1 (fun x => bin_fun BPow x (- / 2))) with (d := - (/ 2 * 1 / (c t0 * sqrt (c t0)))); auto.
      - cbn [bin_fun]. rewrite rpow_mhalf, M1 by auto. reflexivity.
      - rewrite M1. reflexivity.
      - cbn [bin_fun]. eapply deriv_eq; [apply (d_rpow_vd (- / 2) (fun y => y) (c t0) 1); [apply (is_derive_id (c t0))|auto]|].
        rewrite rpow_mhalf by auto. pose proof (sqrt_pos_ne _ P). field. split; [auto|lra]. }
    cbn [bin_fun]. destruct (Req_EM_T (c t0) 0) as [Z|NZ].
    { destruct HD as [|(z & -> & Hz)]; [lra|]. assert (Hz0 : (0 <= z)%Z) by (destruct Hz; [tauto|auto]).
      assert (z <> 1%Z) by (intros ->; apply req_false in E2; tauto).
      cbn [step_right]. split; auto. split; [rewrite <- M1; reflexivity|]. exists []. split.
      - cbn [map contrib is_nil andb]. rewrite <- M1, Z. unfold fne. cbn [feq RNum f0].
        replace (req 0 0) with true by (symmetry; apply req_true; auto). reflexivity.
      - rewrite rdot_nil_l. eapply d_rpow_z0; eauto. }
    cbn [step_right]. split; auto. split; [rewrite <- M1; reflexivity|].
    exists [1 * d * rpow (c t0) d / c t0]. split.
    + cbn [map contrib is_nil andb]. rewrite <- M1. unfold fne. cbn [feq RNum f0].
      replace (req (c t0) 0) with false by (symmetry; apply req_false; auto). reflexivity.
    + cbn [map]. rewrite rdot1. destruct HD as [P|(z & -> & _)]; [apply d_rpow_vd; auto|apply d_rpow_z; auto].
  - rewrite HN. cbn [negb]. assert (d <> 0) by (apply req_false; exact HN).
    cbn [step_right]. split; auto. split; [rewrite <- M1; reflexivity|].
    exists [1 * c t0 / sqrt (c t0 * c t0 + d * d)]. split; [rewrite <- M1; cbn; rewrite <- M1; reflexivity|].
    cbn [map bin_fun]. rewrite rdot1. eapply deriv_eq; [apply (d_hypot c (fun _ => d) t0 (tau k) 0 M2 (d_const d t0)); auto|]. ring.
Qed.

Lemma step_dv b c k (d : R) r : moves c k -> dv_dom b d (c t0) -> @neutral N (@ODV N b d r) = false ->
  step_right g tau t0 [k] (fun t => bin_fun b d (c t)) (@act_dv N b g d k).
Proof.
  intros M HD HN. pose proof M as [M1 M2]. destruct b; cbn [act_dv neutral dv_dom] in *; unfold fne.
  - rewrite HN. cbn [negb]. apply (step_new1 (fun x => bin_fun BAdd d x)) with (d := 1); auto.
    + rewrite M1. reflexivity.
    + eapply deriv_eq; [apply (d_plus (fun _ => d) (fun y => y)); [apply d_const|apply (is_derive_id (c t0))]|].
      unfold one; cbn. ring.
  - apply (step_new1 (fun x => bin_fun BSub d x)) with (d := - (1)); auto.
    + rewrite M1. reflexivity.
    + eapply deriv_eq; [apply (is_derive_minus (fun _ => d) (fun y => y) (c t0) 0 1); [apply d_const|apply (is_derive_id (c t0))]|].
      unfold minus, plus, opp; cbn. ring.
  - rewrite HN. cbn [negb]. apply (step_new1 (fun x => bin_fun BMul d x)) with (d := 1 * d); auto.
    + cbn. rewrite M1. apply Rmult_comm.
    + eapply deriv_eq; [apply (d_mult (fun _ => d) (fun y => y)); [apply d_const|apply (is_derive_id (c t0))]|].
      unfold one; cbn. ring.
  - apply (step_new1 (fun x => bin_fun BDiv d x)) with (d := - (d / c t0 * 1 / c t0)); auto.
    + rewrite M1. reflexivity.
    + rewrite M1. reflexivity.
    + cbn [bin_fun]. apply deriv_ext with (f := fun y => d * (1 / y)); [intros; unfold Rdiv; ring|].
      eapply deriv_eq; [apply (d_mult (fun _ => d) (fun y => 1 / y)); [apply d_const|apply d_inv; auto]|].
      field. auto.
  - cbn [step_right bin_fun]. split; auto. split; [rewrite <- M1; reflexivity|]. destruct HD as [P|[-> P]].
    + exists [1 * rpow d (c t0) * ln d]. split.
      * cbn [map contrib is_nil andb]. rewrite <- M1. unfold fne. cbn [feq RNum f0].
        replace (req d 0) with false by (symmetry; apply req_false; lra). reflexivity.
      * cbn [map]. rewrite rdot1. apply d_rpow_dv; auto.
    + exists []. split.
      * cbn [map contrib is_nil andb]. unfold fne. cbn [feq RNum f0].
        replace (req 0 0) with true by (symmetry; apply req_true; auto). reflexivity.
      * rewrite rdot_nil_l. eapply d_rpow_0v; eauto.
  - rewrite HN. cbn [negb]. assert (d <> 0) by (apply req_false; exact HN).
    cbn [step_right bin_fun]. split; auto.
    split; [rewrite <- M1; cbn; f_equal; ring|].
    exists [1 * c t0 / sqrt (d * d + c t0 * c t0)]. split.
    + rewrite <- M1; cbn; rewrite <- M1. rewrite (Rplus_comm (d * d)). reflexivity.
    + cbn [map]. rewrite rdot1. eapply deriv_eq; [apply (d_hypot (fun _ => d) c t0 0 (tau k) (d_const d t0) M2); auto|]. ring.
Qed.

(* ---- arrays of operands ---- *)

Notation follow cs kk := (Forall2 moves cs kk).

Lemma follow_vals cs kk : follow cs kk -> map (fun c : R -> R => c t0) cs = map (@gval N g) kk.
Proof. induction 1 as [|c k cs kk [M _] _ IH]; cbn [map]; auto. rewrite IH, M. reflexivity. Qed.

Lemma follow_rates cs kk : follow cs kk -> Forall2 (fun f d => is_derive f t0 d) cs (map tau kk).
Proof. induction 1 as [|c k cs kk [_ M] _ IH]; cbn [map]; constructor; auto. Qed.

Lemma follow_len cs kk : follow cs kk -> length cs = length kk.
Proof. induction 1; cbn [length]; auto. Qed.

Lemma d_rsum_map (h h' : R -> R) cs kk : follow cs kk -> Forall (fun c : R -> R => is_derive h (c t0) (h' (c t0))) cs ->
  is_derive (fun u => rsum (map h (map (fun c : R -> R => c u) cs))) t0 (rdot (map h' (map (@gval N g) kk)) (map tau kk)).
Proof.
  induction 1 as [|c k cs kk [M1 M2] _ IH]; intros HF; cbn [map].
  - rewrite rdot_nil_l. apply (d_const 0 t0).
  - inversion HF; subst. rewrite rdot_cons. change (fun u => rsum (h (c u) :: map h (map (fun c0 : R -> R => c0 u) cs)))
      with (fun u => h (c u) + rsum (map h (map (fun c0 : R -> R => c0 u) cs))).
    apply d_plus; auto. rewrite <- M1. apply comp1; auto.
Qed.

Lemma leaf_contrib ch (v a : R) : sizeless ch = true -> @contrib N C ch v a [] [] = Some [].
Proof.
  intros H. assert (L : @leaf_safe N C ch = true).
  { unfold leaf_safe. destruct junk; auto. destruct ch; try discriminate H; reflexivity. }
  unfold contrib. rewrite L. cbn [is_nil andb]. destruct ch; try discriminate H; reflexivity.
Qed.

Lemma step_sum cs kk : follow cs kk ->
  step_right g tau t0 kk (fun t => rsum (map (fun c : R -> R => c t) cs)) (@ANew N (rsum (map (@gval N g) kk)) kk [] (Some ChSum)).
Proof.
  intros HM. cbn [step_right]. split; auto. split; [rewrite (follow_vals _ _ HM); auto|].
  destruct kk as [|k kk].
  - exists []. split; [apply leaf_contrib; reflexivity|]. inversion HM; subst. rewrite rdot_nil_l. apply (d_const 0 t0).
  - exists (map (fun _ => 1) (map (@gval N g) (k :: kk))). split; [reflexivity|].
    rewrite rdot_ones by (rewrite !map_length; auto). apply d_rsum. apply follow_rates; auto.
Qed.

Lemma rsum_sq_nonneg l : 0 <= rsum (map (fun x => x * x) l).
Proof. induction l as [|x l IH]; cbn [map rsum fold_right]; [lra|]. unfold rsum in IH. nra. Qed.
Lemma rsum_sq_pos l : Exists (fun x => x <> 0) l -> 0 < rsum (map (fun x => x * x) l).
Proof.
  induction 1 as [x l H|x l H IH]; cbn [map rsum fold_right].
  - pose proof (rsum_sq_nonneg l) as P. unfold rsum in P. nra.
  - unfold rsum in IH. nra.
Qed.

Lemma rdot_map_scal c (f : R -> R) xs ys : rdot (map (fun x => c * f x) xs) ys = c * rdot (map f xs) ys.
Proof. rewrite <- rdot_scal, map_map. reflexivity. Qed.

Lemma step_norm2 cs kk : follow cs kk -> Exists (fun x => x <> 0) (map (fun c : R -> R => c t0) cs) ->
  step_right g tau t0 kk (fun t => sqrt (rsum (map (fun x => x * x) (map (fun c : R -> R => c t) cs))))
    (@ANew N (rnorm2 (map (@gval N g) kk)) kk [] (Some ChNorm2)).
Proof.
  intros HM HE. pose proof (follow_vals _ _ HM) as EV. rewrite EV in HE.
  pose proof (rsum_sq_pos _ HE) as P. pose proof (sqrt_pos_ne _ P) as SN.
  cbn [step_right]. split; auto. split; [rewrite EV; auto|].
  exists (map (fun x => 1 * x / rnorm2 (map (@gval N g) kk)) (map (@gval N g) kk)). split.
  - destruct kk; [inversion HE|]. reflexivity.
  - eapply deriv_eq.
    + apply (comp1 sqrt (fun u => rsum (map (fun x => x * x) (map (fun c : R -> R => c u) cs))) t0).
      * apply (d_rsum_map (fun x => x * x) (fun x => 2 * x) cs kk HM). apply Forall_forall. intros c _.
        eapply deriv_eq; [apply (d_mult (fun y => y) (fun y => y) (c t0) 1 1); apply (is_derive_id (c t0))|]. ring.
      * rewrite EV. apply d_sqrt. exact P.
    + rewrite rdot_map_scal, map_id. unfold rnorm2 at 1.
      rewrite (map_ext (fun x => 1 * x / rnorm2 (map (@gval N g) kk)) (fun x => / rnorm2 (map (@gval N g) kk) * x))
        by (intros; unfold Rdiv; ring).
      rewrite rdot_map_scal, map_id. unfold rnorm2. field. exact SN.
Qed.

(* log of a sum of exponentials, shifted by the largest *)
Lemma rmaxval_le x l b : Forall (fun y => y <= b) (x :: l) -> rmaxval (x :: l) <= b.
Proof.
  cbn [rmaxval]. intros H. inversion H as [|? ? Hx Hl]; subst. clear H. revert x Hx.
  induction Hl as [|y l Hy Hl IH]; intros x Hx; cbn [fold_left]; auto. apply IH. apply Rmax_lub; auto.
Qed.

Lemma rsum_exp_pos x l : 0 < rsum (map exp (x :: l)).
Proof.
  assert (H : forall l, 0 <= rsum (map exp l)).
  { induction l0 as [|y l0 IH]; cbn [map rsum fold_right]; [lra|]. pose proof (exp_pos y). unfold rsum in IH. lra. }
  cbn [map rsum fold_right]. specialize (H l). pose proof (exp_pos x). unfold rsum in H. lra.
Qed.

Lemma rsum_scal {A} (f : A -> R) c l : rsum (map (fun x => c * f x) l) = c * rsum (map f l).
Proof. induction l as [|x l IH]; cbn [map rsum fold_right]; [ring|]. unfold rsum in IH. rewrite IH. ring. Qed.

Lemma lse_R xs : xs <> [] -> Forall (fun x => x <= rhuge) xs -> @log_sum_exp_d N xs = ln (rsum (map exp xs)).
Proof.
  intros HN HF. destruct xs as [|x xs]; [tauto|]. unfold log_sum_exp_d. cbn [fmaxval RNum fsum flog fadd fsub fexp].
  set (m := rmaxval (x :: xs)). assert (B : @is_inf N m = false).
  { unfold is_inf, fgt. cbn [flt RNum c_huge]. apply rlt_false. pose proof (rmaxval_le x xs rhuge HF). unfold m. lra. }
  rewrite B. pose proof (rsum_exp_pos x xs) as P.
  change (m + ln (rsum (map (fun y => exp (y - m)) (x :: xs))) = ln (rsum (map exp (x :: xs)))).
  rewrite (map_ext (fun y => exp (y - m)) (fun y => exp (- m) * exp y))
    by (intros; rewrite <- exp_plus; f_equal; ring).
  rewrite (rsum_scal exp). rewrite ln_mult by (auto using exp_pos). rewrite ln_exp. ring.
Qed.

Lemma step_lse cs kk : follow cs kk -> map (fun c : R -> R => c t0) cs <> [] ->
  Forall (fun x => x <= rhuge) (map (fun c : R -> R => c t0) cs) ->
  step_right g tau t0 kk (fun t => ln (rsum (map exp (map (fun c : R -> R => c t) cs))))
    (@ANew N (@log_sum_exp_d N (map (@gval N g) kk)) kk [] (Some ChLse)).
Proof.
  intros HM HN HF. pose proof (follow_vals _ _ HM) as EV. rewrite EV in HN, HF.
  pose proof (lse_R _ HN HF) as EL. cbn [step_right]. split; auto. split; [rewrite EV, EL; auto|].
  exists (map (fun x => 1 * exp (x - @log_sum_exp_d N (map (@gval N g) kk))) (map (@gval N g) kk)). split.
  - destruct kk; [tauto|]. reflexivity.
  - assert (P : 0 < rsum (map exp (map (@gval N g) kk))).
    { destruct (map (@gval N g) kk); [tauto|]. apply rsum_exp_pos. }
    eapply deriv_eq.
    + apply (comp1 ln (fun u => rsum (map exp (map (fun c : R -> R => c u) cs))) t0).
      * apply (d_rsum_map exp exp cs kk HM). apply Forall_forall. intros c _. apply (is_derive_exp (c t0)).
      * rewrite EV. apply (is_derive_ln _ P).
    + rewrite EL.
      rewrite (map_ext (fun x => 1 * exp (x - ln (rsum (map exp (map (@gval N g) kk)))))
                       (fun x => / rsum (map exp (map (@gval N g) kk)) * exp x)).
      2:{ intros x. unfold Rminus. rewrite exp_plus, exp_Ropp, exp_ln by auto. ring. }
      rewrite rdot_map_scal. reflexivity.
Qed.

Lemma step_dotvv c1 c2 k1 k2 : follow c1 k1 -> follow c2 k2 -> length k1 = length k2 ->
  step_right g tau t0 (k1 ++ k2) (fun t => rdot (map (fun c : R -> R => c t) c1) (map (fun c : R -> R => c t) c2))
    (@ANew N (rdot (map (@gval N g) k1) (map (@gval N g) k2)) (k1 ++ k2) [] (Some ChDotVV)).
Proof.
  intros H1 H2 HL. pose proof (follow_vals _ _ H1) as E1. pose proof (follow_vals _ _ H2) as E2.
  pose proof (follow_len _ _ H1) as L1. pose proof (follow_len _ _ H2) as L2.
  cbn [step_right]. split; auto. split; [rewrite E1, E2; auto|].
  pose proof (d_rdot c1 c2 t0 _ _ (follow_rates _ _ H1) (follow_rates _ _ H2) ltac:(lia)) as D. rewrite E1, E2 in D.
  destruct k1 as [|a k1].
  - destruct k2; [|discriminate HL]. exists []. split; [apply leaf_contrib; reflexivity|].
    eapply deriv_eq; [exact D|]. cbn [map]. rewrite !rdot_nil_l. ring.
  - exists (map (Rmult 1) (map (@gval N g) k2) ++ map (Rmult 1) (map (@gval N g) (a :: k1))). split.
    + rewrite map_app. set (xs := map (@gval N g) (a :: k1)). set (ys := map (@gval N g) k2).
      assert (LL : length xs = length ys) by (unfold xs, ys; rewrite !map_length; lia).
      assert (NE : is_nil (xs ++ ys) = false) by reflexivity.
      unfold contrib. rewrite NE. cbn [andb]. rewrite app_length, <- LL.
      replace (length xs + length xs)%nat with (2 * length xs)%nat by lia. rewrite Nat.div2_double, Nat.eqb_refl.
      rewrite skipn_app, firstn_app, Nat.sub_diag, skipn_all, firstn_all. cbn [skipn firstn app]. rewrite app_nil_r. reflexivity.
    + eapply deriv_eq; [exact D|]. rewrite map_app, rdot_app by (rewrite !map_length; lia). rewrite !rdot_scal. ring.
Qed.

Lemma step_dotvd cs kk (d : list R) : follow cs kk -> length kk = length d ->
  step_right g tau t0 kk (fun t => rdot (map (fun c : R -> R => c t) cs) d)
    (@ANew N (rdot (map (@gval N g) kk) d) kk d (Some ChDotVD)).
Proof.
  intros HM HL. pose proof (follow_vals _ _ HM) as EV. pose proof (follow_len _ _ HM) as LC.
  cbn [step_right]. split; auto. split; [rewrite EV; auto|].
  pose proof (d_rdot_const cs d t0 _ (follow_rates _ _ HM) ltac:(lia)) as D.
  destruct kk as [|k kk].
  - destruct d; [|discriminate HL]. exists []. split; [apply leaf_contrib; reflexivity|]. exact D.
  - exists (map (Rmult 1) d). split.
    + cbn [map contrib is_nil andb length]. rewrite map_length.
      match goal with |- (if ?b then _ else _) = _ => assert (Hb : b = true) by (apply Nat.eqb_eq; exact HL); rewrite Hb end.
      reflexivity.
    + rewrite rdot_scal, Rmult_1_l. exact D.
Qed.

Lemma step_part (v : list R -> R) (p : list R -> list R) cs kk : follow cs kk ->
  has_partials v (map (fun c : R -> R => c t0) cs) (p (map (fun c : R -> R => c t0) cs)) ->
  length (p (map (@gval N g) kk)) = length kk ->
  step_right g tau t0 kk (fun t => v (map (fun c : R -> R => c t) cs))
    (@ANew N (v (map (@gval N g) kk)) kk (p (map (@gval N g) kk)) (Some ChEager)).
Proof.
  intros HM HP HL. pose proof (follow_vals _ _ HM) as EV. rewrite EV in HP.
  cbn [step_right]. split; auto. split; [rewrite EV; auto|].
  pose proof (HP cs t0 _ EV (follow_rates _ _ HM)) as D. set (ds := p (map (@gval N g) kk)) in *.
  destruct kk as [|k kk].
  - destruct ds; [|discriminate HL]. exists []. split; [apply leaf_contrib; reflexivity|]. exact D.
  - exists (map (Rmult 1) ds). split.
    + cbn [map contrib is_nil andb length]. rewrite map_length.
      match goal with |- (if ?b then _ else _) = _ => assert (Hb : b = true) by (apply Nat.eqb_eq; symmetry; exact HL); rewrite Hb end.
      reflexivity.
    + rewrite rdot_scal, Rmult_1_l. exact D.
Qed.

(* ---- any call with a scalar result ---- *)

Lemma aregs_app env l1 l2 : @aregs N g env (l1 ++ l2) =
  match @aregs N g env l1, @aregs N g env l2 with Some a, Some b => Some (a ++ b) | _, _ => None end.
Proof.
  induction l1 as [|r l IH]; cbn [app aregs].
  - destruct (aregs g env l2); reflexivity.
  - rewrite IH. destruct (areg g env r); auto. destruct (aregs g env l); auto. destruct (aregs g env l2); auto.
Qed.

Lemma follow_app cs k1 k2 : follow cs (k1 ++ k2) ->
  exists c1 c2, cs = c1 ++ c2 /\ follow c1 k1 /\ follow c2 k2 /\ length c1 = length k1.
Proof.
  intros H. apply Forall2_app_inv_r in H. destruct H as (c1 & c2 & H1 & H2 & ->). exists c1, c2.
  repeat split; auto. apply follow_len; auto.
Qed.

Lemma op_step env (o : @op N) kk cs : is_matmul o = false -> @aregs N g env (op_regs o) = Some kk ->
  follow cs kk -> op_dom o (map (fun c : R -> R => c t0) cs) -> op_shape o -> neutral o = false ->
  step_right g tau t0 kk (fun t => nth 0 (denote o (map (fun c : R -> R => c t) cs)) 0) (@act_op N g env o).
Proof.
  intros HT HA HM HD HS HN.
  assert (ONE : forall a, @aregs N g env [a] = Some kk -> exists k c, areg g env a = Some k /\ kk = [k] /\ cs = [c] /\ moves c k).
  { intros a H. cbn [aregs] in H. destruct (areg g env a) as [k|]; [|discriminate]. inversion H; subst kk.
    inversion HM as [|c k' cs' kk' M M']; subst. inversion M'; subst. exists k, c. auto. }
  destruct o; try discriminate HT; cbn [op_regs] in HA; cbn [act_op denote nth].
  - apply some_eq in HA; subst kk. cbn [step_right]. split; auto. split; auto. split; auto. apply (d_const d t0).
  - apply some_eq in HA; subst kk. cbn [step_right]. split; auto. split; auto. split; auto. apply (d_const 0 t0).
  - destruct (ONE _ HA) as (k & c & -> & -> & -> & M). apply step_un; auto.
  - cbn [aregs] in HA. destruct (areg g env x) as [k1|]; [|discriminate]. destruct (areg g env y) as [k2|]; [|discriminate].
    apply some_eq in HA; subst kk. inversion HM as [|c1 ? cs1 ? M1 M1']; subst. inversion M1' as [|c2 ? cs2 ? M2 M2']; subst.
    inversion M2'; subst. apply step_vv; auto.
  - destruct (ONE _ HA) as (k & c & -> & -> & -> & M). eapply step_vd; eauto.
  - destruct (ONE _ HA) as (k & c & -> & -> & -> & M). eapply step_dv; eauto.
  - rewrite HA. apply step_sum; auto.
  - rewrite HA. apply step_norm2; auto.
  - rewrite HA. destruct HD as [D1 D2]. apply step_lse; auto.
  - rewrite aregs_app in HA. destruct (aregs g env l1) as [k1|] eqn:E1; [|discriminate].
    destruct (aregs g env l2) as [k2|] eqn:E2; [|discriminate]. apply some_eq in HA; subst kk.
    cbn [op_shape] in HS. pose proof (aregs_len _ _ _ _ E1) as L1. pose proof (aregs_len _ _ _ _ E2) as L2.
    replace (Nat.eqb (length k1) (length k2)) with true by lia.
    destruct (follow_app _ _ _ HM) as (c1 & c2 & -> & M1 & M2 & LC).
    assert (EX : forall t : R, firstn (length l1) (map (fun c : R -> R => c t) (c1 ++ c2)) = map (fun c : R -> R => c t) c1 /\
                 skipn (length l1) (map (fun c : R -> R => c t) (c1 ++ c2)) = map (fun c : R -> R => c t) c2).
    { intros t. rewrite map_app, <- L1, <- LC. rewrite <- (map_length (fun c : R -> R => c t) c1).
      rewrite firstn_app, skipn_app, Nat.sub_diag, firstn_all, skipn_all. cbn [firstn skipn app].
      rewrite app_nil_r. auto. }
    pose proof (step_dotvv c1 c2 k1 k2 M1 M2 ltac:(lia)) as ST. cbn [step_right] in *.
    destruct ST as (S1 & S2 & cl & S3 & S4). split; auto. split; [|exists cl; split; auto].
    + destruct (EX t0) as [X1 X2]. rewrite X1, X2. exact S2.
    + eapply deriv_ext; [|exact S4]. intros t. cbv beta. destruct (EX t) as [X1 X2]. rewrite X1, X2. reflexivity.
  - rewrite HA. cbn [op_shape] in HS. pose proof (aregs_len _ _ _ _ HA) as L1.
    match goal with |- context [if ?b then _ else _] => assert (Hb : b = true) by (apply Nat.eqb_eq; transitivity (length l); [exact L1|exact HS]); rewrite Hb end.
    apply step_dotvd; auto. transitivity (length l); [exact L1|exact HS].
  - rewrite HA. cbn [op_shape] in HS. pose proof (aregs_len _ _ _ _ HA) as L1.
    match goal with |- context [if ?b then _ else _] => assert (Hb : b = true) by (apply Nat.eqb_eq; transitivity (length l); [exact HS|auto]); rewrite Hb end.
    pose proof (step_dotvd cs kk d HM (eq_trans L1 (eq_sym HS))) as ST. cbn [step_right] in *.
    destruct ST as (S1 & S2 & cl & S3 & S4). split; auto. cbn [fdot RNum].
    rewrite (rdot_comm d (map (gval g) kk)). split; [rewrite (rdot_comm d); exact S2|]. exists cl. split; auto.
    eapply deriv_ext; [|exact S4]. intros t. cbv beta. apply rdot_comm.
  - rewrite HA. cbn [op_shape] in HS. pose proof (aregs_len _ _ _ _ HA) as L1.
    pose proof (HS (map (@gval N g) kk) ltac:(rewrite map_length; exact L1)) as LP.
    match goal with |- context [if ?b then _ else _] => assert (Hb : b = true) by (apply Nat.eqb_eq; transitivity (length l); [exact LP|auto]); rewrite Hb end.
    apply step_part; auto. transitivity (length l); [exact LP|auto].
Qed.

End Deriv.
