(* Derivatives of the functions in RSpec, in the form the chain procedures use. *)
From Verif Require Export RSpec.
Local Open Scope R_scope.

(* ---- powers ---- *)

Lemma Int_part_IZR z : Int_part (IZR z) = z.
Proof.
  unfold Int_part. rewrite <- (tech_up (IZR z) (z + 1)); [lia| |]; rewrite plus_IZR; lra.
Qed.

Lemma rpow_pos x y : 0 < x -> rpow x y = Rpower x y.
Proof.
  intros H. unfold rpow. destruct (Req_EM_T (IZR (Int_part y)) y) as [E|].
  - rewrite powerRZ_Rpower by auto. rewrite E. reflexivity.
  - destruct (Rlt_dec 0 x); [reflexivity|tauto].
Qed.

Lemma rpow_int x z : rpow x (IZR z) = powerRZ x z.
Proof. unfold rpow. rewrite Int_part_IZR. destruct (Req_EM_T (IZR z) (IZR z)); [reflexivity|tauto]. Qed.

Lemma rpow_1 x : rpow x 1 = x.
Proof. rewrite (rpow_int x 1). simpl. ring. Qed.
Lemma rpow_2 x : rpow x 2 = x * x.
Proof. rewrite (rpow_int x 2). simpl. ring. Qed.
Lemma rpow_m1 x : rpow x (-1) = 1 / x.
Proof. rewrite (rpow_int x (-1)). simpl. unfold Rdiv. rewrite Rmult_1_l, Rmult_1_r. reflexivity. Qed.
Lemma rpow_half x : 0 < x -> rpow x (/ 2) = sqrt x.
Proof. intros H. rewrite rpow_pos by auto. apply Rpower_sqrt. auto. Qed.
Lemma rpow_mhalf x : 0 < x -> rpow x (- / 2) = 1 / sqrt x.
Proof. intros H. rewrite rpow_pos by auto. rewrite Rpower_Ropp, Rpower_sqrt by auto. unfold Rdiv. ring. Qed.
Lemma rpow_0_pos y : 0 < y -> rpow 0 y = 0.
Proof.
  intros H. unfold rpow. destruct (Req_EM_T (IZR (Int_part y)) y) as [E|].
  - assert (Hz : (0 < Int_part y)%Z) by (apply lt_IZR; lra).
    destruct (Int_part y) as [|q|q]; try lia. simpl. apply pow_i. lia.
  - destruct (Rlt_dec 0 0); [lra|reflexivity].
Qed.

(* ---- locality ---- *)

Lemma deriv_cont (f : R -> R) (t d : R) : is_derive f t d -> continuous f t.
Proof. intros H. apply (ex_derive_continuous (V := R_NormedModule)). exists d. exact H. Qed.

Lemma locally_lt (f : R -> R) (t d a : R) : is_derive f t d -> a < f t -> locally t (fun u => a < f u).
Proof.
  intros H Ha. apply deriv_cont in H. apply (H (fun y => a < y)). apply open_gt. exact Ha.
Qed.
Lemma locally_gt (f : R -> R) (t d a : R) : is_derive f t d -> f t < a -> locally t (fun u => f u < a).
Proof.
  intros H Ha. apply deriv_cont in H. apply (H (fun y => y < a)). apply open_lt. exact Ha.
Qed.

Lemma comp1 (h f : R -> R) (t d e : R) : is_derive f t d -> is_derive h (f t) e ->
  is_derive (fun u => h (f u)) t (e * d).
Proof. intros Hf Hh. rewrite Rmult_comm. apply (is_derive_comp h f t e d Hh Hf). Qed.

(* the same derivative, written differently *)
Lemma deriv_eq (f : R -> R) (t d d' : R) : is_derive f t d -> d = d' -> is_derive f t d'.
Proof. intros H <-. exact H. Qed.

Lemma deriv_ext (f h : R -> R) (t d : R) : (forall u, f u = h u) -> is_derive f t d -> is_derive h t d.
Proof. apply is_derive_ext. Qed.

Lemma d_mult (f h : R -> R) (t df dh : R) : is_derive f t df -> is_derive h t dh ->
  is_derive (fun u => f u * h u) t (df * h t + f t * dh).
Proof. intros Hf Hh. apply (is_derive_mult f h t df dh Hf Hh). intros; apply Rmult_comm. Qed.
Lemma d_plus (f h : R -> R) (t df dh : R) : is_derive f t df -> is_derive h t dh ->
  is_derive (fun u => f u + h u) t (df + dh).
Proof. intros Hf Hh. apply (is_derive_plus f h t df dh Hf Hh). Qed.
Lemma d_const (c t : R) : is_derive (fun _ => c) t 0.
Proof. apply (is_derive_const c t). Qed.

(* ---- functions of one argument ---- *)

Lemma sqrt_pos_ne x : 0 < x -> sqrt x <> 0.
Proof. intros H. apply Rgt_not_eq, sqrt_lt_R0. auto. Qed.

Lemma d_sinh x : is_derive sinh x (cosh x).
Proof. apply is_derive_Reals, derivable_pt_lim_sinh. Qed.
Lemma d_cosh x : is_derive cosh x (sinh x).
Proof. apply is_derive_Reals, derivable_pt_lim_cosh. Qed.
Lemma cosh_pos x : 0 < cosh x.
Proof. unfold cosh. pose proof (exp_pos x). pose proof (exp_pos (-x)). lra. Qed.
Lemma cosh_sinh x : cosh x * cosh x - sinh x * sinh x = 1.
Proof.
  unfold cosh, sinh. assert (E : exp x * exp (-x) = 1) by (rewrite <- exp_plus; replace (x + - x) with 0 by ring; apply exp_0).
  set (a := exp x) in *. set (b := exp (-x)) in *. nra.
Qed.
Lemma d_tanh x : is_derive tanh x (1 / (cosh x * cosh x)).
Proof.
  unfold tanh. pose proof (cosh_pos x). eapply deriv_eq.
  - apply is_derive_div; [apply d_sinh|apply d_cosh|lra].
  - rewrite (cosh_sinh x). field. lra.
Qed.
Lemma d_tan x : cos x <> 0 -> is_derive tan x (1 * (1 + tan x * tan x)).
Proof.
  intros H. unfold tan. auto_derive; [auto|]. pose proof (sin2_cos2 x) as E. unfold Rsqr in E. field. auto.
Qed.
Lemma d_asin x : -1 < x < 1 -> is_derive asin x (1 / sqrt (1 - x * x)).
Proof.
  intros H. apply is_derive_Reals. change (x * x) with (x²). rewrite <- (derive_pt_asin x H). eapply derive_pt_eq_1. reflexivity.
Qed.
Lemma d_acos x : -1 < x < 1 -> is_derive acos x (- (1 / sqrt (1 - x * x))).
Proof.
  intros H. apply is_derive_Reals. replace (- (1 / sqrt (1 - x * x))) with (-1 / sqrt (1 - x²)) by (unfold Rsqr, Rdiv; ring).
  rewrite <- (derive_pt_acos x H). eapply derive_pt_eq_1. reflexivity.
Qed.
Lemma d_atan x : is_derive atan x (1 / (1 + x * x)).
Proof.
  apply is_derive_Reals. replace (1 / (1 + x * x)) with (/ (1 + x ^ 2)) by (field; nra).
  apply derivable_pt_lim_atan.
Qed.
Lemma asinh_arg x : 0 < x + sqrt (x * x + 1).
Proof.
  assert (Rabs x < sqrt (x * x + 1)).
  { rewrite <- sqrt_Rsqr_abs. apply sqrt_lt_1; unfold Rsqr; nra. }
  pose proof (Rle_abs (-x)) as H1. rewrite Rabs_Ropp in H1. lra.
Qed.
Lemma d_asinh x : is_derive (fun x => ln (x + sqrt (x * x + 1))) x (1 / sqrt (x * x + 1)).
Proof.
  pose proof (asinh_arg x) as H. assert (0 < x * x + 1) by nra. pose proof (sqrt_lt_R0 _ H0).
  auto_derive; [split; [lra|auto]|]. field. split; lra.
Qed.
Lemma d_acosh x : 1 < x -> is_derive (fun x => ln (x + sqrt (x * x - 1))) x (1 / sqrt (x * x - 1)).
Proof.
  intros H. assert (0 < x * x - 1) by nra. pose proof (sqrt_lt_R0 _ H0).
  unfold Rminus in *. auto_derive; [repeat split; auto; lra|]. field. repeat split; auto; lra.
Qed.
Lemma d_atanh x : -1 < x < 1 -> is_derive (fun x => / 2 * ln ((1 + x) / (1 - x))) x (1 / (1 - x * x)).
Proof.
  intros H. auto_derive.
  - split; [lra|split; [apply Rdiv_lt_0_compat; lra|auto]].
  - field. split; nra.
Qed.
Lemma d_sqrt x : 0 < x -> is_derive sqrt x (/ 2 * 1 / sqrt x).
Proof. intros H. pose proof (sqrt_pos_ne x H). auto_derive; [auto|]. field. auto. Qed.
Lemma d_inv x : x <> 0 -> is_derive (fun x => 1 / x) x (- (1 / (x * x))).
Proof. intros H. auto_derive; [auto|]. field. auto. Qed.
Lemma d_isqrt x : 0 < x -> is_derive (fun x => 1 / sqrt x) x (- (/ 2 * 1 / (x * sqrt x))).
Proof.
  intros H. pose proof (sqrt_pos_ne x H). auto_derive; [auto|].
  assert (E : x = sqrt x * sqrt x) by (rewrite sqrt_sqrt; lra).
  remember (sqrt x) as r. rewrite E. field. auto.
Qed.
Lemma d_logit x : 0 < x < 1 -> is_derive (fun x => ln (x / (1 - x))) x (1 / (x - x * x)).
Proof.
  intros H. auto_derive.
  - split; [lra|split; [apply Rdiv_lt_0_compat; lra|auto]].
  - field. split; [nra|lra].
Qed.
Lemma d_inv_logit x : is_derive (fun x => 1 / (1 + exp (- x))) x
  (1 * (1 / (1 + exp (- x))) * (1 - 1 / (1 + exp (- x)))).
Proof. pose proof (exp_pos (- x)). auto_derive; [lra|]. field. lra. Qed.
Lemma d_erf x : is_derive rerf x (1 * (2 / sqrt PI) * exp (- (x * x))).
Proof.
  unfold rerf. rewrite Rmult_1_l. apply is_derive_scal.
  assert (HC : forall y, continuous (fun t => exp (- (t * t))) y).
  { intros y. apply (ex_derive_continuous (V := R_NormedModule)). auto_derive. auto. }
  apply (is_derive_RInt (fun t => exp (- (t * t))) (fun b => RInt (fun t => exp (- (t * t))) 0 b) 0).
  - apply filter_forall. intros y. apply (RInt_correct (V := R_CompleteNormedModule)). apply (ex_RInt_continuous (V := R_CompleteNormedModule)). auto.
  - apply HC.
Qed.
Lemma d_abs x : x <> 0 -> is_derive Rabs x (if Rlt_dec 0 x then 1 else -1).
Proof.
  intros H. eapply deriv_eq; [apply (is_derive_Rabs (fun y => y) x 1); [apply (is_derive_id x)|exact H]|].
  destruct (Rlt_dec 0 x).
  - rewrite sign_eq_1 by auto. ring.
  - rewrite sign_eq_m1 by lra. ring.
Qed.

(* value and derivative of inv_logit as the library computes them *)
Lemma inv_logit_neg x : exp x / (1 + exp x) = 1 / (1 + exp (- x)).
Proof. rewrite exp_Ropp. pose proof (exp_pos x). field. lra. Qed.

(* ---- powers along curves ---- *)

Lemma d_rpower (f h : R -> R) (t df dh : R) : is_derive f t df -> is_derive h t dh -> 0 < f t ->
  is_derive (fun u => rpow (f u) (h u)) t
    (1 * h t * rpow (f t) (h t) / f t * df + 1 * rpow (f t) (h t) * ln (f t) * dh).
Proof.
  intros Hf Hh Hp. apply is_derive_ext_loc with (f := fun u => exp (h u * ln (f u))).
  - apply (filter_imp (fun u => 0 < f u)); [|eapply locally_lt; eauto].
    intros u Hu. rewrite rpow_pos by auto. reflexivity.
  - rewrite rpow_pos by auto. unfold Rpower. eapply deriv_eq.
    + apply comp1 with (h := exp) (e := exp (h t * ln (f t))); [|apply is_derive_exp].
      apply (is_derive_mult h (fun u => ln (f u))); [exact Hh| |intros; apply Rmult_comm].
      apply (comp1 ln f t df (/ f t)); [exact Hf|apply is_derive_ln; auto].
    + unfold plus, mult; simpl. field. lra.
Qed.

Lemma d_rpow_vd d (f : R -> R) (t df : R) : is_derive f t df -> 0 < f t ->
  is_derive (fun u => rpow (f u) d) t (1 * d * rpow (f t) d / f t * df).
Proof.
  intros Hf Hp. eapply deriv_eq; [apply (d_rpower f (fun _ => d) t df 0 Hf); auto|].
  - apply (is_derive_const d t).
  - ring.
Qed.

Lemma d_powerRZ z x : x <> 0 -> is_derive (fun u => powerRZ u z) x (IZR z * powerRZ x z / x).
Proof.
  intros Hx. assert (P : forall n, x ^ n <> 0) by (intros; apply pow_nonzero; auto). destruct z as [|p|p].
  - eapply deriv_eq; [apply (d_const 1 x)|]. simpl. field. auto.
  - eapply deriv_eq; [apply (is_derive_pow (fun u => u) (Pos.to_nat p) x 1); apply (is_derive_id x)|].
    cbn [powerRZ]. pose proof (Pos2Nat.is_pos p). destruct (Pos.to_nat p) as [|n] eqn:E; [lia|].
    rewrite <- (positive_nat_Z p), E, <- INR_IZR_INZ. cbn [pred pow]. field. auto.
  - eapply deriv_eq; [apply (is_derive_inv (fun u => u ^ Pos.to_nat p) x (INR (Pos.to_nat p) * 1 * x ^ pred (Pos.to_nat p)))|].
    + apply (is_derive_pow (fun u => u) (Pos.to_nat p) x 1). apply (is_derive_id x).
    + apply P.
    + cbn [powerRZ]. pose proof (Pos2Nat.is_pos p). destruct (Pos.to_nat p) as [|n] eqn:E; [lia|].
      change (Z.neg p) with (- Z.pos p)%Z. rewrite opp_IZR.
      rewrite <- (positive_nat_Z p), E, <- INR_IZR_INZ. cbn [pred pow]. specialize (P n). field. auto.
Qed.

Lemma d_pow_0 n x : x = 0 -> n <> 1%nat -> is_derive (fun u => u ^ n) x 0.
Proof.
  intros -> Hn. eapply deriv_eq; [apply (is_derive_pow (fun u => u) n 0 1); apply (is_derive_id 0)|].
  destruct n as [|[|n]]; simpl; try ring. lia.
Qed.

(* integer exponent *)
Lemma d_rpow_z z (f : R -> R) (t df : R) : is_derive f t df -> f t <> 0 ->
  is_derive (fun u => rpow (f u) (IZR z)) t (1 * IZR z * rpow (f t) (IZR z) / f t * df).
Proof.
  intros Hf Hp. apply deriv_ext with (f := fun u => powerRZ (f u) z); [intros; rewrite rpow_int; auto|].
  eapply deriv_eq; [apply (comp1 (fun u => powerRZ u z) f t df _ Hf (d_powerRZ z (f t) Hp))|].
  rewrite rpow_int. unfold Rdiv. ring.
Qed.
Lemma d_rpow_z0 z (f : R -> R) (t df : R) : is_derive f t df -> f t = 0 -> (0 <= z)%Z -> z <> 1%Z ->
  is_derive (fun u => rpow (f u) (IZR z)) t 0.
Proof.
  intros Hf H0 Hz H1. destruct (Z_of_nat_complete z Hz) as [n ->].
  apply deriv_ext with (f := fun u => (f u) ^ n); [intros; rewrite rpow_int, pow_powerRZ; auto|].
  eapply deriv_eq; [apply (comp1 (fun u => u ^ n) f t df 0 Hf); apply d_pow_0; auto; lia|]. ring.
Qed.

Lemma d_rpow_dv d (h : R -> R) (t dh : R) : is_derive h t dh -> 0 < d ->
  is_derive (fun u => rpow d (h u)) t (1 * rpow d (h t) * ln d * dh).
Proof.
  intros Hh Hp. eapply deriv_eq; [apply (d_rpower (fun _ => d) h t 0 dh); auto|].
  - apply (is_derive_const d t).
  - ring.
Qed.

Lemma d_rpow_0v (h : R -> R) (t dh : R) : is_derive h t dh -> 0 < h t -> is_derive (fun u => rpow 0 (h u)) t 0.
Proof.
  intros Hh Hp. apply is_derive_ext_loc with (f := fun _ => 0).
  - apply (filter_imp (fun u => 0 < h u)); [|eapply locally_lt; eauto].
    intros u Hu. rewrite rpow_0_pos; auto.
  - apply (is_derive_const 0 t).
Qed.

Lemma d_hypot (f h : R -> R) (t df dh : R) : is_derive f t df -> is_derive h t dh -> f t <> 0 \/ h t <> 0 ->
  is_derive (fun u => sqrt (f u * f u + h u * h u)) t
    (1 * f t / sqrt (f t * f t + h t * h t) * df + 1 * h t / sqrt (f t * f t + h t * h t) * dh).
Proof.
  intros Hf Hh Hp. assert (P : 0 < f t * f t + h t * h t) by (destruct Hp; nra).
  pose proof (sqrt_pos_ne _ P). eapply deriv_eq.
  - apply (comp1 sqrt (fun u => f u * f u + h u * h u) t (2 * f t * df + 2 * h t * dh)); [|apply d_sqrt; exact P].
    eapply deriv_eq; [apply d_plus; apply d_mult; eauto|]. ring.
  - field. auto.
Qed.

(* ---- lists of curves ---- *)

Lemma d_rsum (fs : list (R -> R)) (t : R) (ds : list R) : Forall2 (fun f d => is_derive f t d) fs ds ->
  is_derive (fun u => rsum (map (fun f => f u) fs)) t (rsum ds).
Proof.
  induction 1 as [|f d fs ds H _ IH]; cbn [map rsum fold_right].
  - apply (is_derive_const 0 t).
  - apply (is_derive_plus f (fun u => rsum (map (fun f => f u) fs))); auto.
Qed.

Lemma d_map (h h' : R -> R) (fs : list (R -> R)) (t : R) (ds : list R) :
  Forall2 (fun f d => is_derive f t d) fs ds -> Forall (fun f => is_derive h (f t) (h' (f t))) fs ->
  Forall2 (fun f d => is_derive f t d) (map (fun f u => h (f u)) fs)
    (map (fun q => h' (fst q) * snd q) (combine (map (fun f => f t) fs) ds)).
Proof.
  induction 1 as [|f d fs ds H _ IH]; intros HF; cbn [map combine]; [constructor|].
  inversion HF; subst. constructor; [|auto]. cbn [fst snd]. apply (comp1 h f t d); auto.
Qed.

Lemma rdot_cons a l b m : rdot (a :: l) (b :: m) = a * b + rdot l m.
Proof. reflexivity. Qed.
Lemma rdot_nil_l l : rdot [] l = 0.
Proof. reflexivity. Qed.
Lemma rdot_nil_r l : rdot l [] = 0.
Proof. destruct l; reflexivity. Qed.

Lemma rdot_comm a : forall b, rdot a b = rdot b a.
Proof.
  induction a as [|x a IH]; intros [|y b]; try reflexivity. rewrite !rdot_cons, IH. ring.
Qed.

Lemma rdot_app a1 a2 b1 b2 : length a1 = length b1 -> rdot (a1 ++ a2) (b1 ++ b2) = rdot a1 b1 + rdot a2 b2.
Proof.
  revert b1. induction a1 as [|x a1 IH]; intros [|y b1] H; try discriminate H; cbn [app].
  - rewrite rdot_nil_l. ring.
  - rewrite !rdot_cons, IH by (cbn [length] in H; lia). ring.
Qed.

Lemma rdot_scal c a : forall b, rdot (map (Rmult c) a) b = c * rdot a b.
Proof.
  induction a as [|x a IH]; intros [|y b]; cbn [map]; rewrite ?rdot_nil_l, ?rdot_nil_r; try ring.
  rewrite !rdot_cons, IH. ring.
Qed.

Lemma rdot_ones {A} (l : list A) ds : length l = length ds -> rdot (map (fun _ => 1) l) ds = rsum ds.
Proof.
  revert ds. induction l as [|x l IH]; intros [|d ds] H; try discriminate H; [reflexivity|].
  cbn [map]. rewrite rdot_cons, IH by (cbn [length] in H; lia). cbn [rsum fold_right]. fold (rsum ds). ring.
Qed.

(* product rule for a dot product *)
Lemma d_rdot (fs : list (R -> R)) : forall (hs : list (R -> R)) (t : R) (ds es : list R),
  Forall2 (fun f d => is_derive f t d) fs ds -> Forall2 (fun f d => is_derive f t d) hs es ->
  length fs = length hs ->
  is_derive (fun u => rdot (map (fun f => f u) fs) (map (fun f => f u) hs)) t
    (rdot (map (fun f => f t) hs) ds + rdot (map (fun f => f t) fs) es).
Proof.
  induction fs as [|f fs IH]; intros [|h hs] t ds es H1 H2 HL; try discriminate HL.
  - inversion H1; inversion H2; subst. cbn [map]. rewrite !rdot_nil_l, Rplus_0_l. apply (is_derive_const 0 t).
  - inversion H1 as [|? d ? ds' A1 A2]; subst. inversion H2 as [|? e ? es' B1 B2]; subst. cbn [map].
    rewrite !rdot_cons. eapply deriv_eq.
    + apply d_plus; [apply (d_mult f h t d e A1 B1)|].
      apply (IH hs t ds' es' A2 B2). cbn [length] in HL. lia.
    + match goal with |- ?a = ?b => change (@eq R a b) end. ring.
Qed.

Lemma consts_deriv (l : list R) t : Forall2 (fun f d => is_derive f t d) (map (fun c (_ : R) => c) l) (map (fun _ => 0) l).
Proof. induction l; cbn [map]; constructor; auto. apply (is_derive_const a t). Qed.

Lemma map_const_at (l : list R) (u : R) : map (fun f => f u) (map (fun c (_ : R) => c) l) = l.
Proof. rewrite map_map. apply map_id. Qed.

Lemma rdot_zeros {A} l (m : list A) : rdot l (map (fun _ => 0) m) = 0.
Proof.
  revert m. induction l as [|x l IH]; intros [|y m]; cbn [map]; rewrite ?rdot_nil_l, ?rdot_nil_r; auto.
  rewrite rdot_cons, IH. ring.
Qed.

Lemma d_rdot_const (fs : list (R -> R)) (c : list R) (t : R) (ds : list R) :
  Forall2 (fun f d => is_derive f t d) fs ds -> length fs = length c ->
  is_derive (fun u => rdot (map (fun f => f u) fs) c) t (rdot c ds).
Proof.
  intros H HL. pose proof (d_rdot fs (map (fun c _ => c) c) t ds _ H (consts_deriv c t)
    ltac:(rewrite map_length; auto)) as D.
  rewrite rdot_zeros, Rplus_0_r, map_const_at in D.
  eapply is_derive_ext; [|exact D]. intros u. cbv beta. rewrite map_const_at. reflexivity.
Qed.
