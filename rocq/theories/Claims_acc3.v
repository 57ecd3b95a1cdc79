(* C59: the lines of a function and their slopes, by induction over the function. *)
From Coq Require Import Reals Lra ZifyBool ZifyNat.
From Flocq Require Import Core IEEE754.BinarySingleNaN IEEE754.Binary IEEE754.Bits.
From Coquelicot Require Import Coquelicot.
From Verif Require Import TapeFacts Calculus Findings Claims_expect.
From Verif Require Export Claims_acc2.
Import ListNotations.
Local Open Scope R_scope.

Theorem un_slope_derive f x : un_slope_at f x -> is_derive (@un_fun (fun z => z) f) x (un_slope f x).
Proof.
  intros H. destruct f; try (exfalso; exact H); cbn [un_slope un_slope_at] in *.
  - apply is_derive_sin.
  - apply is_derive_cos.
  - eapply deriv_eq; [exact (d_tan _ H)|ring].
  - exact (d_asin _ H).
  - exact (d_acos _ H).
  - exact (d_atan _).
  - apply d_sinh.
  - apply d_cosh.
  - exact (d_tanh _).
  - exact (d_asinh _).
  - exact (d_acosh _ H).
  - exact (d_atanh _ H).
  - apply is_derive_exp.
  - apply is_derive_ln; auto.
  - eapply deriv_eq; [exact (d_sqrt _ H)|]. field. pose proof (sqrt_lt_R0 _ H); lra.
  - apply (deriv_ext (fun t => t * t)); [reflexivity|]. auto_derive; auto; ring.
  - exact (d_inv _ H).
  - eapply deriv_eq; [exact (d_isqrt _ H)|]. field. pose proof (sqrt_lt_R0 _ H); lra.
  - exact (d_logit _ H).
  - apply (deriv_ext (fun t => - t)); [reflexivity|]. auto_derive; auto; ring.
Qed.
Theorem bin_slopes_derive b x y : vv_dom b x y ->
  is_derive (fun t => bin_fun b t y) x (fst (bin_slopes b x y)) /\ is_derive (fun t => bin_fun b x t) y (snd (bin_slopes b x y)).
Proof.
  intros H. destruct b; cbn [bin_fun bin_slopes fst snd vv_dom] in *.
  - split; auto_derive; auto; ring.
  - split; auto_derive; auto; ring.
  - split; auto_derive; auto; ring.
  - split; [auto_derive; auto; field; auto|apply d_den; auto].
  - split; [apply pow_d1; exact H|apply rpower_d2; exact H].
  - split; [apply hypot_d1; exact H|apply hypot_d2; exact H].
Qed.

Section Op.
Context (L : Libm).
Local Notation BN := (B64 L).

Lemma near_slope (f : R -> R) x d d' m p a : is_derive f x d -> is_derive f x d' -> near m p (d * a) -> near m p (d' * a).
Proof. intros H1 H2 H. rewrite <- (is_derive_unique _ _ _ H2), (is_derive_unique _ _ _ H1). exact H. Qed.

Lemma un_fine_near k f x a : un_fine L k f x a -> fin (@un_step BN f x (@un_value BN f x) a) = true ->
  near (6 + 2 * k) (rl (@un_step BN f x (@un_value BN f x) a)) (un_slope f (rl x) * rl a).
Proof.
  intros HS HF. destruct (acc_fine L k f x a HS HF) as (d & HD & HQ).
  apply (near_mono (un_rounds_of k f)); [destruct f; cbn; lia|]. refine (near_slope _ _ _ _ _ _ _ HD (un_slope_derive f (rl x) _) HQ).
  destruct f; try contradiction HS; cbn [un_slope_at]; auto; try apply HS; try (apply half_in, HS);
    try (destruct HS as ((H1 & H2) & _); lra); try (destruct HS as (H1 & H2 & H3 & _); nra).
  destruct HS as (H1 & H2 & _). intros Q. apply H2.
  destruct (x) as [s|s|s p h|s m e h]; try reflexivity. exfalso.
  pose proof (Binary.Bmult_correct 53 1024 (eq_refl _) (eq_refl _) binop_nan_pl64 rne (Binary.B754_finite 53 1024 s m e h) (Binary.B754_finite 53 1024 s m e h)) as M.
  rewrite Q, Rmult_0_l, round_0, Rabs_R0, Rlt_bool_true in M by (try apply bpow_gt_0; apply valid_rnd_N). apply H2. apply M.
Qed.

(* [combine]d lines *)
Lemma comb_fst {A B D} (ks : list A) : forall (u : list B) (v : list D), length u = length v -> map fst (combine ks u) = map fst (combine ks v).
Proof.
  induction ks as [|k ks IH]; intros [|x u] [|z v] H; try discriminate; cbn [combine map fst]; auto. f_equal. apply IH. injection H; auto.
Qed.
Lemma comb_f2 m a (ks : list nat) : forall (u : list binary64) v,
  Forall2 (fun (p : binary64) q => fin p = true -> near m (rl p) (q * rl a)) u v ->
  Forall2 (fun (p : nat * binary64) q => fin (snd p) = true -> near m (rl (snd p)) (snd q * rl a)) (combine ks u) (combine ks v).
Proof.
  induction ks as [|k ks IH]; intros u v H; [constructor|]. destruct H; cbn [combine]; constructor; auto.
Qed.
Lemma comb_in {A B} (ks : list A) (u : list B) p : In p (combine ks u) -> In (fst p) ks.
Proof. destruct p as [x z]. apply in_combine_l. Qed.
Lemma mul_f2 m a (cs : list binary64) : (1 <= m)%nat -> mul_safe a cs ->
  Forall2 (fun (p : binary64) q => fin p = true -> near m (rl p) (q * rl a)) (map (@fmul BN a) cs) (map rl cs).
Proof.
  intros Hm. induction 1 as [|c cs H _ IH]; cbn [map]; constructor; auto. intros HF. apply (near_mono 1); auto. exact (acc_product c a H HF).
Qed.
Lemma clear_0 : clear 0.
Proof. left. reflexivity. Qed.
Lemma safe_nth a (cs : list binary64) i : mul_safe a cs -> clear (rl a * rl (nth i cs c0)).
Proof.
  intros H. destruct (Nat.lt_ge_cases i (length cs)) as [Hi|Hi].
  - unfold mul_safe in H. rewrite Forall_forall in H. apply H, nth_In, Hi.
  - rewrite nth_overflow by exact Hi. change (rl c0) with 0. rewrite Rmult_0_r. apply clear_0.
Qed.
Lemma safe_row a m c i cs : mul_safe a cs -> mul_safe a (row c0 m c i cs).
Proof. intros H. unfold mul_safe, row. apply Forall_map, Forall_forall. intros x _. apply safe_nth; auto. Qed.
Lemma safe_col a c j cs : mul_safe a cs -> mul_safe a (col c0 c j cs).
Proof. intros H. unfold mul_safe, col. apply Forall_map, Forall_forall. intros x _. apply safe_nth; auto. Qed.
Lemma in_row m c i (ks : list nat) z : length ks = (m * c)%nat -> (i < m)%nat -> In z (row 0%nat m c i ks) -> In z ks.
Proof.
  intros HL Hi H. unfold row in H. apply in_map_iff in H. destruct H as (q & <- & Hq). apply in_seq in Hq. apply nth_In. nia.
Qed.
Lemma in_col c n j (ks : list nat) z : length ks = (c * n)%nat -> (j < n)%nat -> In z (col 0%nat c j ks) -> In z ks.
Proof.
  intros HL Hj H. unfold col in H. apply in_map_iff in H. destruct H as (q & <- & Hq). apply in_seq in Hq. apply nth_In. nia.
Qed.
Lemma in_entries m n i j q : nth_error (entries m n) q = Some (i, j) -> (i < m)%nat /\ (j < n)%nat.
Proof.
  intros H. apply nth_error_In in H. unfold entries in H. apply in_flat_map in H. destruct H as (j' & Hj' & Hi'). apply in_seq in Hj'.
  apply in_map_iff in Hi'. destruct Hi' as (i' & [= <- <-] & Hi'). apply in_seq in Hi'. lia.
Qed.

Lemma cmp_zero x : fin x = true -> b_lt c0 x = false -> b_lt x c0 = false -> b_eq x c0 = true.
Proof. destruct x as [s|s|s p h|s m e h]; try discriminate; destruct s; try reflexivity; cbn; discriminate. Qed.

Definition good_line (m b : nat) (l : @line BN) (sl : list (nat * R)) (a : binary64) : Prop :=
  (forall p, In p sl -> (fst p < b)%nat) /\ targets L l sl /\ accurate L m l sl a.

Lemma good_comb m b v (ks : list nat) (amt : binary64 -> list binary64) cs a : Forall (fun r => (r < b)%nat) ks ->
  (forall a, length (amt a) = length cs) -> Forall2 (fun (p : binary64) q => fin p = true -> near m (rl p) (q * rl a)) (amt a) cs ->
  good_line m b (@mkLine BN v (fun a => combine ks (amt a))) (combine ks cs) a.
Proof.
  intros HK HL HF. split; [|split].
  - intros p Hp. rewrite Forall_forall in HK. apply HK. eapply comb_in; eauto.
  - intros z. apply comb_fst. cbn [l_back]. apply HL.
  - apply comb_f2. exact HF.
Qed.
Lemma good_nil m b v a : good_line m b (@given BN v) [] a.
Proof. split; [intros p []|]. split; [intros z; reflexivity|constructor]. Qed.
Lemma good_app m b v f g cs ds a : good_line m b (@mkLine BN v f) cs a -> good_line m b (@mkLine BN v g) ds a ->
  good_line m b (@mkLine BN v (fun a => f a ++ g a)) (cs ++ ds) a.
Proof.
  intros (A1 & A2 & A3) (B1 & B2 & B3). split; [|split].
  - intros p Hp. apply in_app_iff in Hp. destruct Hp; auto.
  - intros z. cbn [l_back]. rewrite !map_app. f_equal; [apply A2|apply B2].
  - unfold accurate in *. cbn [l_back] in *. apply Forall2_app; auto.
Qed.

Definition all_good (m b : nat) (ls : list (@line BN)) (w : list (list (nat * R))) (adj : list binary64) : Prop :=
  length w = length ls /\ forall j, (j < length ls)%nat -> good_line m b (nth j ls (@given BN c0)) (nth j w []) (nth j adj c0).
Lemma good_one m b l sl a adj : nth 0 adj c0 = a -> good_line m b l sl a -> all_good m b [l] [sl] adj.
Proof. intros <- H. split; [reflexivity|]. intros [|j] Hj; [exact H|cbn in Hj; lia]. Qed.
Lemma good_many {E} m b (es : list E) (F : E -> @line BN) G adj (e0 : E) : length adj = length es ->
  (forall q e, nth_error es q = Some e -> In (nth q adj c0) adj -> good_line m b (F e) (G e) (nth q adj c0)) ->
  all_good m b (map F es) (map G es) adj.
Proof.
  intros HL H. split; [rewrite !map_length; reflexivity|]. rewrite map_length. intros j Hj.
  rewrite (nth_indep _ (@given BN c0) (F e0)) by (rewrite map_length; lia). rewrite (nth_indep _ [] (G e0)) by (rewrite map_length; lia).
  rewrite !map_nth. apply H; [apply nth_error_nth'; lia|apply nth_In; lia].
Qed.

Lemma fdot_len {A B} (a : A) (x : list B) : length (map (fun _ => a) x) = length x.
Proof. apply map_length. Qed.

Theorem op_good k (o : @op BN) ks xs ls adj b : op_shape o -> length ks = length (op_regs o) -> length xs = length ks ->
  Forall (fun r => (r < b)%nat) ks -> @step BN o ks xs = New ls -> length adj = length ls -> op_safe L k o xs adj ->
  all_good (6 + 2 * k) b ls (op_slopes L o ks xs) adj.
Proof.
  intros HSh HL HX HB HE HA HS.
  assert (HK1 : forall f r, o = OUn f r -> exists k0 x0, ks = [k0] /\ xs = [x0]).
  { intros f r ->. cbn [op_regs length] in HL. destruct ks as [|k0 [|? ?]]; try discriminate. destruct xs as [|x0 [|? ?]]; try discriminate. eauto. }
  destruct o; cbn [op_safe] in HS; try contradiction HS; cbn [op_regs length] in HL.
  - injection HE as <-. apply (good_one _ _ _ _ (nth 0 adj c0)); auto. apply good_nil.
  - injection HE as <-. apply (good_one _ _ _ _ (nth 0 adj c0)); auto. apply good_nil.
  - destruct (HK1 u a eq_refl) as (k0 & x & -> & ->). clear HK1. cbn [nth] in HS.
    assert (HB0 : (k0 < b)%nat) by (inversion HB; auto).
    assert (HG : forall v (f : binary64 -> binary64) c, (fin (f (nth 0 adj c0)) = true -> near (6 + 2 * k) (rl (f (nth 0 adj c0))) (c * rl (nth 0 adj c0))) ->
      all_good (6 + 2 * k) b [@mkLine BN v (fun a => [(k0, f a)])] [[(k0, c)]] adj).
    { intros v f c H. apply (good_one _ _ _ _ (nth 0 adj c0)); auto. split; [|split].
      - intros p [<- | []]. exact HB0.
      - intros z. reflexivity.
      - constructor; [exact H|constructor]. }
    destruct u; try contradiction HS; try (injection HE as <-; apply HG; intros HF; apply (un_fine_near k _ x _ HS HF));
      try (unfold step in HE; cbn [nth] in HE; match type of HE with context [@un_records ?N ?u ?z] => destruct (@un_records N u z); [|destruct (@is_nan_d N z); discriminate] end;
           injection HE as <-; apply HG; intros HF; apply (un_fine_near k _ x _ HS HF)).
    cbn [step nth] in HE. unfold abs_line in HE. cbn [op_slopes nth].
    change (@flt BN) with b_lt in HE. change (@f0 BN) with c0 in HE.
    destruct (b_lt c0 x) eqn:E1; [discriminate|]. destruct (b_lt x c0) eqn:E2.
    + injection HE as <-. apply HG. intros _. change (@fneg BN (nth 0 adj c0)) with (b64_opp (nth 0 adj c0)). rewrite opp_val.
      eapply near_eq; [apply near_refl|ring].
    + change (@feq BN x c0) with (b_eq x c0) in HE. rewrite (cmp_zero x HS E1 E2) in HE. injection HE as <-.
      apply (good_one _ _ _ _ (nth 0 adj c0)); auto. apply good_nil.
  - destruct ks as [|k0 [|k1 [|? ?]]]; try discriminate. destruct xs as [|x0 [|x1 [|? ?]]]; try discriminate. cbn [nth] in HS.
    injection HE as <-. cbn [op_slopes nth]. destruct (bin_slopes b0 (rl x0) (rl x1)) as [d e] eqn:ES.
    apply (good_one _ _ _ _ (nth 0 adj c0)); auto. refine (good_comb (6 + 2 * k) b (@bin_value BN b0 x0 x1) [k0; k1] (fun a => @vv_step BN b0 x0 x1 (@bin_value BN b0 x0 x1) a) [d; e] _ HB _ _).
    + intros z. exact (vv_len L k _ _ _ _ HS _ z).
    + destruct (acc_vv L k b0 x0 x1 _ HS) as (p & q & d' & e' & EV & D1 & D2 & N1 & N2). rewrite EV.
      destruct (bin_slopes_derive b0 (rl x0) (rl x1)) as [D3 D4]; [exact (vv_in L k _ _ _ _ HS)|].
      rewrite ES in D3, D4. cbn [fst snd] in D3, D4.
      constructor; [|constructor; [|constructor]]; intros HF; (apply (near_mono (bin_rounds k b0)); [destruct b0; cbn; lia|]).
      * exact (near_slope _ _ _ _ _ _ _ D1 D3 (N1 HF)).
      * exact (near_slope _ _ _ _ _ _ _ D2 D4 (N2 HF)).
  - destruct ks as [|k0 [|? ?]]; try discriminate. destruct xs as [|x0 [|? ?]]; try discriminate.
    cbn [step nth] in HE. destruct (vd_records b0 d); [|discriminate]. injection HE as <-. cbn [op_slopes nth].
    apply (good_one _ _ _ _ (nth 0 adj c0)); auto. refine (good_comb (6 + 2 * k) b (@vd_value BN b0 x0 d) [k0] (fun a => @vd_step BN b0 x0 d (@vd_value BN b0 x0 d) a) [fst (bin_slopes b0 (rl x0) (rl d))] _ HB _ _).
    + intros z. exact (vd_len L k _ _ _ _ HS _ z).
    + destruct (acc_vd L k b0 x0 d _ HS) as (p & e & EV & D1 & N1). rewrite EV.
      destruct (bin_slopes_derive b0 (rl x0) (rl d)) as [D3 D4]; [exact (vd_in L k _ _ _ _ HS)|].
      constructor; [|constructor]; intros HF; apply (near_mono (1 + bin_rounds k b0)); [destruct b0; cbn; lia|].
      exact (near_slope _ _ _ _ _ _ _ D1 D3 (N1 HF)).
  - destruct ks as [|k0 [|? ?]]; try discriminate. destruct xs as [|x0 [|? ?]]; try discriminate. cbn [nth] in HS.
    cbn [step nth] in HE. destruct (dv_records b0 d); [|discriminate]. injection HE as <-. cbn [op_slopes nth].
    apply (good_one _ _ _ _ (nth 0 adj c0)); auto. refine (good_comb (6 + 2 * k) b (@dv_value BN b0 d x0) [k0] (fun a => @dv_step BN b0 d x0 (@dv_value BN b0 d x0) a) [snd (bin_slopes b0 (rl d) (rl x0))] _ HB _ _).
    + intros z. exact (dv_len L k _ _ _ _ HS _ z).
    + destruct (acc_dv L k b0 d x0 _ HS) as (p & e & EV & D1 & N1). rewrite EV.
      destruct (bin_slopes_derive b0 (rl d) (rl x0)) as [D3 D4]; [exact (dv_in L k _ _ _ _ HS)|].
      constructor; [|constructor]; intros HF; (apply (near_mono (bin_rounds k b0)); [destruct b0; cbn; lia|]).
      exact (near_slope _ _ _ _ _ _ _ D1 D4 (N1 HF)).
  - injection HE as <-. apply (good_one _ _ _ _ (nth 0 adj c0)); auto. cbn [op_slopes].
    apply (good_comb _ _ _ _ (fun a => map (fun _ => a) xs)); auto.
    + intros z. rewrite !map_length. reflexivity.
    + clear. induction xs as [|x xs IH]; constructor; auto. intros _. rewrite Rmult_1_l. apply near_refl.
  - injection HE as <-. apply (good_one _ _ _ _ (nth 0 adj c0)); auto. cbn [op_slopes].
    apply (good_comb _ _ _ _ (fun a => map (fun x => b64_div rne (b64_mult rne a x) (l_norm2 L xs)) xs)); auto.
    + intros z. rewrite !map_length. reflexivity.
    + cbn [nth] in HS. generalize (norm_of xs), (l_norm2 L xs), HS. clear. intros e v HS. induction HS as [|x xs Hx _ IH]; [constructor|]. cbn [map]. constructor; [|exact IH].
      intros HF. apply (near_mono (2 + k)); [lia|]. apply acc_ratio; assumption.
  - injection HE as <-. apply (good_one _ _ _ _ (nth 0 adj c0)); auto. cbn [op_slopes].
    apply (good_comb _ _ _ _ (fun a => map (@fmul BN a) (skipn (length l1) xs) ++ map (@fmul BN a) (firstn (length l1) xs))); auto.
    + intros z. rewrite map_length, !app_length, !map_length. reflexivity.
    + rewrite <- map_app. apply mul_f2; [lia|]. rewrite <- (firstn_skipn (length l1) xs) in HS. unfold mul_safe in *.
      apply Forall_app in HS. apply Forall_app. tauto.
  - injection HE as <-. apply (good_one _ _ _ _ (nth 0 adj c0)); auto. cbn [op_slopes].
    apply (good_comb _ _ _ _ (fun a => map (@fmul BN a) d)); auto; [intros z; rewrite !map_length; reflexivity|apply mul_f2; [lia|exact HS]].
  - injection HE as <-. apply (good_one _ _ _ _ (nth 0 adj c0)); auto. cbn [op_slopes].
    apply (good_comb _ _ _ _ (fun a => map (@fmul BN a) d)); auto; [intros z; rewrite !map_length; reflexivity|apply mul_f2; [lia|exact HS]].
  - injection HE as <-. destruct HSh as (HA1 & HB1 & _). rewrite map_length in HA. rewrite app_length in HL.
    assert (LA : length (firstn (length a) ks) = (m * k0)%nat) by (rewrite firstn_length; lia).
    assert (LB : length (skipn (length a) ks) = (k0 * n)%nat) by (rewrite skipn_length; lia).
    cbn [op_slopes]. apply (good_many _ _ _ _ _ _ (0%nat, 0%nat)); auto. intros q [i j] Hq Hin. destruct (in_entries m n i j q Hq) as [Hi Hj].
    rewrite Forall_forall in HS, HB. pose proof (HS _ Hin) as HM. rewrite <- (firstn_skipn (length a) xs) in HM. unfold mul_safe in HM.
    apply Forall_app in HM. destruct HM as [HM1 HM2]. rewrite <- (firstn_skipn (length a) ks) in HB.
    apply (good_app _ _ _ (fun z => combine (row 0%nat m k0 i (firstn (length a) ks)) (map (@fmul BN z) (col c0 k0 j (skipn (length a) xs))))
      (fun z => combine (col 0%nat k0 j (skipn (length a) ks)) (map (@fmul BN z) (row c0 m k0 i (firstn (length a) xs))))).
    + apply (good_comb _ _ _ _ (fun z => map (@fmul BN z) (col c0 k0 j (skipn (length a) xs)))).
      * apply Forall_forall. intros z Hz. apply HB, in_app_iff. left. eapply in_row; eauto.
      * intros z. rewrite !map_length. reflexivity.
      * apply mul_f2; [lia|]. apply safe_col. exact HM2.
    + apply (good_comb _ _ _ _ (fun z => map (@fmul BN z) (row c0 m k0 i (firstn (length a) xs)))).
      * apply Forall_forall. intros z Hz. apply HB, in_app_iff. right. eapply in_col; eauto.
      * intros z. rewrite !map_length. reflexivity.
      * apply mul_f2; [lia|]. apply safe_row. exact HM1.
  - injection HE as <-. destruct HSh as (HA1 & HB1 & _). rewrite map_length in HA.
    cbn [op_slopes]. apply (good_many _ _ _ _ _ _ (0%nat, 0%nat)); auto. intros q [i j] Hq Hin. destruct (in_entries m n i j q Hq) as [Hi Hj].
    rewrite Forall_forall in HS, HB. pose proof (HS _ Hin) as HM.
    apply (good_comb _ _ _ _ (fun z => map (@fmul BN z) (col c0 k0 j b0))).
    + apply Forall_forall. intros z Hz. apply HB. eapply in_row; [|exact Hi|exact Hz]. lia.
    + intros z. rewrite !map_length. reflexivity.
    + apply mul_f2; [lia|]. apply safe_col. exact HM.
  - injection HE as <-. destruct HSh as (HA1 & HB1 & _). rewrite map_length in HA.
    cbn [op_slopes]. apply (good_many _ _ _ _ _ _ (0%nat, 0%nat)); auto. intros q [i j] Hq Hin. destruct (in_entries m n i j q Hq) as [Hi Hj].
    rewrite Forall_forall in HS, HB. pose proof (HS _ Hin) as HM.
    apply (good_comb _ _ _ _ (fun z => map (@fmul BN z) (row c0 m k0 i a))).
    + apply Forall_forall. intros z Hz. apply HB. eapply in_col; [|exact Hj|exact Hz]. lia.
    + intros z. rewrite !map_length. reflexivity.
    + apply mul_f2; [lia|]. apply safe_row. exact HM.
  - injection HE as <-. apply (good_one _ _ _ _ (nth 0 adj c0)); auto. cbn [op_slopes].
    apply (good_comb _ _ _ _ (fun a => map (@fmul BN a) (p xs))); auto; [intros z; rewrite !map_length; reflexivity|apply mul_f2; [lia|exact HS]].
Qed.
End Op.

Section Fn.
Context (L : Libm).
Local Notation BN := (B64 L).

(* lines and slopes side by side *)
Definition so_far (m : nat) (adj : nat -> binary64) (t : list (@line BN)) (w : list (list (nat * R))) : Prop :=
  length w = length t /\ forall k, (k < length t)%nat -> good_line L m k (nth k t (@given BN c0)) (nth k w []) (adj k).

Lemma far_app m adj t w ls v : so_far m adj t w -> all_good L m (length t) ls v (map adj (seq (length t) (length ls))) -> so_far m adj (t ++ ls) (w ++ v).
Proof.
  intros [H1 H2] [H3 H4]. split; [rewrite !app_length; lia|]. rewrite app_length. intros k Hk.
  destruct (Nat.lt_ge_cases k (length t)) as [Q|Q].
  - rewrite !app_nth1 by lia. auto.
  - rewrite !app_nth2 by lia. rewrite H1. specialize (H4 (k - length t)%nat ltac:(lia)).
    rewrite (nth_indep _ c0 (adj 0%nat)) in H4 by (rewrite map_length, seq_length; lia). rewrite map_nth, seq_nth in H4 by lia.
    replace (length t + (k - length t))%nat with k in H4 by lia.
    destruct H4 as (A & B & D). split; [|split; auto]. intros p Hp. specialize (A p Hp). lia.
Qed.

Theorem fn_far k adj (f : @fn BN) : forall rs t w ys t', Forall (fun r => (r < length t)%nat) rs -> well_formed f rs t -> fn_safe L k adj f rs t ->
  trace f rs t = Some (ys, t') -> so_far (6 + 2 * k) adj t w -> so_far (6 + 2 * k) adj t' (fn_slopes L f rs t w).
Proof.
  induction f as [zs|o g IH|q a c g IH|q a d g IH]; intros rs t w ys t' HR HW HS HT HF.
  - cbn [trace] in HT. injection HT as _ <-. exact HF.
  - cbn [trace well_formed fn_safe fn_slopes] in *. destruct HW as (W1 & W2 & W3 & W4).
    set (ks := lines_at rs (op_regs o)) in *. set (xs := map (@value BN t) ks) in *.
    assert (HK : Forall (fun r => (r < length t)%nat) ks) by (apply lines_lt; auto).
    assert (LK : length ks = length (op_regs o)) by (unfold ks, lines_at; apply map_length).
    destruct (@step BN o ks xs) as [ls| |] eqn:ES; [| |discriminate].
    + destruct HS as [S1 S2]. apply (IH _ _ _ ys); auto.
      * apply Forall_app. split; [eapply Forall_impl; [|exact HR]; cbv beta; intros; rewrite app_length; lia|].
        apply Forall_forall. intros z Hz. apply in_seq in Hz. rewrite app_length. lia.
      * apply far_app; auto. apply op_good; auto; [unfold xs; apply map_length|rewrite map_length, seq_length; reflexivity].
    + apply (IH _ _ _ ys); auto. apply Forall_app; auto.
  - cbn [trace well_formed fn_safe fn_slopes] in *. eapply IH; eauto; tauto.
  - cbn [trace well_formed fn_safe fn_slopes] in *. eapply IH; eauto; tauto.
Qed.

Lemma given_far m adj (xs : list binary64) : so_far m adj (map (@given BN) xs) (map (fun _ => []) xs).
Proof.
  split; [rewrite !map_length; reflexivity|]. rewrite map_length. intros k Hk.
  replace (nth k (map (fun _ : binary64 => []) xs) []) with (@nil (nat * R)).
  - rewrite (map_nth (@given BN)). apply good_nil.
  - clear. revert k. induction xs as [|x xs IH]; intros [|k]; cbn [map nth]; auto.
Qed.

Theorem fn_sloped k (xs : list binary64) (f : @fn BN) y ys t : let t0 := map (@given BN) xs in let rs := seq 0 (length xs) in
  well_formed f rs t0 -> trace f rs t0 = Some (ys, t) -> fn_safe L k (@reverse BN t (seed y)) f rs t0 ->
  sloped L (6 + 2 * k) t (fn_slopes L f rs t0 (map (fun _ => []) xs)) y.
Proof.
  intros t0 rs HW HT HS.
  assert (HR : Forall (fun r => (r < length t0)%nat) rs).
  { apply Forall_forall. intros z Hz. apply in_seq in Hz. unfold t0. rewrite map_length. exact (proj2 Hz). }
  destruct (fn_far k (@reverse BN t (seed y)) f rs t0 _ ys t HR HW HS HT (given_far (6 + 2 * k) (@reverse BN t (seed y)) xs)) as [H1 H2].
  constructor; [exact H1| | |].
  - intros j p Hj Hp. apply (H2 j Hj); auto.
  - intros j Hj. apply (H2 j Hj).
  - intros j Hj. apply (H2 j Hj).
Qed.
End Fn.

Theorem gradient_near (L : Libm) (C : Cfg (B64 L)) env0 (s : @st (B64 L)) env ws xs (f : @fn (B64 L)) y ys t k :
  @practical (B64 L) C -> reachable env0 s -> (s_lvl s < 10)%Z -> Forall (alive s) env -> mapM (var_val s) env = Ok ws ->
  let t0 := map given (ws ++ xs) in let rs := seq 0 (length ws + length xs) in let n := (6 * zlen xs + cost f rs t0)%Z in
  well_formed f rs t0 -> roomy s n -> ~ exactly_full s n -> trace f rs t0 = Some (y :: ys, t) ->
  (forall i, (i < length t)%nat -> fin (@reverse (B64 L) t (seed y) i) = true) -> fn_safe L k (@reverse (B64 L) t (seed y)) f rs t0 ->
  let w := fn_slopes L f rs t0 (map (fun _ => []) (ws ++ xs)) in
  exists v ds s', gradient (fun xv => call_fn1 f (env ++ xv)) xs s = Ok (v :: ds, s') /\ length ds = length xs /\
    forall i d, nth_error ds i = Some d ->
      Rabs (rl d - slope_of w y (length ws + i)) <= ((1 + roundoff) ^ ((6 + 2 * k) * length t + count w) - 1) * size_of w y (length ws + i).
Proof.
  intros HP HR HL HA HV t0 rs n HW HM HE HT HF HS w. apply (gradient_accurate L C env0 s env ws xs f y ys t); auto.
  unfold w, rs. rewrite <- app_length. apply (fn_sloped L k (ws ++ xs) f y (y :: ys) t); rewrite ?app_length; auto.
Qed.

Theorem jacobian_near (L : Libm) (C : Cfg (B64 L)) env0 (s : @st (B64 L)) env ws xs (f : @fn (B64 L)) ys t k :
  @practical (B64 L) C -> reachable env0 s -> (s_lvl s < 10)%Z -> Forall (alive s) env -> mapM (var_val s) env = Ok ws ->
  let t0 := map given (ws ++ xs) in let rs := seq 0 (length ws + length xs) in let n := (6 * zlen xs + cost f rs t0)%Z in
  well_formed f rs t0 -> roomy s n -> ~ exactly_full s n -> trace f rs t0 = Some (ys, t) -> ys <> [] ->
  (forall y i, In y ys -> (i < length t)%nat -> fin (@reverse (B64 L) t (seed y) i) = true) ->
  (forall y, In y ys -> fn_safe L k (@reverse (B64 L) t (seed y)) f rs t0) ->
  let w := fn_slopes L f rs t0 (map (fun _ => []) (ws ++ xs)) in
  exists rows s', jacobian (fun xv => call_fn f (env ++ xv)) xs s = Ok (rows, s') /\
    Forall2 (fun y row => exists v ds, row = v :: ds /\ length ds = length xs /\
      forall i d, nth_error ds i = Some d ->
        Rabs (rl d - slope_of w y (length ws + i)) <= ((1 + roundoff) ^ ((6 + 2 * k) * length t + count w) - 1) * size_of w y (length ws + i)) ys rows.
Proof.
  intros HP HR HL HA HV t0 rs n HW HM HE HT HN HF HS w.
  destruct (jacobian_reverse s env ws xs f ys t HP (reach_snd env0 s HP HR) HL HA HV HW HM HE HT HN) as (s' & E).
  eexists. exists s'. split; [exact E|]. clear E HN.
  assert (HQ : forall y, In y ys -> sloped L (6 + 2 * k) t w y).
  { intros y Hy. unfold w, rs. rewrite <- app_length. apply (fn_sloped L k (ws ++ xs) f y ys t); rewrite ?app_length; auto. }
  clear HT HS. induction ys as [|y ys IH]; [constructor|]. cbn [map]. constructor.
  - eexists. eexists. split; [reflexivity|]. split; [rewrite map_length, seq_length; reflexivity|].
    intros i d Hd. rewrite nth_error_map in Hd. destruct (nth_error (seq (length ws) (length xs)) i) as [j|] eqn:Ek; [|discriminate].
    injection Hd as <-. assert (Hi : (i < length xs)%nat) by (rewrite <- (seq_length (length xs) (length ws)); apply nth_error_Some; congruence).
    rewrite (nth_error_nth' _ 0%nat) in Ek by (rewrite seq_length; exact Hi). rewrite seq_nth in Ek by exact Hi. injection Ek as <-.
    apply (reverse_accurate L (6 + 2 * k) t w y); [apply HQ; left; reflexivity|]. intros j Hj. apply HF; [left; reflexivity|exact Hj].
  - apply IH; intros; [apply HF|apply HQ]; auto; right; assumption.
Qed.

(* the factor in the bound *)
Theorem small_bound n : INR n * roundoff <= / 2 -> (1 + roundoff) ^ n - 1 <= 2 * (INR n * roundoff).
Proof.
  intros H. pose proof ro_pos as P. assert (HR : roundoff < 1) by (apply (bpow_lt radix2 (-53) 0); lia).
  assert (B : 1 - INR n * roundoff <= (1 - roundoff) ^ n).
  { clear H. induction n as [|n IH]; [cbn; lra|]. cbn [pow]. rewrite S_INR.
    apply Rle_trans with ((1 - roundoff) * (1 - INR n * roundoff)).
    - pose proof (pos_INR n). assert (0 <= roundoff * (INR n * roundoff)) by (apply Rmult_le_pos; [lra|apply Rmult_le_pos; lra]). lra.
    - apply Rmult_le_compat_l; [lra|exact IH]. }
  assert (Q : (1 + roundoff) ^ n * (1 - roundoff) ^ n <= 1).
  { rewrite <- Rpow_mult_distr. apply Rle_trans with (1 ^ n); [|rewrite pow1; lra]. apply pow_incr. split; [apply Rmult_le_pos; lra|]. assert (0 <= roundoff * roundoff) by (apply Rmult_le_pos; lra). lra. }
  pose proof (pos_INR n) as HN. assert (H0 : 0 <= INR n * roundoff) by (apply Rmult_le_pos; lra).
  set (z := INR n * roundoff) in *. set (g := (1 + roundoff) ^ n) in *. assert (G : 0 < g) by apply g_pos.
  assert (Q2 : g * (1 - z) <= 1) by (eapply Rle_trans; [|exact Q]; apply Rmult_le_compat_l; lra).
  apply (Rmult_le_reg_r (1 - z)); [lra|]. nra.
Qed.

(* without the bound on underflow and cancellation: asin'(x) at x = 1 - 2^-27 *)
Definition near1 : binary64 := b64_of_bits (1023 * 2 ^ 52 - 2 ^ 26).
Definition c8192 : binary64 := b64_of_bits (1036 * 2 ^ 52).
Theorem asin_loses (L : Libm) :
  seen L [COp (@OVar (B64 L) near1); COp (OUn UAsin 0); CGrad 1; CAdj 0] = Findings.num c8192 :: nil /\
  rl near1 = 1 - bpow radix2 (-27) /\ rl c8192 = 8192 /\
  exists d, is_derive asin (rl near1) d /\ bpow radix2 (-30) * d < Rabs (8192 - d).
Proof.
  assert (E1 : rl near1 = 1 - bpow radix2 (-27)).
  { vm_compute. lra. }
  assert (E2 : rl c8192 = 8192) by (vm_compute; lra).
  split; [vm_compute; reflexivity|]. split; [exact E1|]. split; [exact E2|].
  assert (HB : bpow radix2 (-27) = / 134217728) by reflexivity.
  assert (HX : -1 < rl near1 < 1) by (rewrite E1, HB; lra).
  exists (1 / sqrt (1 - rl near1 * rl near1)). split; [apply d_asin; exact HX|]. rewrite E1, HB.
  set (q := 1 - (1 - / 134217728) * (1 - / 134217728)). assert (Hq : q = / 67108864 - / 18014398509481984) by (unfold q; field).
  assert (P : 0 < q) by (rewrite Hq; lra). pose proof (sqrt_lt_R0 _ P) as PS.
  assert (SQ : sqrt q * sqrt q = q) by (apply sqrt_sqrt; lra).
  set (r := sqrt q) in *. change (bpow radix2 (-30)) with (/ 1073741824).
  assert (Hr : r < / 8192 * (1 - / 1000000000)).
  { apply Rnot_le_lt. intros Q. assert (/ 8192 * (1 - / 1000000000) * (/ 8192 * (1 - / 1000000000)) <= r * r) by (apply Rmult_le_compat; lra). rewrite SQ, Hq in H. lra. }
  assert (Hd : 8192 * (1 + / 1000000000) < 1 / r).
  { apply (Rmult_lt_reg_r r); [lra|]. replace (1 / r * r) with 1 by (field; lra). nra. }
  rewrite Rabs_minus_sym, Rabs_pos_eq by lra.
  assert (1 / r < 8193 * 1000000000).
  { apply (Rmult_lt_reg_r r); [lra|]. replace (1 / r * r) with 1 by (field; lra).
    assert (/ 16384 <= r) by (apply Rnot_lt_le; intros Z; assert (r * r < / 16384 * / 16384) by (apply Rmult_le_0_lt_compat; lra); rewrite SQ, Hq in H; lra). nra. }
  lra.
Qed.

(* numbers between 2^-300 and 2^300: products and quotients are clear (for examples) *)
Definition lo300 : binary64 := b64_of_bits (723 * 2 ^ 52).
Definition hi300 : binary64 := b64_of_bits (1323 * 2 ^ 52).
Definition mid (x : binary64) : bool := fin x && b_le lo300 (b64_abs x) && b_le (b64_abs x) hi300.
Lemma mid_ok x : mid x = true -> bpow radix2 (-300) <= Rabs (rl x) <= bpow radix2 300.
Proof.
  unfold mid. rewrite !andb_true_iff. intros [[H1 H2] H3].
  assert (A : fin (b64_abs x) = true) by (unfold b64_abs; rewrite Binary.is_finite_Babs; exact H1).
  apply Claims_expect.b_le_fin in H2; [|vm_compute; reflexivity|exact A]. apply Claims_expect.b_le_fin in H3; [|exact A|vm_compute; reflexivity].
  rewrite Claims_expect.abs_val in H2, H3.
  assert (E1 : rl lo300 = bpow radix2 (-300)) by (vm_compute; lra). assert (E2 : rl hi300 = bpow radix2 300) by (vm_compute; lra).
  rewrite E1 in H2. rewrite E2 in H3. split; assumption.
Qed.
Lemma mid_mul x y : mid x = true -> mid y = true -> clear (rl x * rl y).
Proof.
  intros H1%mid_ok H2%mid_ok. right. rewrite Rabs_mult. apply Rle_trans with (bpow radix2 (-300) * bpow radix2 (-300)).
  - rewrite <- bpow_plus. apply bpow_le. lia.
  - pose proof (bpow_gt_0 radix2 (-300)). apply Rmult_le_compat; lra.
Qed.
Lemma mid_nz x : mid x = true -> rl x <> 0.
Proof. intros H%mid_ok E. rewrite E, Rabs_R0 in H. pose proof (bpow_gt_0 radix2 (-300)). lra. Qed.
Lemma mid_div x y : mid x = true -> mid y = true -> clear (rl x / rl y).
Proof.
  intros H1%mid_ok H2. pose proof (mid_nz y H2) as Hz. apply mid_ok in H2. right. unfold Rdiv. rewrite Rabs_mult, Rabs_inv.
  apply Rle_trans with (bpow radix2 (-300) * bpow radix2 (-300)).
  - rewrite <- bpow_plus. apply bpow_le. lia.
  - pose proof (bpow_gt_0 radix2 (-300)). apply Rmult_le_compat; try lra. change (bpow radix2 (-300)) with (bpow radix2 (- (300))%Z). replace (bpow radix2 (- (300))%Z) with (/ bpow radix2 300) by (symmetry; apply bpow_opp). apply Rinv_le_contravar; [apply Rabs_pos_lt; exact Hz|lra].
Qed.
Lemma mid_pos x : fin x = true -> b_le lo300 x = true -> 0 < rl x.
Proof.
  intros F H. apply Claims_expect.b_le_fin in H; [|vm_compute; reflexivity|exact F].
  assert (E1 : rl lo300 = bpow radix2 (-300)) by (vm_compute; lra). rewrite E1 in H. pose proof (bpow_gt_0 radix2 (-300)). lra.
Qed.
