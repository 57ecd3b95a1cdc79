(* C59.
   Vocabulary (beyond that of Properties_reverse).
   AccSpec.v: [fin x] x is neither infinite nor NaN; [rl x] the real number a binary64
   number is; [roundoff] 2^-53; [near m x e]: x is e up to m roundings; [clear e]: e is 0
   or not in the range of underflow; [slope_of w y i]: reverse accumulation over the reals
   with the slopes w, the derivative of line y by line i; [size_of w y i] the same sum with
   all its terms made positive; [count w] the number of slopes; [fn_slopes]: the slopes of
   the lines a function records, which are the derivatives of its operations (see
   C59_unary_slopes and C59_binary_slopes) at the values computed; [fn_safe k adj]: no step
   of the function underflows or divides by zero, it calls functions from the tables
   [un_fine], [vv_fine], [vd_fine], [dv_fine], sums, norms and products only, and the intrinsic
   functions that give a derivative are right up to k roundings.  [sloped m t w y]: the
   lines t, one by one, are accurate up to m roundings. *)
From Coq Require Import Reals Lra ZifyBool ZifyNat.
From Flocq Require Import Core IEEE754.BinarySingleNaN IEEE754.Binary IEEE754.Bits.
From Coquelicot Require Import Coquelicot.
From Verif Require Import TapeFacts.
From Verif Require Export Claims_acc4 Properties_reverse.
Import ListNotations.
Local Open Scope R_scope.

(* ---- C59 ---- *)
Theorem C59_gradient (L : Libm) (C : Cfg (B64 L)) env0 (s : @st (B64 L)) env ws xs (f : @fn (B64 L)) y ys t k :
  @practical (B64 L) C -> reachable env0 s -> (s_lvl s < 10)%Z -> Forall (alive s) env -> mapM (var_val s) env = Ok ws ->
  let t0 := map given (ws ++ xs) in let rs := seq 0 (length ws + length xs) in let n := (6 * zlen xs + cost f rs t0)%Z in
  well_formed f rs t0 -> roomy s n -> ~ exactly_full s n -> trace f rs t0 = Some (y :: ys, t) ->
  (forall i, (i < length t)%nat -> fin (@reverse (B64 L) t (seed y) i) = true) -> fn_safe L k (@reverse (B64 L) t (seed y)) f rs t0 ->
  let w := fn_slopes L f rs t0 (map (fun _ => []) (ws ++ xs)) in
  exists v ds s', gradient (fun xv => call_fn1 f (env ++ xv)) xs s = Ok (v :: ds, s') /\ length ds = length xs /\
    forall i d, nth_error ds i = Some d ->
      Rabs (rl d - slope_of w y (length ws + i)) <= ((1 + roundoff) ^ ((6 + 2 * k) * length t + count w) - 1) * size_of w y (length ws + i).
Proof. exact (gradient_near L C env0 s env ws xs f y ys t k). Qed.
Print Assumptions C59_gradient.
Theorem C59_jacobian (L : Libm) (C : Cfg (B64 L)) env0 (s : @st (B64 L)) env ws xs (f : @fn (B64 L)) ys t k :
  @practical (B64 L) C -> reachable env0 s -> (s_lvl s < 10)%Z -> Forall (alive s) env -> mapM (var_val s) env = Ok ws ->
  let t0 := map given (ws ++ xs) in let rs := seq 0 (length ws + length xs) in let n := (6 * zlen xs + cost f rs t0)%Z in
  well_formed f rs t0 -> roomy s n -> ~ exactly_full s n -> trace f rs t0 = Some (ys, t) -> ys <> [] ->
  (forall y i, In y ys -> (i < length t)%nat -> fin (@reverse (B64 L) t (seed y) i) = true) ->
  (forall y, In y ys -> fn_safe L k (@reverse (B64 L) t (seed y)) f rs t0) ->
  let w := fn_slopes L f rs t0 (map (fun _ => []) (ws ++ xs)) in
  exists rows s', jacobian (fun xv => call_fn f (env ++ xv)) xs s = Ok (rows, s') /\
    Forall2 (fun y row => exists v ds, row = v :: ds /\ length ds = length xs /\
      forall i d, nth_error ds i = Some d ->
        Rabs (rl d - slope_of w y (length ws + i)) <= ((1 + roundoff) ^ ((6 + 2 * k) * length t + count w) - 1) * size_of w y (length ws + i)) ys rows.
Proof. exact (jacobian_near L C env0 s env ws xs f ys t k). Qed.
Print Assumptions C59_jacobian.
(* the factor is at most twice the number of roundings times 2^-53 *)
Theorem C59_factor n : INR n * roundoff <= / 2 -> (1 + roundoff) ^ n - 1 <= 2 * (INR n * roundoff).
Proof. exact (small_bound n). Qed.
Print Assumptions C59_factor.
(* any lines with accurate steps *)
Theorem C59_lines (L : Libm) m (t : list (@line (B64 L))) w y : sloped L m t w y ->
  (forall i, (i < length t)%nat -> fin (@reverse (B64 L) t (seed y) i) = true) -> forall i,
  Rabs (rl (@reverse (B64 L) t (seed y) i) - slope_of w y i) <= ((1 + roundoff) ^ (m * length t + count w) - 1) * size_of w y i.
Proof. exact (reverse_accurate L m t w y). Qed.
Print Assumptions C59_lines.
(* one step of each operation against the derivative of the mathematical function *)
Theorem C59_unary (L : Libm) k f (x a : binary64) : un_fine L k f x a -> fin (@un_step (B64 L) f x (@un_value (B64 L) f x) a) = true ->
  exists d, is_derive (@un_fun (fun z => z) f) (rl x) d /\ near (un_rounds_of k f) (rl (@un_step (B64 L) f x (@un_value (B64 L) f x) a)) (d * rl a).
Proof. exact (acc_fine L k f x a). Qed.
Print Assumptions C59_unary.
Theorem C59_var_var (L : Libm) k b (x y a : binary64) : vv_fine L k b x y a -> exists p q d e,
  @vv_step (B64 L) b x y (@bin_value (B64 L) b x y) a = [p; q] /\
  is_derive (fun t => bin_fun b t (rl y)) (rl x) d /\ is_derive (fun t => bin_fun b (rl x) t) (rl y) e /\
  (fin p = true -> near (bin_rounds k b) (rl p) (d * rl a)) /\ (fin q = true -> near (bin_rounds k b) (rl q) (e * rl a)).
Proof. exact (acc_vv L k b x y a). Qed.
Print Assumptions C59_var_var.
Theorem C59_var_real (L : Libm) k b (x d a : binary64) : vd_fine L k b x d a -> exists p e,
  @vd_step (B64 L) b x d (@vd_value (B64 L) b x d) a = p :: nil /\ is_derive (fun t => bin_fun b t (rl d)) (rl x) e /\
  (fin p = true -> near (1 + bin_rounds k b) (rl p) (e * rl a)).
Proof. exact (acc_vd L k b x d a). Qed.
Print Assumptions C59_var_real.
Theorem C59_real_var (L : Libm) k b (d x a : binary64) : dv_fine L k b d x a -> exists p e,
  @dv_step (B64 L) b d x (@dv_value (B64 L) b d x) a = p :: nil /\ is_derive (fun t => bin_fun b (rl d) t) (rl x) e /\
  (fin p = true -> near (bin_rounds k b) (rl p) (e * rl a)).
Proof. exact (acc_dv L k b d x a). Qed.
Print Assumptions C59_real_var.
(* [slope_of] is the chain rule: if the rates z of the lines follow the slopes, the rate of
   line y is the sum of slope times rate over the lines without operands *)
Theorem C59_chain_rule (w : list (list (nat * R))) (z : nat -> R) y : (y < length w)%nat ->
  (forall k p, In p (nth k w []) -> (fst p < k)%nat) ->
  (forall k, nth k w [] <> [] -> z k = tangent (nth k w []) z) ->
  z y = sumto (fun i => match nth i w [] with [] => slope_of w y i * z i | _ => 0 end) (length w).
Proof. exact (chain_rule w z y). Qed.
Print Assumptions C59_chain_rule.
(* the slopes are derivatives *)
Theorem C59_unary_slopes f x : un_slope_at f x -> is_derive (@un_fun (fun z => z) f) x (un_slope f x).
Proof. exact (un_slope_derive f x). Qed.
Print Assumptions C59_unary_slopes.
Theorem C59_binary_slopes b x y : vv_dom b x y ->
  is_derive (fun t => bin_fun b t y) x (fst (bin_slopes b x y)) /\ is_derive (fun t => bin_fun b x t) y (snd (bin_slopes b x y)).
Proof. exact (bin_slopes_derive b x y). Qed.
Print Assumptions C59_binary_slopes.
(* not so for asin: at 1 - 2^-27 the adjoint the program reports has lost half its digits *)
Theorem C59_asin_refuted (L : Libm) :
  seen L [COp (@OVar (B64 L) near1); COp (OUn UAsin 0); CGrad 1; CAdj 0] = Findings.num c8192 :: nil /\
  rl near1 = 1 - bpow radix2 (-27) /\ rl c8192 = 8192 /\
  exists d, is_derive asin (rl near1) d /\ bpow radix2 (-30) * d < Rabs (8192 - d).
Proof. exact (asin_loses L). Qed.
Print Assumptions C59_asin_refuted.

(* ---- cases meeting the hypotheses ---- *)
Section Ex59.
Context (L : Libm).
Local Notation BN := (B64 L).
Local Notation BM := (demo (B64 L)).
Local Notation bs := (@state_of BN BM (bwork52 L)).
(* outer variables u = 3 and v = -3; f(x) = (x*u)/v + sqrt(x) at x = 3 *)
Definition f59 : @fn BN := FCall (OVV BMul 2 0) (FCall (OVV BDiv 3 1) (FCall (OUn USqrt 2) (FCall (OVV BAdd 4 5) (FRet (6%nat :: nil))))).
Definition t59 : list (@line BN) :=
  match @trace BN f59 (seq 0 3) (map (@given BN) ([c3; cm3] ++ [c3])) with Some (_, t) => t | None => [] end.
Lemma ex59_trace : @trace BN f59 (seq 0 3) (map (@given BN) ([c3; cm3] ++ [c3])) = Some (6%nat :: nil, t59).
Proof.
  assert (E : option_map fst (@trace BN f59 (seq 0 3) (map (@given BN) ([c3; cm3] ++ [c3]))) = Some (6%nat :: nil)) by (vm_compute; reflexivity).
  unfold t59. destruct (@trace BN f59 (seq 0 3) (map (@given BN) ([c3; cm3] ++ [c3]))) as [[ys t]|]; [|discriminate E].
  cbn [option_map fst] in E. congruence.
Qed.
Definition a59 : nat -> binary64 := @reverse BN t59 (seed 6).
Lemma ex59_fin i : (i < length t59)%nat -> fin (a59 i) = true.
Proof.
  assert (E : length t59 = 7%nat) by (vm_compute; reflexivity). rewrite E. intros H.
  do 7 (destruct i as [|i]; [vm_compute; reflexivity|]). exfalso. lia.
Qed.
Local Ltac mids := first [apply mid_mul | apply mid_div]; vm_compute; reflexivity.
Lemma ex59_safe : fn_safe L 0 a59 f59 (seq 0 3) (map (@given BN) ([c3; cm3] ++ [c3])).
Proof.
  assert (R : @un_records BN USqrt c3 = true) by (vm_compute; reflexivity).
  unfold f59. cbn [fn_safe step op_regs lines_at map nth seq length app value given l_value op_safe vv_fine vv_safe un_fine un_partner un_safe].
  rewrite R. cbn [map nth seq length]. split; [split; mids|]. split.
  - split; [apply mid_nz; vm_compute; reflexivity|]. split; [vm_compute; reflexivity|]. split; [mids|]. split; [mids|]. split; mids.
  - split; [|exact (conj I I)]. split; [apply mid_pos; vm_compute; reflexivity|]. split; [rewrite <- half_val; mids|mids].
Qed.
Lemma ex59_wf : @well_formed BN f59 (seq 0 3) (map (@given BN) ([c3; cm3] ++ [c3])).
Proof.
  assert (R : @un_records BN USqrt c3 = true) by (vm_compute; reflexivity).
  unfold f59. cbn [well_formed step op_regs lines_at map nth seq length app value given l_value]. rewrite R.
  cbn. repeat split; repeat constructor.
Qed.
Lemma ex59_words : (6 * @zlen (@F BN) [c3] + @cost BN f59 (seq 0 3) (map (@given BN) ([c3; cm3] ++ [c3])) = 37)%Z.
Proof. vm_compute; reflexivity. Qed.
Lemma ex59_room : @roomy BN bs 37 /\ ~ @exactly_full BN BM bs 37.
Proof.
  assert (H1 : (t_head (s_tape bs) = 13)%Z) by (vm_compute; reflexivity).
  assert (H2 : (t_size (s_tape bs) = 12)%Z) by (vm_compute; reflexivity).
  unfold roomy, exactly_full, storage. rewrite H1, H2. split; [lia|]. intros [_ A].
  destruct (A ltac:(lia)) as (k & Hk & _). change (@init_tape_size BN BM) with 12%Z in Hk. lia.
Qed.
Lemma ex59_slopes : fn_slopes L f59 (seq 0 3) (map (@given BN) ([c3; cm3] ++ [c3])) [[]; []; []] =
  [[]; []; []; [(2%nat, 3); (0%nat, 3)]; [(3%nat, / -3); (1%nat, - (9 / (-3 * -3)))]; (2%nat, 1 / (2 * sqrt 3)) :: nil; [(4%nat, 1); (5%nat, 1)]].
Proof.
  assert (R : @un_records BN USqrt c3 = true) by (vm_compute; reflexivity).
  assert (E1 : rl c3 = 3) by (vm_compute; lra). assert (E2 : rl cm3 = -3) by (vm_compute; lra).
  assert (E3 : rl (@bin_value BN BMul c3 c3) = 9) by (vm_compute; lra).
  unfold f59. cbn [fn_slopes step op_regs lines_at map nth seq length app value given l_value op_slopes]. rewrite R.
  cbn [map nth seq length app bin_slopes un_slope combine fn_slopes]. rewrite E1, E2, E3. reflexivity.
Qed.
(* the derivative is u/v + 1/(2 sqrt x), and no sum of terms is larger than 2 *)
Example C59_ex : exists v d s', @gradient BN BM (fun xv => @call_fn1 BN BM f59 ([1; 2]%Z ++ xv)) [c3] bs = Ok ([v; d], s') /\
  Rabs (rl d - (3 / -3 + 1 / (2 * sqrt 3))) <= bpow radix2 (-45).
Proof.
  pose proof ex59_room as [H1 H2]. rewrite <- ex59_words in H1, H2.
  destruct (C59_gradient L BM [1; 2]%Z bs [1; 2]%Z [c3; cm3] [c3] f59 6 [] t59 0 (demo_practical BN) (ex53_reach L)
    ltac:(vm_compute; reflexivity) (ex53_alive L) (ex53_vals L) ex59_wf H1 H2 ex59_trace ex59_fin ex59_safe) as (v & ds & s' & E & HD & HB).
  destruct ds as [|d [|? ?]]; try discriminate HD. exists v, d, s'. split; [exact E|].
  specialize (HB 0%nat d eq_refl).
  match type of HB with context [fn_slopes ?a ?b ?c ?d ?e] =>
    change (fn_slopes a b c d e) with (fn_slopes L f59 (seq 0 3) (map (@given BN) ([c3; cm3] ++ [c3])) [[]; []; []]) in HB end.
  rewrite ex59_slopes in HB.
  assert (E7 : length t59 = 7%nat) by (vm_compute; reflexivity). rewrite E7 in HB.
  match type of HB with context [count ?w] => change (count w) with 7%nat in HB end.
  unfold slope_of, size_of, accumulate, unit_at in HB. cbn [map length seq fold_right nth spread fold_left fst snd Nat.eqb Nat.add Nat.mul] in HB.
  assert (P : 0 < / (2 * sqrt 3) <= / 2).
  { assert (1 <= sqrt 3) by (rewrite <- sqrt_1; apply sqrt_le_1; lra). split; [apply Rinv_0_lt_compat; lra|apply Rinv_le_contravar; lra]. }
  assert (HS : (1 + roundoff) ^ 49 - 1 <= bpow radix2 (-46)).
  { assert (B : roundoff = / 9007199254740992) by reflexivity. assert (B2 : bpow radix2 (-46) = / 70368744177664) by reflexivity.
    assert (HI : INR 49 = 49) by (cbn; lra). eapply Rle_trans; [apply C59_factor|]; rewrite HI, B; rewrite ?B2; lra. }
  eapply Rle_trans; [eapply Rle_trans; [|exact HB]|].
  - apply Req_le. do 2 f_equal. field. pose proof (proj1 P) as P1. intros Z. rewrite Z, Rmult_0_r, Rinv_0 in P1. lra.
  - replace (bpow radix2 (-45)) with (bpow radix2 (-46) * 2) by (change (/ 70368744177664 * 2 = / 35184372088832); lra).
    rewrite (Rabs_pos_eq 1), (Rabs_pos_eq 3), (Rabs_pos_eq (1 / (2 * sqrt 3))), (Rabs_left (/ -3)) by lra.
    apply Rmult_le_compat; [pose proof (g_ge1 49); lra|lra|exact HS|lra].
Qed.
(* one step each; the derivative of sin at 0 is cos(0) = 1 *)
Example C59_unary_ex : un_fine L 0 UAtan c3 cm3 /\ fin (@un_step BN UAtan c3 (@un_value BN UAtan c3) cm3) = true.
Proof. split; [|vm_compute; reflexivity]. split; [vm_compute; reflexivity|]. split; mids. Qed.
(* the same of asin, acos, atanh and logit at 1/2, and of acosh at 2 *)
Definition chalf : binary64 := b64_of_bits 4602678819172646912.
Example C59_unary_half_ex : un_fine L 0 UAsin chalf cm3 /\ un_fine L 0 UAcos chalf cm3 /\ un_fine L 0 UAtanh chalf cm3 /\ un_fine L 0 ULogit chalf cm3.
Proof.
  assert (E : rl chalf = / 2) by (vm_compute; lra).
  unfold un_fine, un_safe, un_partner.
  split; [|split; [|split]]; (split; [rewrite E; lra|]; split; [vm_compute; reflexivity|]; split; mids).
Qed.
Example C59_acosh_ex : un_fine L 0 UAcosh c2 cm3.
Proof.
  assert (E : rl c2 = 2) by (vm_compute; lra). unfold un_fine, un_safe, un_partner.
  split; [rewrite E; lra|]. split; [rewrite E; lra|]. split; [vm_compute; reflexivity|mids].
Qed.
Example C59_unary_lib_ex : l_cos L c0 = B64.c1 -> un_fine L 0 USin c0 c3.
Proof. intros E. unfold un_fine, un_partner. rewrite E. change (rl c0) with 0. rewrite cos_0, one_val. split; [apply near_refl|]. rewrite <- one_val. mids. Qed.
Example C59_var_var_ex : vv_fine L 0 BDiv c3 cm3 c2.
Proof. split; [apply mid_nz; vm_compute; reflexivity|]. split; [vm_compute; reflexivity|]. split; [mids|]. split; [mids|]. split; mids. Qed.
Example C59_var_real_ex : vd_fine L 0 BDiv c2 c3 c2.
Proof. split; [apply mid_nz; vm_compute; reflexivity|mids]. Qed.
Example C59_real_var_ex : dv_fine L 0 BMul c3 cm3 c2.
Proof. cbn [dv_fine dv_safe]. mids. Qed.
(* hypot(3, -4) with a library that gives 5 *)
Definition cm4 : binary64 := b64_of_bits (4616189618054758400 + 2 ^ 63).
Definition c5 : binary64 := b64_of_bits 4617315517961601024.
Example C59_hypot_ex : l_hypot L c3 cm4 = c5 -> vv_fine L 0 BHypot c3 cm4 c2.
Proof.
  intros E. assert (E3 : rl c3 = 3) by (vm_compute; lra). assert (E4 : rl cm4 = -4) by (vm_compute; lra). assert (E5 : rl c5 = 5) by (vm_compute; lra).
  assert (HS : sqrt (rl c3 * rl c3 + rl cm4 * rl cm4) = rl c5) by (rewrite E3, E4, E5; replace (3 * 3 + -4 * -4) with (5 * 5) by lra; apply sqrt_square; lra).
  unfold vv_fine. rewrite HS, E. split; (split; [rewrite E5; lra|]; split; [apply near_refl|]; split; mids).
Qed.
(* y = x*x: rate of y is 2*3 times the rate of x *)
Example C59_chain_ex (dx : R) : let w := [[]; [(0%nat, 3); (0%nat, 3)]] in let z := fun i => if Nat.eqb i 0 then dx else 6 * dx in
  (forall k p, In p (nth k w []) -> (fst p < k)%nat) /\ (forall k, nth k w [] <> [] -> z k = tangent (nth k w []) z).
Proof.
  cbn zeta. split.
  - intros [|[|k]] p H; cbn in H; try contradiction; [|destruct k; contradiction]. destruct H as [<- | [<- | []]]; cbn; lia.
  - intros [|[|k]] H; cbn in *; try congruence; [lra|]. destruct k; congruence.
Qed.
Example C59_slopes_ex : un_slope_at ULog 2 /\ un_slope ULog 2 = / 2 /\ vv_dom BDiv 3 2 /\ bin_slopes BDiv 3 2 = (/ 2, - (3 / (2 * 2))).
Proof. split; [cbn; lra|]. split; [reflexivity|]. split; [cbn; lra|reflexivity]. Qed.
Example C59_factor_ex : INR 49 * roundoff <= / 2.
Proof. assert (B : roundoff = / 9007199254740992) by reflexivity. rewrite B. cbn. lra. Qed.
End Ex59.
