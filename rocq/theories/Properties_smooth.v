(* C46, C47 and C53 in exact real arithmetic, for functions with tests and matrix products.
   Vocabulary (beyond that of Properties_sens).  SmoothSpec.v: [rhs_fval q t i y p]:
   component i of the right-hand side as a function on plain numbers; [rhs_at q p n t y]: at
   this point every call on its way is inside its domain and no two equal numbers are
   compared, and it gives n components; [rhs_words]: the tape words a callback takes;
   [rhs_answer q p par t y yS r]: vector j of r is (df/dy) v_j, plus df/dp_k if par j is the
   parameter k. *)
From Coq Require Import ZifyBool ZifyNat.
From Verif Require Import TapeFacts.
From Verif Require Export Properties_deriv Properties_cvodes Claims_link.
Local Open Scope nat_scope.

(* ---- C53 ---- *)
(* reverse accumulation on the lines is differentiation *)
Theorem C53_derivative {lg : R -> R} (f : @fn (RNum lg)) (xs : list R) ys t :
  fdom f xs -> fregs f xs -> (6 * zlen xs + fwords f xs < 1073741824)%Z ->
  trace f (seq 0 (length xs)) (map (@given (RNum lg)) xs) = Some (ys, t) ->
  forall a y i, nth_error ys a = Some y -> i < length xs ->
    is_derive (fun u => nth a (fval f (hold i u 0 xs)) 0%R) (nth i xs 0%R) (reverse t (seed y) i).
Proof. exact (reverse_derive f xs ys t). Qed.
Print Assumptions C53_derivative.
(* the lines have the values of the formula, and the storage they take is its storage *)
Theorem C53_real {lg : R -> R} (f : @fn (RNum lg)) rs (t : list (@line (RNum lg))) (ws : list R) :
  Forall (fun r => r < length t) rs -> map (value t) rs = ws -> fdom f ws -> fregs f ws ->
  well_formed f rs t /\ cost f rs t = fwords f ws /\
  exists ys t', trace f rs t = Some (ys, t') /\ map (value t') ys = fval f ws /\ Forall (fun y => y < length t') ys.
Proof. exact (trace_fval f rs t ws). Qed.
Print Assumptions C53_real.

(* ---- C46 ---- *)
Theorem C46_derivatives {lg : R -> R} {C : Cfg (RNum lg)} env0 (s : @st (RNum lg)) (t : R) (y : list R) yS (q : R -> @fn (RNum lg)) :
  @practical (RNum lg) C -> reachable env0 s -> (s_lvl s < 10)%Z -> 0 < length y ->
  length yS = length y -> Forall (fun v => length v = length y) yS ->
  rhs_at q [] (length y) t y -> roomy s (rhs_words q [] t y) -> ~ exactly_full s (rhs_words q [] t y) ->
  exists r s', set_sens_rhs (t : @F (RNum lg)) (y : list (@F (RNum lg))) yS (mkRhs true (length y) [] (@rhs_fn (RNum lg) C q)) s = Ok (r, s') /\
    rhs_answer q [] (fun _ => None) t y yS r /\
    undisturbed s s' /\ forall h, alive s h -> var_adj s' h = var_adj s h.
Proof. exact (callback_initial_real env0 s t y yS q). Qed.
Print Assumptions C46_derivatives.
Theorem C46_derivatives_parameters {lg : R -> R} {C : Cfg (RNum lg)} env0 (s : @st (RNum lg)) (t : R) (y p : list R) yS (q : R -> @fn (RNum lg)) (ys : bool) :
  @practical (RNum lg) C -> reachable env0 s -> (s_lvl s < 10)%Z -> 0 < length y -> length p = 3 ->
  let first := if ys then length y else 0 in first < length yS <= first + 3 -> Forall (fun v => length v = length y) yS ->
  rhs_at q p (length y) t y -> roomy s (rhs_words q p t y) -> ~ exactly_full s (rhs_words q p t y) ->
  exists r s', set_sens_rhs (t : @F (RNum lg)) (y : list (@F (RNum lg))) yS (mkRhs ys (length yS) (p : list (@F (RNum lg))) (@rhs_fn (RNum lg) C q)) s = Ok (r, s') /\
    rhs_answer q p (fun j => if j <? first then None else Some (j - first)) t y yS r /\
    undisturbed s s' /\ forall h, alive s h -> var_adj s' h = var_adj s h.
Proof. exact (callback_parameters_real env0 s t y p yS q ys). Qed.
Print Assumptions C46_derivatives_parameters.

(* ---- C47 ---- *)
(* the integrator's callbacks get these answers, the result carries what it delivers, and
   grad hands it to independent variables *)
Theorem C47_derivatives_partial {lg : R -> R} {C : Cfg (RNum lg)} P env0 (s : @st (RNum lg)) y (v : list R) nout (q : R -> @fn (RNum lg)) (S : @integrator (RNum lg)) words l :
  @practical (RNum lg) C -> reachable env0 s -> (s_lvl s < 10)%Z -> Forall (alive s) y -> mapM (var_val s) y = Ok v -> 0 < length y ->
  (0 <= words)%Z -> roomy s words ->
  @solves (RNum lg) C P q [] (fun _ => None) (length y) (length y) (t_head (s_tape s) + words)%Z nout 0 (t_head (s_tape s)) (t_size (s_tape s))
    (S v (unit_vectors (length y))) (Delivered l) ->
  @CvodesSpec.asks (RNum lg) (rhs_at q [] (length y)) (length y) (length y) (S v (unit_vectors (length y))) ->
  exists yt s', cvodes_sol_y0_sens y nout (@rhs_fn (RNum lg) C q) S s = Ok (yt, s') /\
    @delivers (RNum lg) (rhs_answer q [] (fun _ => None)) nout (S v (unit_vectors (length y))) l /\ solution s s' y (length y) l yt /\
    (forall h, alive s h -> alive s' h /\ var_val s' h = var_val s h /\ var_adj s' h = var_adj s h) /\
    (NoDup y -> Forall (fun z => var_operands s z = Ok []) y ->
     forall k hs u uS i h, nth_error yt k = Some hs -> nth_error l k = Some (u, uS) -> nth_error hs i = Some h ->
       gradient_is s' h y (map (fun w => nth i w 0%R) uS)).
Proof. exact (y0_sens_real P env0 s y v nout q S words l). Qed.
Print Assumptions C47_derivatives_partial.
Theorem C47_derivatives_parameters_partial {lg : R -> R} {C : Cfg (RNum lg)} P env0 (s : @st (RNum lg)) (y : list R) param (v : list R) nout (q : R -> @fn (RNum lg)) (S : @integrator (RNum lg)) words l :
  @practical (RNum lg) C -> reachable env0 s -> (s_lvl s < 10)%Z -> Forall (alive s) param -> mapM (var_val s) param = Ok v -> 0 < length y -> length param = 3 ->
  (0 <= words)%Z -> roomy s words ->
  @solves (RNum lg) C P q v Some (length y) 3 (t_head (s_tape s) + words)%Z nout 0 (t_head (s_tape s)) (t_size (s_tape s))
    (S y (zero_vectors 3 (length y))) (Delivered l) ->
  @CvodesSpec.asks (RNum lg) (rhs_at q v (length y)) (length y) 3 (S y (zero_vectors 3 (length y))) ->
  exists yt s', cvodes_sol_par_sens (y : list (@F (RNum lg))) param nout (@rhs_fn (RNum lg) C q) S s = Ok (yt, s') /\
    @delivers (RNum lg) (rhs_answer q v Some) nout (S y (zero_vectors 3 (length y))) l /\ solution s s' param (length y) l yt /\
    (forall h, alive s h -> alive s' h /\ var_val s' h = var_val s h /\ var_adj s' h = var_adj s h) /\
    (NoDup param -> Forall (fun z => var_operands s z = Ok []) param ->
     forall k hs u uS i h, nth_error yt k = Some hs -> nth_error l k = Some (u, uS) -> nth_error hs i = Some h ->
       gradient_is s' h param (map (fun w => nth i w 0%R) uS)).
Proof. exact (par_sens_real P env0 s y param v nout q S words l). Qed.
Print Assumptions C47_derivatives_parameters_partial.

(* y' = if y > 1 then matmul(y, y) else -y, at y = 2 *)
Definition q46 (t : R) : @fn RN :=
  @FTestC RN RGt 0 1%R (fun b => if b then FCall (@OMatVV RN 1 1 1 (0 :: nil) (0 :: nil)) (FRet (2 :: nil)) else FCall (@OUn RN UNeg 0) (FRet (2 :: nil))).
Lemma ex46_test u : (1 < u)%R -> holds RGt u 1 = true.
Proof. intros H. cbn. destruct (Rlt_dec 1 u); [reflexivity|contradiction]. Qed.
Lemma ex46_at t : @rhs_at lg0 q46 [] 1 t (2%R :: nil).
Proof.
  unfold rhs_at. cbn [length repeat app]. unfold q46. cbn [fdom fregs fval nth]. rewrite ex46_test by lra.
  split; [split; [lra|]; cbn; unfold max_int; repeat split; try lia|]. split; [split; [cbn; lia|]; cbn; repeat constructor|reflexivity].
Qed.
Lemma ex46_words t : @rhs_words lg0 q46 [] t (2%R :: nil) = 28%Z.
Proof. unfold rhs_words. cbn [length repeat app]. unfold q46. cbn [fwords nth]. rewrite ex46_test by lra. reflexivity. Qed.
Lemma ex46_size : (t_head (s_tape rs) = 27 /\ t_size (s_tape rs) = 48)%Z.
Proof. split; vm_compute; reflexivity. Qed.
Lemma ex46_not (j : nat) : (54 <> 12 * 2 ^ Z.of_nat j)%Z.
Proof. intros E. destruct j as [|[|[|j]]]; [discriminate E|discriminate E|discriminate E|]. rewrite !Nat2Z.inj_succ, !Z.pow_succ_r in E by lia. lia. Qed.
Lemma ex46_slope (d : R) : is_derive (fun u => @rhs_fval lg0 q46 0 0 (hold 0 u 0 (2%R :: nil)) []) 2%R d -> d = 4%R.
Proof.
  intros D. assert (X : is_derive (fun u => @rhs_fval lg0 q46 0 0 (hold 0 u 0 (2%R :: nil)) []) 2%R 4%R).
  { apply is_derive_ext_loc with (f := fun u => (u * u + 0)%R); [|auto_derive; [exact Logic.I|ring]].
    eapply filter_imp; [|apply (open_gt 1%R 2%R); lra]. cbv beta. intros u Hu. unfold rhs_fval. cbn [hold combine seq map length fst snd Nat.eqb repeat app].
    unfold q46. cbn [fval nth]. rewrite ex46_test by exact Hu. reflexivity. }
  apply is_derive_unique in D, X. congruence.
Qed.
Example C46_derivatives_ex : exists s', @set_sens_rhs RN DM 0%R (2%R :: nil) ((3%R :: nil) :: nil) (@mkRhs RN true 1 [] (@rhs_fn RN DM q46)) rs = Ok (((12%R :: nil) :: nil), s').
Proof.
  destruct (C46_derivatives (lg := lg0) (C := DM) _ rs 0%R (2%R :: nil) ((3%R :: nil) :: nil) q46 pr rs_reach) as (r & s' & E & HA & _).
  - vm_compute. reflexivity.
  - cbn. lia.
  - reflexivity.
  - repeat constructor.
  - apply ex46_at.
  - rewrite ex46_words. apply rs_roomy. lia.
  - rewrite ex46_words. unfold exactly_full. destruct ex46_size as [E1 E2]. rewrite E1, E2. intros [_ A].
    destruct (A ltac:(lia)) as (j & Ej & _). change (@init_tape_size RN DM) with 12%Z in Ej. apply (ex46_not j). exact Ej.
  - exists s'. cbn [length] in E. etransitivity; [exact E|]. do 2 f_equal. destruct HA as [L1 HA].
    destruct r as [|r1 [|r2 r]]; try discriminate L1. destruct (HA 0 ltac:(cbn; lia)) as [L2 H0]. cbn [nth] in L2, H0.
    destruct r1 as [|x [|x2 r1]]; try discriminate L2. destruct (H0 0 ltac:(cbn; lia)) as (J & e & HJ & He & Hx).
    pose proof (ex46_slope _ (HJ 0 ltac:(cbn; lia))) as EJ. cbn [nth] in Hx.
    assert (Ex : x = 12%R). { rewrite Hx, He. cbn [length seq map nth]. rewrite EJ. cbn. lra. } rewrite Ex. reflexivity.
Qed.
(* one callback, then its answer as result *)
Definition S46 : @integrator RN := fun v u => @Callback RN 0%R v u (fun r => @Output RN v r (@Failure RN)).
Lemma ex46_asks : @CvodesSpec.asks RN (@rhs_at lg0 q46 [] 1) 1 1 (S46 (2%R :: nil) (@unit_vectors RN 1)).
Proof.
  cbn [S46 CvodesSpec.asks]. split; [apply ex46_at|]. split; [reflexivity|]. split; [split; [reflexivity|repeat constructor]|].
  intros r Hr. split; [reflexivity|]. split; [exact Hr|exact Logic.I].
Qed.
Lemma ex46_solves : exists r, @solves RN DM (fun i => i <? 2) q46 [] (fun _ => None) 1 1 55 1 0 27 48 (S46 (2%R :: nil) (@unit_vectors RN 1))
  (@Delivered RN (((2%R :: nil), r) :: nil)).
Proof.
  assert (T2 : (1 < 2)%R) by lra. destruct (rhs_lines q46 [] 1 0%R (2%R :: nil) (ex46_at 0%R)) as (WF & EW & ys & tr & ET & LY). rewrite ex46_words in EW.
  eexists. unfold S46. eapply (@sv_call RN DM (fun i => i <? 2) q46 [] _ 1 1 55 0 0 27 48 0%R (2%R :: nil) _ _ ys tr 96).
  - reflexivity.
  - split; [reflexivity|]. repeat constructor.
  - exact WF.
  - split.
    + intros i Hi. cbn in Hi. apply Nat.ltb_lt. lia.
    + unfold q46. cbn [apart]. rewrite holds_written. change (holds RGt _ _) with (holds RGt 2%R 1%R).
      rewrite (ex46_test 2%R T2). cbn. split; [discriminate|]. split; [|exact Logic.I]. intros _ i Hi. reflexivity.
  - refine (@eq_ind_r Z 28%Z (fun w => 27 + w <= 55)%Z _ _ EW). lia.
  - exact ET.
  - exact LY.
  - refine (@eq_ind_r Z 28%Z (fun w => @storage RN DM 48 (27 + w) 96)%Z _ _ EW). split; [lia|]. intros _. exists 3. change (@init_tape_size RN DM) with 12%Z. cbn. lia.
  - refine (@eq_ind_r Z 28%Z (fun w => 96 <> 27 + w - 1)%Z _ _ EW). lia.
  - apply (@sv_out RN DM (fun i => i <? 2) q46 [] _ 1 1 55 0 0 27 96 (2%R :: nil) _ _ 96 (@Delivered RN [])).
    + reflexivity.
    + split; [unfold sens_vectors; rewrite map_length; reflexivity|]. unfold sens_vectors. apply Forall_map. apply Forall_forall. intros j _. rewrite map_length. exact LY.
    + lia.
    + split; [lia|]. intros X. lia.
    + constructor.
Qed.
(* cvodes_sol gives one variable, the partial derivative of which by y0 is 4 *)
Example C47_derivatives_ex : exists h s', @cvodes_sol_y0_sens RN DM (1%Z :: nil) 1 (@rhs_fn RN DM q46) S46 rs = Ok (((h :: nil) :: nil), s') /\
  @gradient_is RN DM s' h (1%Z :: nil) (4%R :: nil).
Proof.
  destruct ex46_solves as (r & HS). destruct ex46_size as [E1 E2].
  destruct (C47_derivatives_partial (lg := lg0) (C := DM) (fun i => i <? 2) _ rs (1%Z :: nil) (2%R :: nil) 1 q46 S46 28%Z (((2%R :: nil), r) :: nil) pr rs_reach) as (yt & s' & E & HD & HO & _ & HG).
  - vm_compute. reflexivity.
  - repeat constructor; vm_compute; try reflexivity; discriminate.
  - vm_compute. reflexivity.
  - cbn. lia.
  - lia.
  - apply rs_roomy. lia.
  - rewrite E1, E2. exact HS.
  - exact ex46_asks.
  - destruct HO as [LY HO]. cbn [length] in LY. destruct yt as [|hs [|hs2 yt]]; try discriminate LY.
    destruct (HO 0 hs eq_refl) as (u & uS & Hu & LH & _). cbn [nth_error] in Hu. injection Hu as <- <-. cbn [length] in LH. destruct hs as [|h [|h2 hs]]; try discriminate LH.
    exists h, s'. split; [exact E|].
    assert (G : @gradient_is RN DM s' h (1%Z :: nil) (map (fun w => nth 0 w 0%R) r)).
    { apply (HG ltac:(repeat constructor; intros []) ltac:(repeat constructor; vm_compute; reflexivity) 0 (h :: nil) (2%R :: nil) r 0 h); reflexivity. }
    assert (ER : map (fun w => nth 0 w 0%R) r = 4%R :: nil).
    { unfold S46 in HD. inversion HD as [| |? ? ? ? ? r0 ? HA HD2]; subst. inversion HD2; subst. destruct HA as [L1 HA].
      destruct r as [|r1 [|r2 r]]; try discriminate L1. destruct (HA 0 ltac:(cbn; lia)) as [L2 H0]. cbn [nth] in L2, H0.
      destruct r1 as [|x [|x2 r1]]; try discriminate L2. destruct (H0 0 ltac:(cbn; lia)) as (J & e & HJ & He & Hx).
      pose proof (ex46_slope _ (HJ 0 ltac:(cbn; lia))) as EJ. cbn [nth] in Hx. cbn [map nth]. f_equal. rewrite Hx, He. cbn [length seq map nth]. rewrite EJ. cbn. lra. }
    rewrite <- ER. exact G.
Qed.
(* if x < y then x*y else x, at (2,3): the reverse pass from the product gives 3 and 2 *)
Definition f53 : @fn RN := @FTest RN RLt 0 1 (fun b => if b then FCall (@OVV RN BMul 0 1) (FRet (2 :: nil)) else FRet (0 :: nil)).
Lemma ex53_test u : (u < 3)%R -> holds RLt u 3 = true.
Proof. intros H. cbn. destruct (Rlt_dec u 3); [reflexivity|contradiction]. Qed.
Example C53_derivative_ex : exists t, trace f53 (seq 0 2) (map (@given RN) (2%R :: 3%R :: nil)) = Some (2 :: nil, t) /\ reverse t (seed 2) 0 = 3%R.
Proof.
  assert (T2 : (2 < 3)%R) by lra.
  assert (D : fdom f53 (2%R :: 3%R :: nil) /\ fregs f53 (2%R :: 3%R :: nil)).
  { unfold f53. cbn [fdom fregs nth]. rewrite (ex53_test 2%R T2). cbn. repeat split; try lia; try lra; repeat constructor. }
  destruct D as [D1 D2].
  destruct (C53_real (lg := lg0) f53 (seq 0 2) (map (@given RN) (2%R :: 3%R :: nil)) (2%R :: 3%R :: nil)) as (_ & _ & ys & t & E & _); [repeat constructor|reflexivity|exact D1|exact D2|].
  assert (Ey : ys = 2 :: nil).
  { pose proof E as E1. unfold f53 in E1. cbn [trace] in E1. rewrite holds_written in E1.
    change (holds RLt _ _) with (holds RLt 2%R 3%R) in E1. rewrite (ex53_test 2%R T2) in E1. cbn in E1. injection E1 as <- _. reflexivity. }
  subst ys. exists t. split; [exact E|].
  pose proof (C53_derivative (lg := lg0) f53 (2%R :: 3%R :: nil) (2 :: nil) t D1 D2) as Hd. unfold f53 in Hd at 1. cbn [fwords nth] in Hd. rewrite (ex53_test 2%R T2) in Hd.
  specialize (Hd ltac:(vm_compute; reflexivity) E 0 2 0 eq_refl ltac:(cbn; lia)).
  assert (X : is_derive (fun u => nth 0 (fval f53 (hold 0 u 0 (2%R :: 3%R :: nil))) 0%R) 2%R 3%R).
  { apply is_derive_ext_loc with (f := fun u => (u * 3)%R); [|auto_derive; [exact Logic.I|ring]].
    eapply filter_imp; [|apply (open_lt 3%R 2%R); exact T2]. cbv beta. intros u Hu. unfold f53. cbn [hold combine seq map length fst snd Nat.eqb fval nth].
    rewrite (ex53_test u Hu). reflexivity. }
  cbn [nth] in Hd. apply is_derive_unique in Hd, X. congruence.
Qed.
(* y' = p1 y with three parameters, at y = 5 and p = (2, 3, 1/2) *)
Definition q47 (t : R) : @fn RN := FCall (@OVV RN BMul 2 0) (FRet (5 :: nil)).
Definition p47 : list R := 2%R :: 3%R :: (/ 2)%R :: nil.
Lemma ex47_at t : @rhs_at lg0 q47 p47 1 t (5%R :: nil).
Proof. unfold rhs_at. cbn. repeat split; try lia; repeat constructor. Qed.
Lemma ex47_words t : @rhs_words lg0 q47 p47 t (5%R :: nil) = 38%Z.
Proof. reflexivity. Qed.
Lemma ex47_not (j : nat) : (64 <> 12 * 2 ^ Z.of_nat j)%Z.
Proof. intros E. destruct j as [|[|[|j]]]; [discriminate E|discriminate E|discriminate E|]. rewrite !Nat2Z.inj_succ, !Z.pow_succ_r in E by lia. lia. Qed.
Lemma one_entry (w : list R) (d : R) : length w = 1 -> nth 0 w 0%R = d -> w = d :: nil.
Proof. destruct w as [|x [|x2 w]]; try discriminate. intros _ <-. reflexivity. Qed.
Lemma ex47_first (v : list R) (d : R) : @sens_eq (@rhs_fval lg0 q47 0 0) (5%R :: nil) p47 v (Some 0) d -> d = (2 * nth 0 v 0 + 5)%R.
Proof.
  intros (J & e & HJ & He & ->). specialize (HJ 0 ltac:(cbn; lia)). cbn [nth] in HJ, He. unfold p47 in He. cbn [nth] in He.
  assert (X1 : is_derive (fun u => @rhs_fval lg0 q47 0 0 (hold 0 u 0 (5%R :: nil)) p47) 5%R 2%R).
  { apply is_derive_ext with (f := fun u => (2 * u)%R); [reflexivity|auto_derive; [exact Logic.I|ring]]. }
  assert (X2 : is_derive (fun u => @rhs_fval lg0 q47 0 0 (5%R :: nil) (hold 0 u 0 p47)) 2%R 5%R).
  { apply is_derive_ext with (f := fun u => (u * 5)%R); [reflexivity|auto_derive; [exact Logic.I|ring]]. }
  apply is_derive_unique in HJ, He, X1, X2. cbn [length seq map]. unfold p47 in X1, X2. unfold p47 in HJ. rewrite HJ in X1. rewrite He in X2. rewrite X1, X2. cbn. lra.
Qed.
Example C46_derivatives_parameters_ex : exists r s',
  @set_sens_rhs RN DM 0%R (5%R :: nil) ((1%R :: nil) :: (0%R :: nil) :: (0%R :: nil) :: nil) (@mkRhs RN false 3 p47 (@rhs_fn RN DM q47)) rs = Ok (r, s') /\ nth 0 r [] = 7%R :: nil.
Proof.
  destruct (C46_derivatives_parameters (lg := lg0) (C := DM) _ rs 0%R (5%R :: nil) p47 ((1%R :: nil) :: (0%R :: nil) :: (0%R :: nil) :: nil) q47 false pr rs_reach) as (r & s' & E & HA & _).
  - vm_compute. reflexivity.
  - cbn. lia.
  - reflexivity.
  - cbn. lia.
  - repeat constructor.
  - apply ex47_at.
  - rewrite ex47_words. apply rs_roomy. lia.
  - rewrite ex47_words. unfold exactly_full. destruct ex46_size as [E1 E2]. rewrite E1, E2. intros [_ A].
    destruct (A ltac:(lia)) as (j & Ej & _). change (@init_tape_size RN DM) with 12%Z in Ej. apply (ex47_not j). exact Ej.
  - exists r, s'. split; [exact E|]. destruct HA as [L1 HA]. destruct (HA 0 ltac:(cbn; lia)) as [L2 H0]. specialize (H0 0 ltac:(cbn; lia)).
    cbn [Nat.ltb Nat.leb Nat.sub nth] in H0. apply ex47_first in H0. apply (one_entry _ _ L2). rewrite H0. cbn. lra.
Qed.
Lemma ex47_asks : @CvodesSpec.asks RN (@rhs_at lg0 q47 p47 1) 1 3 (S46 (5%R :: nil) (@zero_vectors RN 3 1)).
Proof.
  cbn [S46 CvodesSpec.asks]. split; [apply ex47_at|]. split; [reflexivity|]. split; [split; [reflexivity|repeat constructor]|].
  intros r Hr. split; [reflexivity|]. split; [exact Hr|exact Logic.I].
Qed.
Lemma ex47_solves : exists r, @solves RN DM (fun i => i <? 5) q47 p47 Some 1 3 65 1 0 27 48 (S46 (5%R :: nil) (@zero_vectors RN 3 1))
  (@Delivered RN (((5%R :: nil), r) :: nil)).
Proof.
  destruct (rhs_lines q47 p47 1 0%R (5%R :: nil) (ex47_at 0%R)) as (WF & EW & ys & tr & ET & LY). rewrite ex47_words in EW.
  eexists. unfold S46. eapply (@sv_call RN DM (fun i => i <? 5) q47 p47 _ 1 3 65 0 0 27 48 0%R (5%R :: nil) _ _ ys tr 96).
  - reflexivity.
  - split; [reflexivity|]. repeat constructor.
  - exact WF.
  - split.
    + intros i Hi. cbn in Hi. apply Nat.ltb_lt. lia.
    + cbn. split; [discriminate|]. split; [|exact Logic.I]. intros _ i Hi. reflexivity.
  - refine (@eq_ind_r Z 38%Z (fun w => 27 + w <= 65)%Z _ _ EW). lia.
  - exact ET.
  - exact LY.
  - refine (@eq_ind_r Z 38%Z (fun w => @storage RN DM 48 (27 + w) 96)%Z _ _ EW). split; [lia|]. intros _. exists 3. change (@init_tape_size RN DM) with 12%Z. cbn. lia.
  - refine (@eq_ind_r Z 38%Z (fun w => 96 <> 27 + w - 1)%Z _ _ EW). lia.
  - apply (@sv_out RN DM (fun i => i <? 5) q47 p47 _ 1 3 65 0 0 27 96 (5%R :: nil) _ _ 96 (@Delivered RN [])).
    + reflexivity.
    + split; [unfold sens_vectors; rewrite map_length; reflexivity|]. unfold sens_vectors. apply Forall_map. apply Forall_forall. intros j _. rewrite map_length. exact LY.
    + cbn. lia.
    + split; [cbn; lia|]. intros X. exfalso. revert X. cbn. lia.
    + constructor.
Qed.
(* the single result variable records the partial derivative 5 for the first parameter *)
Example C47_derivatives_parameters_ex : exists h s' r, @cvodes_sol_par_sens RN DM (5%R :: nil) (1 :: 2 :: 4 :: nil)%Z 1 (@rhs_fn RN DM q47) S46 rs = Ok (((h :: nil) :: nil), s') /\
  nth 0 r [] = 5%R :: nil /\ @records RN DM rs s' h 5%R (fun a => combine (1 :: 2 :: 4 :: nil)%Z (map (Rmult a) (map (fun v => nth 0 v 0%R) r))).
Proof.
  destruct ex47_solves as (r & HS). destruct ex46_size as [E1 E2].
  destruct (C47_derivatives_parameters_partial (lg := lg0) (C := DM) (fun i => i <? 5) _ rs (5%R :: nil) (1 :: 2 :: 4 :: nil)%Z p47 1 q47 S46 38%Z (((5%R :: nil), r) :: nil) pr rs_reach) as (yt & s' & E & HD & HO & _).
  - vm_compute. reflexivity.
  - repeat constructor; vm_compute; try reflexivity; discriminate.
  - vm_compute. reflexivity.
  - cbn. lia.
  - reflexivity.
  - lia.
  - apply rs_roomy. lia.
  - rewrite E1, E2. exact HS.
  - exact ex47_asks.
  - destruct HO as [LY HO]. cbn [length] in LY. destruct yt as [|hs [|hs2 yt]]; try discriminate LY.
    destruct (HO 0 hs eq_refl) as (u & uS & Hu & LH & HR). cbn [nth_error] in Hu. injection Hu as <- <-. cbn [length] in LH. destruct hs as [|h [|h2 hs]]; try discriminate LH.
    exists h, s', r. split; [exact E|]. split; [|exact (HR 0 h eq_refl)].
    unfold S46 in HD. inversion HD as [| |? ? ? ? ? r0 ? HA HD2]; subst. inversion HD2; subst. destruct HA as [L1 HA].
    destruct (HA 0 ltac:(cbn; lia)) as [L2 H0]. specialize (H0 0 ltac:(cbn; lia)). apply ex47_first in H0.
    apply (one_entry _ _ L2). rewrite H0. cbn. lra.
Qed.
