(* C46, C47, exactly and in any arithmetic.
   Vocabulary (beyond that of Properties_cvodes, Properties_reverse and Properties_repeat).
   SensSpec.v: the user's right-hand side is a function [q t] of BranchSpec, with tests and
   any calls, on the registers y, f, p ([rhs_fn]); [sens_vectors t n ys yS par]: on its
   lines t, component i of answer j is the dot product of the reverse pass from line ys_i
   with vector j, plus the entry of parameter par j; [solves P q p par n ns limit nout c
   head size S e]: how a call of cvodes_sol ends on plain numbers when the integrator is S:
   it delivers these values and sensitivities, it halts (the integrator failed, or a call
   stopped the program), or it overran the storage (a callback filled it to the last word);
   [orderly]: integrators and right-hand sides to which this applies. *)
From Coq Require Import ZifyBool ZifyNat.
From Flocq Require Import IEEE754.BinarySingleNaN IEEE754.Binary IEEE754.Bits.
From Verif Require Import TapeFacts.
From Verif Require Export Claims_drive Properties_repeat.
Local Open Scope nat_scope.

(* ---- C46 ---- *)
(* one callback, sensitivities of the initial values *)
Theorem C46_values {N : Num} {RL : RepLaws N} {C : Cfg N} env0 s t (y : list F) yS q :
  practical -> reachable env0 s -> (s_lvl s < 10)%Z -> 0 < length y -> length yS = length y ->
  let xs := rhs_args y [] in let t0 := map given xs in let rs := seq 0 (length xs) in let w := (6 * zlen xs + cost (q t) rs t0)%Z in
  well_formed (q t) rs t0 -> roomy s w ->
  match trace (q t) rs t0 with
  | None => set_sens_rhs t y yS (mkRhs true (length y) [] (rhs_fn q)) s = ErrStop
  | Some (ys, tr) =>
      (exactly_full s w -> set_sens_rhs t y yS (mkRhs true (length y) [] (rhs_fn q)) s = Undef OutOfBounds) /\
      (~ exactly_full s w -> exists s',
        set_sens_rhs t y yS (mkRhs true (length y) [] (rhs_fn q)) s = Ok (sens_vectors tr (length y) ys yS (fun _ => None), s') /\
        undisturbed s s' /\ forall h, alive s h -> var_adj s' h = var_adj s h)
  end.
Proof. exact (callback_initial env0 s t y yS q). Qed.
Print Assumptions C46_values.
(* of initial values and parameters, or of parameters only *)
Theorem C46_values_parameters {N : Num} {RL : RepLaws N} {C : Cfg N} env0 s t (y p : list F) yS q (ys : bool) :
  practical -> reachable env0 s -> (s_lvl s < 10)%Z -> 0 < length y -> length p = 3 ->
  let first := if ys then length y else 0 in first < length yS <= first + 3 ->
  let xs := rhs_args y p in let t0 := map given xs in let rs := seq 0 (length xs) in let w := (6 * zlen xs + cost (q t) rs t0)%Z in
  well_formed (q t) rs t0 -> roomy s w ->
  match trace (q t) rs t0 with
  | None => set_sens_rhs t y yS (mkRhs ys (length yS) p (rhs_fn q)) s = ErrStop
  | Some (os, tr) =>
      (exactly_full s w -> set_sens_rhs t y yS (mkRhs ys (length yS) p (rhs_fn q)) s = Undef OutOfBounds) /\
      (~ exactly_full s w -> exists s',
        set_sens_rhs t y yS (mkRhs ys (length yS) p (rhs_fn q)) s =
          Ok (sens_vectors tr (length y) os yS (fun j => if j <? first then None else Some (j - first)), s') /\
        undisturbed s s' /\ forall h, alive s h -> var_adj s' h = var_adj s h)
  end.
Proof. exact (callback_parameters env0 s t y p yS q ys). Qed.
Print Assumptions C46_values_parameters.

(* ---- C47 ---- *)
(* cvodes_sol for any integrator: it returns, with what the integrator delivers when its
   callbacks are answered as above *)
Theorem C47_initial_values_exact_partial {N : Num} {RL : RepLaws N} {C : Cfg N} P env0 s y (v : list F) nout q (S : integrator) words e :
  practical -> reachable env0 s -> (s_lvl s < 10)%Z -> Forall (alive s) y -> mapM (var_val s) y = Ok v -> 0 < length y ->
  (0 <= words)%Z -> roomy s words ->
  solves P q [] (fun _ => None) (length y) (length y) (t_head (s_tape s) + words)%Z nout 0 (t_head (s_tape s)) (t_size (s_tape s)) (S v (unit_vectors (length y))) e ->
  match e with
  | Delivered l => exists yt s', cvodes_sol_y0_sens y nout (rhs_fn q) S s = Ok (yt, s') /\ solution s s' y (length y) l yt /\
      forall h, alive s h -> alive s' h /\ var_val s' h = var_val s h /\ var_adj s' h = var_adj s h
  | Halted => cvodes_sol_y0_sens y nout (rhs_fn q) S s = ErrStop
  | Overran => cvodes_sol_y0_sens y nout (rhs_fn q) S s = Undef OutOfBounds
  end.
Proof. exact (y0_exact P env0 s y v nout q S words e). Qed.
Print Assumptions C47_initial_values_exact_partial.
Theorem C47_parameters_exact_partial {N : Num} {RL : RepLaws N} {C : Cfg N} P env0 s (y : list F) param (v : list F) nout q (S : integrator) words e :
  practical -> reachable env0 s -> (s_lvl s < 10)%Z -> Forall (alive s) param -> mapM (var_val s) param = Ok v -> 0 < length y -> length param = 3 ->
  (0 <= words)%Z -> roomy s words ->
  solves P q v Some (length y) 3 (t_head (s_tape s) + words)%Z nout 0 (t_head (s_tape s)) (t_size (s_tape s)) (S y (zero_vectors 3 (length y))) e ->
  match e with
  | Delivered l => exists yt s', cvodes_sol_par_sens y param nout (rhs_fn q) S s = Ok (yt, s') /\ solution s s' param (length y) l yt /\
      forall h, alive s h -> alive s' h /\ var_val s' h = var_val s h /\ var_adj s' h = var_adj s h
  | Halted => cvodes_sol_par_sens y param nout (rhs_fn q) S s = ErrStop
  | Overran => cvodes_sol_par_sens y param nout (rhs_fn q) S s = Undef OutOfBounds
  end.
Proof. exact (par_exact P env0 s y param v nout q S words e). Qed.
Print Assumptions C47_parameters_exact_partial.
Theorem C47_covered {N : Num} {RL : RepLaws N} {C : Cfg N} P q p par n ns limit S : practical -> forall nout c head size,
  orderly P q p par n ns limit nout c head S -> exists e, solves P q p par n ns limit nout c head size S e.
Proof. exact (orderly_ends P q p par n ns limit S). Qed.
Print Assumptions C47_covered.

Section Ex46.
Context (L : Libm).
Local Notation BN := (B64 L).
Local Notation BM := (demo (B64 L)).
Local Notation bs := (@state_of BN BM (bwork52 L)).
(* y' = y * y, written as a product of 1 by 1 matrices *)
Definition q47 (t : binary64) : @fn BN := FCall (@OMatVV BN 1 1 1 (0 :: nil) (0 :: nil)) (FRet (2 :: nil)).
(* y' = if y > p1 then p2 * y else acosh(p1) *)
Definition q47p (t : binary64) : @fn BN :=
  FTest RGt 0 2 (fun b => if b then FCall (@OVV BN BMul 3 0) (FRet (5 :: nil)) else FCall (@OUn BN UAcosh 2) (FRet (5 :: nil))).
(* two callbacks, the second with what the first answered, then a result, made of
   what the second answered *)
Definition S47 : @integrator BN := fun v u => @Callback BN c3 v u (fun r => @Callback BN c4 v r (fun r2 => @Output BN v r2 (@Failure BN))).
Definition l47 (p : list binary64) (q : binary64 -> @fn BN) (ys : list nat) (t : binary64) (y : list binary64) : list (@line BN) :=
  match @trace BN (q t) (seq 0 (length (@rhs_args BN y p))) (map (@given BN) (@rhs_args BN y p)) with Some (_, tr) => tr | None => [] end.
Lemma l47_trace p q ys t y : option_map fst (@trace BN (q t) (seq 0 (length (@rhs_args BN y p))) (map (@given BN) (@rhs_args BN y p))) = Some ys ->
  @trace BN (q t) (seq 0 (length (@rhs_args BN y p))) (map (@given BN) (@rhs_args BN y p)) = Some (ys, l47 p q ys t y).
Proof.
  unfold l47. destruct (@trace BN (q t) _ _) as [[ys' tr]|]; [|discriminate]. cbn [option_map fst]. congruence.
Qed.
Definition answer47 (t : binary64) (yS : list (list binary64)) : list (list binary64) :=
  @sens_vectors BN (l47 [] q47 (2 :: nil) t (c3 :: nil)) 1 (2 :: nil) yS (fun _ => None).
Definition answer47p (t : binary64) (yS : list (list binary64)) : list (list binary64) :=
  @sens_vectors BN (l47 [c3; cm3; c3] q47p (5 :: nil) t (c4 :: nil)) 1 (5 :: nil) yS Some.
Lemma ex47_size : (t_head (s_tape bs) = 13 /\ t_size (s_tape bs) = 12)%Z.
Proof. split; vm_compute; reflexivity. Qed.
Lemma storage47 (a b c j : Z) : (0 <= j)%Z -> c = (12 * 2 ^ j)%Z -> (a < b - 1 <= c)%Z -> (j <> 0%Z -> 12 * 2 ^ (j - 1) < b - 1)%Z -> @storage BN BM a b c.
Proof.
  intros Hj -> H1 H2. split; [lia|]. intros _. exists (Z.to_nat j). rewrite Z2Nat.id by exact Hj. change (@init_tape_size BN BM) with 12%Z.
  split; [reflexivity|]. split; [lia|]. intros Hn. apply H2. lia.
Qed.
Lemma storage47_same (a b : Z) : (b - 1 <= a)%Z -> @storage BN BM a b a.
Proof. intros H. split; [auto|lia]. Qed.
Lemma ex47_solves : @solves BN BM (fun i => i <? 2) q47 [] (fun _ => None) 1 1 41 1 0 13 12 (S47 (c3 :: nil) (@unit_vectors BN 1))
  (@Delivered BN [((c3 :: nil), answer47 c4 (answer47 c3 (@unit_vectors BN 1)))]).
Proof.
  assert (W : forall t, (6 * @zlen (@F BN) (@rhs_args BN (c3 :: nil) nil) + @cost BN (q47 t) (seq 0 2) (map (@given BN) (@rhs_args BN (c3 :: nil) nil)) = 28)%Z) by (intros t; vm_compute; reflexivity).
  assert (T : forall t, option_map fst (@trace BN (q47 t) (seq 0 (length (@rhs_args BN (c3 :: nil) nil))) (map (@given BN) (@rhs_args BN (c3 :: nil) nil))) = Some (2 :: nil)) by (intros t; vm_compute; reflexivity).
  assert (WF : forall t, @well_formed BN (q47 t) (seq 0 2) (map (@given BN) (@rhs_args BN (c3 :: nil) nil))).
  { intros t. unfold q47. cbn. unfold max_int. repeat split; repeat constructor; lia. }
  assert (IP : forall t, @in_place BN (fun i => i <? 2) [] (q47 t) (@rhs_args BN (c3 :: nil) nil)).
  { intros t. split.
    - intros i Hi. cbn in Hi. apply Nat.ltb_lt. lia.
    - unfold q47. cbn. split; [discriminate|]. split; [|exact Logic.I]. intros _ i Hi. reflexivity. }
  unfold S47. eapply (@sv_call BN BM (fun i => i <? 2) q47 [] _ 1 1 41 0 0 13 12 c3 (c3 :: nil) _ _ (2 :: nil) _ 48).
  - reflexivity.
  - split; [reflexivity|]. repeat constructor.
  - apply WF.
  - apply IP.
  - refine (@eq_ind_r Z 28%Z (fun w => 13 + w <= 41)%Z _ _ (W c3)). lia.
  - apply l47_trace. apply T.
  - reflexivity.
  - refine (@eq_ind_r Z 28%Z (fun w => @storage BN BM 12 (13 + w) 48)%Z _ _ (W c3)). apply (storage47 _ _ _ 2); lia.
  - refine (@eq_ind_r Z 28%Z (fun w => 48 <> 13 + w - 1)%Z _ _ (W c3)). lia.
  - eapply (@sv_call BN BM (fun i => i <? 2) q47 [] _ 1 1 41 0 0 13 48 c4 (c3 :: nil) _ _ (2 :: nil) _ 48).
    + reflexivity.
    + split; [reflexivity|]. repeat constructor.
    + apply WF.
    + apply IP.
    + refine (@eq_ind_r Z 28%Z (fun w => 13 + w <= 41)%Z _ _ (W c4)). lia.
    + apply l47_trace. apply T.
    + reflexivity.
    + refine (@eq_ind_r Z 28%Z (fun w => @storage BN BM 48 (13 + w) 48)%Z _ _ (W c4)). apply storage47_same. lia.
    + refine (@eq_ind_r Z 28%Z (fun w => 48 <> 13 + w - 1)%Z _ _ (W c4)). lia.
    + apply (@sv_out BN BM (fun i => i <? 2) q47 [] _ 1 1 41 0 0 13 48 (c3 :: nil) _ _ 48 (@Delivered BN [])).
      * reflexivity.
      * split; [reflexivity|]. repeat constructor.
      * lia.
      * apply storage47_same. lia.
      * constructor.
Qed.
Lemma ex47p_solves : @solves BN BM (fun _ => true) q47p [c3; cm3; c3] Some 1 3 51 1 0 13 12 (S47 (c4 :: nil) (@zero_vectors BN 3 1))
  (@Delivered BN [((c4 :: nil), answer47p c4 (answer47p c3 (@zero_vectors BN 3 1)))]).
Proof.
  set (xs := @rhs_args BN (c4 :: nil) [c3; cm3; c3]).
  assert (W : forall t, (6 * @zlen (@F BN) xs + @cost BN (q47p t) (seq 0 5) (map (@given BN) xs) = 38)%Z) by (intros t; vm_compute; reflexivity).
  assert (T : forall t, option_map fst (@trace BN (q47p t) (seq 0 (length xs)) (map (@given BN) xs)) = Some (5 :: nil)) by (intros t; vm_compute; reflexivity).
  assert (TT : @written BN RGt c4 c3 = true) by (vm_compute; reflexivity).
  assert (WF : forall t, @well_formed BN (q47p t) (seq 0 5) (map (@given BN) xs)).
  { intros t. unfold q47p, xs. cbn [well_formed seq length map app given value l_value nth rhs_args repeat]. rewrite TT. cbn. repeat split; repeat constructor; lia. }
  assert (IP : forall t, @in_place BN (fun _ => true) [] (q47p t) xs).
  { intros t. split; [reflexivity|]. unfold q47p, xs. cbn [apart seq length map app given value l_value nth rhs_args repeat Nat.add]. rewrite TT. cbn. repeat split; discriminate. }
  unfold S47. eapply (@sv_call BN BM (fun _ => true) q47p [c3; cm3; c3] _ 1 3 51 0 0 13 12 c3 (c4 :: nil) _ _ (5 :: nil) _ 96).
  - reflexivity.
  - split; [reflexivity|]. repeat constructor.
  - apply WF.
  - apply IP.
  - refine (@eq_ind_r Z 38%Z (fun w => 13 + w <= 51)%Z _ _ (W c3)). lia.
  - apply l47_trace. apply T.
  - reflexivity.
  - refine (@eq_ind_r Z 38%Z (fun w => @storage BN BM 12 (13 + w) 96)%Z _ _ (W c3)). apply (storage47 _ _ _ 3); lia.
  - refine (@eq_ind_r Z 38%Z (fun w => 96 <> 13 + w - 1)%Z _ _ (W c3)). lia.
  - eapply (@sv_call BN BM (fun _ => true) q47p [c3; cm3; c3] _ 1 3 51 0 0 13 96 c4 (c4 :: nil) _ _ (5 :: nil) _ 96).
    + reflexivity.
    + split; [reflexivity|]. repeat constructor.
    + apply WF.
    + apply IP.
    + refine (@eq_ind_r Z 38%Z (fun w => 13 + w <= 51)%Z _ _ (W c4)). lia.
    + apply l47_trace. apply T.
    + reflexivity.
    + refine (@eq_ind_r Z 38%Z (fun w => @storage BN BM 96 (13 + w) 96)%Z _ _ (W c4)). apply storage47_same. lia.
    + refine (@eq_ind_r Z 38%Z (fun w => 96 <> 13 + w - 1)%Z _ _ (W c4)). lia.
    + apply (@sv_out BN BM (fun _ => true) q47p [c3; cm3; c3] _ 1 3 51 0 0 13 96 (c4 :: nil) _ _ 96 (@Delivered BN [])).
      * reflexivity.
      * split; [reflexivity|]. repeat constructor.
      * lia.
      * apply storage47_same. lia.
      * constructor.
Qed.
Lemma ex47_room w : (0 <= w <= 1000)%Z -> @roomy BN bs w.
Proof. intros H. destruct ex47_size as [E1 E2]. unfold roomy. rewrite E1, E2. lia. Qed.
Lemma ex47_alive1 : Forall (@alive BN bs) [1%Z].
Proof. repeat constructor; vm_compute; try reflexivity; discriminate. Qed.
Lemma ex47_alive3 : Forall (@alive BN bs) [1; 2; 1]%Z.
Proof. repeat constructor; vm_compute; try reflexivity; discriminate. Qed.
Example C47_exact_ex : exists yt s', @cvodes_sol_y0_sens BN BM [1%Z] 1 (@rhs_fn BN BM q47) S47 bs = Ok (yt, s') /\
  @solution BN BM bs s' [1%Z] 1 [((c3 :: nil), answer47 c4 (answer47 c3 (@unit_vectors BN 1)))] yt.
Proof.
  pose proof ex47_solves as SV. destruct ex47_size as [E1 E2].
  destruct (@C47_initial_values_exact_partial BN _ BM (fun i => i <? 2) [1; 2]%Z bs [1%Z] (c3 :: nil) 1 q47 S47 28 _ (demo_practical BN) (ex53_reach L)
    ltac:(vm_compute; reflexivity) ex47_alive1 ltac:(vm_compute; reflexivity) ltac:(cbn; lia) ltac:(lia) (ex47_room 28 ltac:(lia))
    ltac:(rewrite E1, E2; exact SV)) as (yt & s' & E & H & _).
  exists yt, s'. split; [exact E|exact H].
Qed.
Example C47_exact_parameters_ex : exists yt s', @cvodes_sol_par_sens BN BM (c4 :: nil) [1; 2; 1]%Z 1 (@rhs_fn BN BM q47p) S47 bs = Ok (yt, s') /\
  @solution BN BM bs s' [1; 2; 1]%Z 1 [((c4 :: nil), answer47p c4 (answer47p c3 (@zero_vectors BN 3 1)))] yt.
Proof.
  pose proof ex47p_solves as SV. destruct ex47_size as [E1 E2].
  destruct (@C47_parameters_exact_partial BN _ BM (fun _ => true) [1; 2]%Z bs (c4 :: nil) [1; 2; 1]%Z [c3; cm3; c3] 1 q47p S47 38 _ (demo_practical BN) (ex53_reach L)
    ltac:(vm_compute; reflexivity) ex47_alive3 ltac:(vm_compute; reflexivity) ltac:(cbn; lia) eq_refl ltac:(lia) (ex47_room 38 ltac:(lia))
    ltac:(rewrite E1, E2; exact SV)) as (yt & s' & E & H & _).
  exists yt, s'. split; [exact E|exact H].
Qed.
(* at y = -4 and p1 = -3 the right-hand side takes its other branch, and acosh(-3) stops
   the program *)
Example C47_exact_stop_ex : @solves BN BM (fun _ => true) q47p [cm3; cm3; c3] Some 1 3 100 1 0 13 12 (S47 (@fneg BN c4 :: nil) (@zero_vectors BN 3 1)) Halted /\
  ends (@cvodes_sol_par_sens BN BM (@fneg BN c4 :: nil) [2; 2; 1]%Z 1 (@rhs_fn BN BM q47p) S47 bs) = Findings.Stops.
Proof.
  split; [|vm_compute; reflexivity]. set (xs := @rhs_args BN (@fneg BN c4 :: nil) [cm3; cm3; c3]).
  assert (TT : @written BN RGt (@fneg BN c4) cm3 = false) by (vm_compute; reflexivity).
  assert (T : match @trace BN (q47p c3) (seq 0 5) (map (@given BN) xs) with None => true | _ => false end = true) by (vm_compute; reflexivity).
  assert (W : (6 * @zlen (@F BN) xs + @cost BN (q47p c3) (seq 0 5) (map (@given BN) xs) = 30)%Z) by (vm_compute; reflexivity).
  unfold S47. apply sv_stop.
  - reflexivity.
  - split; [reflexivity|]. repeat constructor.
  - unfold q47p, rhs_args. cbn [well_formed seq length map app given value l_value nth repeat]. rewrite TT. cbn [well_formed op_regs seq length].
    split; [lia|]. split; [lia|]. split; [repeat constructor|]. split; [exact Logic.I|]. split; [reflexivity|].
    match goal with |- match ?x with _ => _ end => assert (HS : match x with ReverseSpec.Stops => true | _ => false end = true) by (vm_compute; reflexivity); destruct x; try discriminate HS; exact Logic.I end.
  - split; [reflexivity|]. unfold q47p, rhs_args. cbn [apart seq length map app given value l_value nth repeat Nat.add]. rewrite TT. cbn [apart].
    match goal with |- match ?x with _ => _ end => assert (HS : match x with ReverseSpec.Stops => true | _ => false end = true) by (vm_compute; reflexivity); destruct x; try discriminate HS; exact Logic.I end.
  - refine (@eq_ind_r Z 30%Z (fun w => 13 + w <= 100)%Z _ _ W). lia.
  - change (@trace BN (q47p c3) (seq 0 5) (map (@given BN) xs) = None). destruct (@trace BN (q47p c3) (seq 0 5) (map (@given BN) xs)); [discriminate T|reflexivity].
Qed.
(* C46: one callback on y = 3 with the vector 1 *)
Example C46_values_ex : exists s', @set_sens_rhs BN BM c3 (c3 :: nil) (@unit_vectors BN 1) (mkRhs true 1 [] (@rhs_fn BN BM q47)) bs =
  Ok (answer47 c3 (@unit_vectors BN 1), s').
Proof.
  destruct ex47_size as [E1 E2].
  assert (W : (6 * @zlen (@F BN) (@rhs_args BN (c3 :: nil) nil) + @cost BN (q47 c3) (seq 0 2) (map (@given BN) (@rhs_args BN (c3 :: nil) nil)) = 28)%Z) by (vm_compute; reflexivity).
  pose proof (@C46_values BN _ BM [1; 2]%Z bs c3 (c3 :: nil) (@unit_vectors BN 1) q47 (demo_practical BN) (ex53_reach L) ltac:(vm_compute; reflexivity) ltac:(cbn; lia) eq_refl) as G.
  cbv zeta in G. rewrite (l47_trace [] q47 (2 :: nil) c3 (c3 :: nil) ltac:(vm_compute; reflexivity)) in G.
  destruct G as [_ G].
  - unfold q47. cbn. unfold max_int. repeat split; repeat constructor; lia.
  - refine (@eq_ind_r Z 28%Z (fun w => @roomy BN bs w) _ _ W). apply ex47_room. lia.
  - destruct G as (s' & E & _); [|exists s'; exact E].
    refine (@eq_ind_r Z 28%Z (fun w => ~ @exactly_full BN BM bs w) _ _ W). unfold exactly_full. rewrite E1, E2. intros [_ A].
    destruct (A ltac:(lia)) as (k & Hk & _). change (@init_tape_size BN BM) with 12%Z in Hk.
    destruct k as [|[|k]]; [cbn in Hk; lia|cbn in Hk; lia|]. replace (Z.of_nat (S (S k))) with (2 + Z.of_nat k)%Z in Hk by lia. rewrite Z.pow_add_r in Hk by lia.
    pose proof (Z.pow_pos_nonneg 2 (Z.of_nat k) ltac:(lia) ltac:(lia)). change (2 ^ 2)%Z with 4%Z in Hk. lia.
Qed.
(* on y = 4 and p = (3, -3, 3), sensitivities of the initial value and of p1 and p2 *)
Example C46_values_parameters_ex : exists s', @set_sens_rhs BN BM c3 (c4 :: nil) ([c3] :: [cm3] :: [c4] :: nil) (@mkRhs BN true 3 [c3; cm3; c3] (@rhs_fn BN BM q47p)) bs =
  Ok (@sens_vectors BN (l47 [c3; cm3; c3] q47p (5 :: nil) c3 (c4 :: nil)) 1 (5 :: nil) ([c3] :: [cm3] :: [c4] :: nil) (fun j => if j <? 1 then None else Some (j - 1)), s').
Proof.
  destruct ex47_size as [E1 E2]. set (xs := @rhs_args BN (c4 :: nil) [c3; cm3; c3]).
  assert (W : (6 * @zlen (@F BN) xs + @cost BN (q47p c3) (seq 0 5) (map (@given BN) xs) = 38)%Z) by (vm_compute; reflexivity).
  assert (TT : @written BN RGt c4 c3 = true) by (vm_compute; reflexivity).
  pose proof (@C46_values_parameters BN _ BM [1; 2]%Z bs c3 (c4 :: nil) [c3; cm3; c3] ([c3] :: [cm3] :: [c4] :: nil) q47p true (demo_practical BN) (ex53_reach L)
    ltac:(vm_compute; reflexivity) ltac:(cbn; lia) eq_refl ltac:(cbn; lia)) as G.
  cbv zeta in G. rewrite (l47_trace [c3; cm3; c3] q47p (5 :: nil) c3 (c4 :: nil) ltac:(vm_compute; reflexivity)) in G.
  destruct G as [_ G].
  - unfold q47p, xs. cbn [well_formed seq length map app given value l_value nth rhs_args repeat]. rewrite TT. cbn. repeat split; repeat constructor; lia.
  - refine (@eq_ind_r Z 38%Z (fun w => @roomy BN bs w) _ _ W). apply ex47_room. lia.
  - destruct G as (s' & E & _); [|exists s'; exact E].
    refine (@eq_ind_r Z 38%Z (fun w => ~ @exactly_full BN BM bs w) _ _ W). unfold exactly_full. rewrite E1, E2. intros [_ A].
    destruct (A ltac:(lia)) as (k & Hk & _). change (@init_tape_size BN BM) with 12%Z in Hk.
    destruct k as [|[|k]]; [cbn in Hk; lia|cbn in Hk; lia|]. replace (Z.of_nat (S (S k))) with (2 + Z.of_nat k)%Z in Hk by lia. rewrite Z.pow_add_r in Hk by lia.
    pose proof (Z.pow_pos_nonneg 2 (Z.of_nat k) ltac:(lia) ltac:(lia)). change (2 ^ 2)%Z with 4%Z in Hk. lia.
Qed.
Example C47_covered_ex : @orderly BN (fun i => i <? 2) q47 [] (fun _ => None) 1 1 41 1 0 13 (S47 (c3 :: nil) (@unit_vectors BN 1)).
Proof.
  assert (W : forall t, (6 * @zlen (@F BN) (@rhs_args BN (c3 :: nil) nil) + @cost BN (q47 t) (seq 0 2) (map (@given BN) (@rhs_args BN (c3 :: nil) nil)) = 28)%Z) by (intros t; vm_compute; reflexivity).
  assert (WF : forall t, @well_formed BN (q47 t) (seq 0 2) (map (@given BN) (@rhs_args BN (c3 :: nil) nil))).
  { intros t. unfold q47. cbn. unfold max_int. repeat split; repeat constructor; lia. }
  assert (IP : forall t, @in_place BN (fun i => i <? 2) [] (q47 t) (@rhs_args BN (c3 :: nil) nil)).
  { intros t. split.
    - intros i Hi. cbn in Hi. apply Nat.ltb_lt. lia.
    - unfold q47. cbn. split; [discriminate|]. split; [|exact Logic.I]. intros _ i Hi. reflexivity. }
  assert (ST : forall y yS k, y = c3 :: nil -> @sized BN 1 1 yS ->
    (forall r, @sized BN 1 1 r -> @orderly BN (fun i => i <? 2) q47 [] (fun _ => None) 1 1 41 1 0 13 (k r)) ->
    forall t, @orderly BN (fun i => i <? 2) q47 [] (fun _ => None) 1 1 41 1 0 13 (@Callback BN t y yS k)).
  { intros y yS k -> HS HK t. cbn [orderly]. split; [reflexivity|]. split; [exact HS|]. cbv zeta. split; [apply WF|]. split; [apply IP|].
    split; [refine (@eq_ind_r Z 28%Z (fun w => 13 + w <= 41)%Z _ _ (W t)); lia|].
    rewrite (l47_trace [] q47 (2 :: nil) t (c3 :: nil) ltac:(vm_compute; reflexivity)). split; [reflexivity|]. apply HK. destruct HS as [HS _]. unfold sens_vectors. rewrite HS.
    split; [reflexivity|]. repeat constructor. }
  unfold S47. apply ST; [reflexivity|split; [reflexivity|repeat constructor]|]. intros r HR. apply ST; [reflexivity|exact HR|]. intros r2 HR2.
  cbn [orderly]. split; [reflexivity|]. split; [exact HR2|]. split; [lia|exact Logic.I].
Qed.
End Ex46.
