(* C46-C48: what the library computes around the CVODES integrator.
   Vocabulary.
   Cvodes.v: the integrator is an arbitrary [solver] process: it calls back for
   sensitivity right-hand sides ([Callback]), delivers results ([Output]) or fails.
   [rhs_prog q outs]: the user's right-hand side: at time t the calls [q t] on the
   registers y, f, p; the registers outs end up in f.
   CvodesSpec.v: [rhs_value q outs t i y p]: component i of the user's right-hand
   side as a function of y and p; [sens_answer]: every component of every vector is
   (df/dy) v, plus df/dp_j for a parameter; [asks D n ns p]: the integrator keeps to
   its vector sizes and D holds wherever it calls back; [delivers A n p l]: l is
   what it delivers at n output times if every callback gets an answer allowed by
   A; [solution]: the variables of yt have the delivered values and record the
   delivered sensitivities; [gradient_is s h zs ds]: set_zero_all_adj and grad on h
   leave the adjoints ds in zs.
   [by_rhs o] (CvodesDrive.v): the answer is what set_sens_rhs returns.
   [calls_ok], [mat_free]: array arguments have consistent sizes, constants are not
   neutral (C16), no matmul (C47_matmul_refuted). *)
From Coq Require Import ZifyBool ZifyNat.
From Flocq Require Import IEEE754.BinarySingleNaN IEEE754.Binary IEEE754.Bits.
From Verif Require Import TapeFacts.
From Verif Require Export Findings_cvodes.
Local Open Scope R_scope.

(* ---- C46 ---- *)
(* for calls that return; a call may fail on storage or nesting depth *)
Theorem C46_initial_values {lg : R -> R} {C : Cfg (RNum lg)} env0 (s : @st (RNum lg)) q outs t (y : list R) yS r s' :
  @practical (RNum lg) C -> reachable env0 s ->
  length outs = length y -> length yS = length y -> Forall (fun v => length v = length y) yS ->
  prog_dom (q t) (y ++ repeat 0 (length y)) ->
  set_sens_rhs (t : @F (RNum lg)) (y : list (@F (RNum lg))) yS (mkRhs true (length y) [] (rhs_prog q outs)) s = Ok (r, s') ->
  sens_answer q outs [] (fun _ => None) t y yS r.
Proof. exact (fun HP HR => sens_initial s q outs t y yS r s' HP (reach_sound env0 s HP HR)). Qed.
Print Assumptions C46_initial_values.
Theorem C46_parameters {lg : R -> R} {C : Cfg (RNum lg)} env0 (s : @st (RNum lg)) q outs t (y p : list R) yS r s' :
  @practical (RNum lg) C -> reachable env0 s ->
  length outs = length y -> length yS = length p -> Forall (fun v => length v = length y) yS ->
  prog_dom (q t) (y ++ repeat 0 (length y) ++ p) ->
  set_sens_rhs (t : @F (RNum lg)) (y : list (@F (RNum lg))) yS (mkRhs false (length p) (p : list (@F (RNum lg))) (rhs_prog q outs)) s = Ok (r, s') ->
  sens_answer q outs p (fun j => Some j) t y yS r.
Proof. exact (fun HP HR => sens_parameters s q outs t y p yS r s' HP (reach_sound env0 s HP HR)). Qed.
Print Assumptions C46_parameters.
(* both at once: initial values and parameters, the first length y sensitivities
   being those of the initial values *)
Theorem C46_general {lg : R -> R} {C : Cfg (RNum lg)} env0 (s : @st (RNum lg)) (o : @cvs_rhs (RNum lg)) q outs t (y : list R) yS r s' :
  @practical (RNum lg) C -> reachable env0 s ->
  ode_f o = rhs_prog q outs -> length outs = length y -> length yS = ode_ns o -> Forall (fun v => length v = length y) yS ->
  prog_dom (q t) (y ++ repeat 0 (length y) ++ par_vals o (length y)) ->
  set_sens_rhs (t : @F (RNum lg)) (y : list (@F (RNum lg))) yS o s = Ok (r, s') ->
  length r = ode_ns o /\ forall j, (j < ode_ns o)%nat -> length (nth j r []) = length y /\
    forall i, (i < length y)%nat ->
      sens_eq (rhs_value q outs t i) y (par_vals o (length y)) (nth j yS [])
        (if Nat.ltb j (ode_ns o - par_count o (length y)) then None else Some (j - (ode_ns o - par_count o (length y)))%nat)
        (nth i (nth j r []) 0).
Proof. exact (fun HP HR => sens_rhs_ok s o q outs t y yS r s' HP (reach_sound env0 s HP HR)). Qed.
Print Assumptions C46_general.
(* the Jacobian routine, column-major *)
Theorem C46_jacobian {lg : R -> R} {C : Cfg (RNum lg)} env0 (s : @st (RNum lg)) (o : @cvs_rhs (RNum lg)) q outs t (y : list R) jac s' :
  @practical (RNum lg) C -> reachable env0 s ->
  ode_f o = rhs_prog q outs -> length outs = length y -> prog_dom (q t) (y ++ repeat 0 (length y)) ->
  calc_jac_yvar (t : @F (RNum lg)) (y : list (@F (RNum lg))) o s = Ok (jac, s') ->
  length jac = (length y * length y)%nat /\ forall i l, (i < length y)%nat -> (l < length y)%nat ->
    is_derive (fun u => rhs_value q outs t i (hold l u 0 y) []) (nth l y 0) (nth (l * length y + i) jac 0).
Proof. exact (fun HP HR => jac_yvar_ok s o q outs t y jac s' HP (reach_sound env0 s HP HR)). Qed.
Print Assumptions C46_jacobian.
(* in any arithmetic a callback leaves the caller's variables as they were *)
Theorem C46_caller_unchanged {N : Num} {RL : RepLaws N} {C : Cfg N} t y yS (o : cvs_rhs) q outs s r s' : practical -> valid s -> ode_f o = rhs_prog q outs ->
  prog_ok' (q t) -> mat_free (q t) -> set_sens_rhs t y yS o s = Ok (r, s') ->
  valid s' /\ (forall z, alive s' z <-> alive s z) /\
  forall z, alive s z -> var_val s' z = var_val s z /\ var_adj s' z = var_adj s z.
Proof. exact (callback_outer t y yS o q outs s r s'). Qed.
Print Assumptions C46_caller_unchanged.
Example C46_ex : prog_dom (ode 0) ((2 :: 3 :: nil) ++ repeat 0 2) /\ prog_dom (odep 0) ((2 :: nil) ++ repeat 0 1 ++ (5 :: 6 :: 7 :: nil)) /\
  ends (@set_sens_rhs RN DM 0 (2 :: 3 :: nil) ((1 :: 0 :: nil) :: (0 :: 1 :: nil) :: nil) (mkRhs true 2 [] (@rhs_prog RN DM ode ode_out)) rs) = Returns /\
  ends (@set_sens_rhs RN DM 0 (2 :: nil) ((1 :: nil) :: (0 :: nil) :: (4 :: nil) :: nil) (@mkRhs RN false 3 (5 :: 6 :: 7 :: nil) (@rhs_prog RN DM odep odep_out)) rs) = Returns /\
  ends (@calc_jac_yvar RN DM 0 (2 :: 3 :: nil) (mkRhs true 2 [] (@rhs_prog RN DM ode ode_out)) rs) = Returns /\
  @valid RN DM rs /\ prog_ok' (ode 0) /\ mat_free (ode 0) /\
  (forall y1 y2, @rhs_value lg0 ode ode_out 0 0 (y1 :: y2 :: nil) nil = y1 * y2) /\
  (forall y p1 p2 p3, @rhs_value lg0 odep odep_out 0 0 (y :: nil) (p1 :: p2 :: p3 :: nil) = y * p1 + p2).
Proof.
  split; [cbn; repeat split; auto|]. split; [cbn; repeat split; auto|]. split; [vm_compute; reflexivity|]. split; [vm_compute; reflexivity|].
  split; [vm_compute; reflexivity|]. split; [exact (proj1 (reach_valid _ _ pr rs_reach))|]. split; [repeat constructor|]. split; [repeat constructor|].
  split; intros; reflexivity.
Qed.

(* ---- C47 ---- *)
(* exact reals: the integrator's callbacks get true sensitivity derivatives, the
   result carries what it delivers, and grad hands it to independent y0 *)
Theorem C47_initial_values_partial {lg : R -> R} {C : Cfg (RNum lg)} env0 (s : @st (RNum lg)) y (v : list R) q outs nout (S0 : @integrator (RNum lg)) yt s' :
  @practical (RNum lg) C -> reachable env0 s -> Forall (alive s) y -> mapM (var_val s) y = Ok v -> length outs = length y ->
  @asks (RNum lg) (fun t u => prog_dom (q t) (u ++ repeat 0 (length y)) /\ mat_free (q t)) (length y) (length y) (S0 v (unit_vectors (length y))) ->
  cvodes_sol_y0_sens y nout (rhs_prog q outs) S0 s = Ok (yt, s') ->
  exists l, @delivers (RNum lg) (sens_answer q outs [] (fun _ => None)) nout (S0 v (unit_vectors (length y))) l /\ length yt = nout /\ solution s s' y (length y) l yt /\
    (forall z, alive s z -> alive s' z /\ var_val s' z = var_val s z /\ var_adj s' z = var_adj s z) /\
    (NoDup y -> Forall (fun z => var_operands s z = Ok []) y ->
     forall k hs u uS i h, nth_error yt k = Some hs -> nth_error l k = Some (u, uS) -> nth_error hs i = Some h ->
       gradient_is s' h y (map (fun w => nth i w 0) uS)).
Proof. exact (fun HP HR => y0_real s y v q outs nout S0 yt s' HP (proj1 (reach_valid env0 s HP HR))). Qed.
Print Assumptions C47_initial_values_partial.
Theorem C47_parameters_partial {lg : R -> R} {C : Cfg (RNum lg)} env0 (s : @st (RNum lg)) (y : list R) param (v : list R) q outs nout (S0 : @integrator (RNum lg)) yt s' :
  @practical (RNum lg) C -> reachable env0 s -> Forall (alive s) param -> mapM (var_val s) param = Ok v -> length outs = length y ->
  @asks (RNum lg) (fun t u => prog_dom (q t) (u ++ repeat 0 (length y) ++ v) /\ mat_free (q t)) (length y) (length param) (S0 y (zero_vectors (length param) (length y))) ->
  cvodes_sol_par_sens (y : list (@F (RNum lg))) param nout (rhs_prog q outs) S0 s = Ok (yt, s') ->
  exists l, @delivers (RNum lg) (sens_answer q outs v (fun j => Some j)) nout (S0 y (zero_vectors (length param) (length y))) l /\ length yt = nout /\ solution s s' param (length y) l yt /\
    (forall z, alive s z -> alive s' z /\ var_val s' z = var_val s z /\ var_adj s' z = var_adj s z) /\
    (NoDup param -> Forall (fun z => var_operands s z = Ok []) param ->
     forall k hs u uS i h, nth_error yt k = Some hs -> nth_error l k = Some (u, uS) -> nth_error hs i = Some h ->
       gradient_is s' h param (map (fun w => nth i w 0) uS)).
Proof. exact (fun HP HR => par_real s y param v q outs nout S0 yt s' HP (proj1 (reach_valid env0 s HP HR))). Qed.
Print Assumptions C47_parameters_partial.
(* the same in any arithmetic, binary64 included *)
Theorem C47_initial_values_any_partial {N : Num} {RL : RepLaws N} {C : Cfg N} env0 s y nout q outs (S0 : integrator) v yt s' :
  practical -> reachable env0 s -> Forall (alive s) y -> mapM (var_val s) y = Ok v -> length outs = length y ->
  asks (calls_ok q) (length y) (length y) (S0 v (unit_vectors (length y))) ->
  cvodes_sol_y0_sens y nout (rhs_prog q outs) S0 s = Ok (yt, s') ->
  exists l, delivers (by_rhs (mkRhs true (length y) [] (rhs_prog q outs))) nout (S0 v (unit_vectors (length y))) l /\
    length yt = nout /\ solution s s' y (length y) l yt /\
    forall z, alive s z -> alive s' z /\ var_val s' z = var_val s z /\ var_adj s' z = var_adj s z.
Proof. exact (fun HP HR => y0_sens_ok s y nout q outs S0 v yt s' HP (proj1 (reach_valid env0 s HP HR))). Qed.
Print Assumptions C47_initial_values_any_partial.
Theorem C47_parameters_any_partial {N : Num} {RL : RepLaws N} {C : Cfg N} env0 s y param nout q outs (S0 : integrator) v yt s' :
  practical -> reachable env0 s -> Forall (alive s) param -> mapM (var_val s) param = Ok v -> length outs = length y ->
  asks (calls_ok q) (length y) (length param) (S0 y (zero_vectors (length param) (length y))) ->
  cvodes_sol_par_sens y param nout (rhs_prog q outs) S0 s = Ok (yt, s') ->
  exists l, delivers (by_rhs (mkRhs false (length param) v (rhs_prog q outs))) nout (S0 y (zero_vectors (length param) (length y))) l /\
    length yt = nout /\ solution s s' param (length y) l yt /\
    forall z, alive s z -> alive s' z /\ var_val s' z = var_val s z /\ var_adj s' z = var_adj s z.
Proof. exact (fun HP HR => par_sens_ok s y param nout q outs S0 v yt s' HP (proj1 (reach_valid env0 s HP HR))). Qed.
Print Assumptions C47_parameters_any_partial.
Example C47_ex : Forall (alive rs) [1; 4; 2]%Z /\ NoDup [1; 4; 2]%Z /\ Forall (fun z => @var_operands RN rs z = Ok []) [1; 4; 2]%Z /\
  mapM (@var_val RN rs) [1; 4]%Z = Ok (2 :: / 2 :: nil) /\ mapM (@var_val RN rs) [1; 4; 2]%Z = Ok (2 :: / 2 :: 3 :: nil) /\
  @asks RN (fun t u => prog_dom (ode t) (u ++ repeat 0 2) /\ mat_free (ode t)) 2 2 (steps (2 :: / 2 :: nil) (@unit_vectors RN 2)) /\
  @asks RN (fun t u => prog_dom (odep t) (u ++ repeat 0 1 ++ (2 :: / 2 :: 3 :: nil)) /\ mat_free (odep t)) 1 3 (steps (2 :: nil) (@zero_vectors RN 3 1)) /\
  @asks RN (calls_ok ode) 2 2 (steps (2 :: / 2 :: nil) (@unit_vectors RN 2)) /\
  ends (@cvodes_sol_y0_sens RN DM [1; 4]%Z 2 (@rhs_prog RN DM ode ode_out) steps rs) = Returns /\
  ends (@cvodes_sol_par_sens RN DM (2 :: nil) [1; 4; 2]%Z 2 (@rhs_prog RN DM odep odep_out) steps rs) = Returns.
Proof.
  split; [repeat constructor; vm_compute; try reflexivity; discriminate|].
  split; [repeat constructor; cbn; intuition discriminate|].
  split; [repeat constructor; vm_compute; reflexivity|]. split; [vm_compute; reflexivity|]. split; [vm_compute; reflexivity|].
  split; [|split; [|split]].
  1-3: cbn [steps asks]; repeat match goal with
    | |- forall _, _ => intro
    | |- prog_dom _ _ => cbn; repeat split; auto
    | |- mat_free _ => repeat constructor
    | |- calls_ok _ _ _ => split
    | |- prog_ok' _ => repeat constructor
    | |- Forall _ _ => solve [assumption | repeat constructor]
    | |- _ /\ _ => split
    | |- _ = _ => solve [reflexivity | tauto]
    | H : _ /\ _ |- _ => destruct H
    | |- True => exact Logic.I
    end.
  split; vm_compute; reflexivity.
Qed.
(* with matmul in the right-hand side the calls go wrong: the block of the first
   callback leaves the chain of a product in a slot that a variable of the second
   callback takes over *)
Theorem C47_matmul_refuted : exists (s : @st RN) (S0 : @integrator RN), @reachable RN DM [1; 2; 3; 4; 4]%Z s /\ alive s 1 /\
  @asks RN (fun t u => prog_dom (ode_mat t) (u ++ repeat 0 1)) 1 1 (S0 (2 :: nil) (@unit_vectors RN 1)) /\
  @cvodes_sol_y0_sens RN DM (1%Z :: nil) 2 (@rhs_prog RN DM ode_mat (2%nat :: nil)) S0 s = Undef OutOfBounds.
Proof. exact matmul_rhs_fails. Qed.
Print Assumptions C47_matmul_refuted.

(* ---- C48 ---- *)
Theorem C48_refuted {N : Num} {C : Cfg N} y param nout f (S0 : integrator) t u uS k s r : length param <> 3%nat ->
  S0 y (zero_vectors (length param) (length y)) = Callback t u uS k ->
  cvodes_sol_par_sens y param (S nout) f S0 s <> Ok r.
Proof. exact (par_sens_size y param nout f S0 t u uS k s r). Qed.
Print Assumptions C48_refuted.
Theorem C48_two_parameters_refuted : exists (s : @st RN) (S0 : @integrator RN), @reachable RN DM [1; 2; 3; 4; 4]%Z s /\ Forall (alive s) [1; 4]%Z /\
  @asks RN (fun t u => prog_dom (odep t) (u ++ repeat 0 1 ++ (2 :: / 2 :: nil))) 1 2 (S0 (2 :: nil) (@zero_vectors RN 2 1)) /\
  @cvodes_sol_par_sens RN DM (2 :: nil) [1; 4]%Z 1 (@rhs_prog RN DM odep odep_out) S0 s = Undef ShapeMismatch.
Proof. exact two_parameters_fail. Qed.
Print Assumptions C48_two_parameters_refuted.
