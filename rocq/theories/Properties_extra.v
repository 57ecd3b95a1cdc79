(* C13, C16, C19, C34: more of what is true of the claims that fail in part.
   Vocabulary as in Properties_reverse and Properties_deriv.  UnusedSpec.v: [upward t u]:
   with a line, the set u of lines contains every line its step may add to;
   [silent t u]: the steps of lines outside u, run with adjoint zero, add nothing that
   changes a zero.  [rule_of o]: the derivative rule of x op d or d op x, Claims_neutral.v. *)
From Coq Require Import Reals Lra ZifyBool ZifyNat.
From Flocq Require Import IEEE754.BinarySingleNaN IEEE754.Binary IEEE754.Bits.
From Verif Require Import TapeFacts.
From Verif Require Export Claims_isq Claims_unused Claims_neutral Properties_reverse.
Import ListNotations.
Local Open Scope nat_scope.

(* ---- C13 ---- *)
(* in any arithmetic: y is line y of the function handed to gradient, u any upward set of
   lines containing y; arguments outside u get the adjoint zero, the very number.  Without
   the last hypothesis it is false in binary64: C13_refuted. *)
Theorem C13_gradient {N : Num} {RL : RepLaws N} {C : Cfg N} env0 s env (ws xs : list F) (f : fn) y ys t u :
  practical -> reachable env0 s -> (s_lvl s < 10)%Z -> Forall (alive s) env -> mapM (var_val s) env = Ok ws ->
  let t0 := map given (ws ++ xs) in let rs := seq 0 (length ws + length xs) in let w := (6 * zlen xs + cost f rs t0)%Z in
  well_formed f rs t0 -> roomy s w -> ~ exactly_full s w -> trace f rs t0 = Some (y :: ys, t) ->
  u y = true -> upward t u -> silent t u ->
  exists v ds s', gradient (fun xv => call_fn1 f (env ++ xv)) xs s = Ok (v :: ds, s') /\ length ds = length xs /\
    forall i, i < length xs -> u (length ws + i) = false -> nth_error ds i = Some f0.
Proof. exact (unused_gradient env0 s env ws xs f y ys t u). Qed.
Print Assumptions C13_gradient.
(* x = 2**600, w = x*x (overflows), z = w*w, y = 1: after y%grad() the adjoint of x is NaN *)
Theorem C13_refuted (L : Libm) :
  let r := seen L [COp (@OVar (B64 L) big600); COp (OVV BMul 0 0); COp (OVV BMul 1 1); COp (@OVar (B64 L) B64.c1); CGrad 3; CAdj 0] in
  length r = 1 /\ all_nan r = true.
Proof. exact (unused_nan L). Qed.
Print Assumptions C13_refuted.

Section Ex13.
Context (L : Libm).
Local Notation BN := (B64 L).
Local Notation BM := (demo (B64 L)).
Local Notation bs := (@state_of BN BM (bwork52 L)).
(* outer variables u = 3 and v = -3; f(x, z) = x*u, after an unused sqrt(z): of the six
   lines u, v, x, z, sqrt(z), x*u the last is computed from 0, 2 and 5 *)
Definition f13 : @fn BN := FCall (OUn USqrt 3) (FCall (OVV BMul 2 0) (FRet (5 :: nil))).
Definition u13 (i : nat) : bool := match i with 0 | 2 | 5 => true | _ => false end.
Definition t13 : list (@line BN) :=
  match @trace BN f13 (seq 0 4) (map (@given BN) ([c3; cm3] ++ [c3; c4])) with Some (_, t) => t | None => [] end.
Lemma ex13_trace : @trace BN f13 (seq 0 4) (map (@given BN) ([c3; cm3] ++ [c3; c4])) = Some ([5], t13).
Proof. reflexivity. Qed.
Lemma ex13_upward : upward t13 u13.
Proof.
  intros k l a i Hk El Hi. do 6 (destruct k as [|k]; [try discriminate Hk; injection El as <-; cbn in Hi; try tauto|]).
  - destruct Hi as [<-|[<-|[]]]; reflexivity.
  - destruct k; discriminate El.
Qed.
Lemma ex13_silent : silent t13 u13.
Proof.
  intros k l Hk El. do 6 (destruct k as [|k]; [try discriminate Hk; injection El as <-; repeat constructor; try (vm_compute; reflexivity)|]).
  destruct k; discriminate El.
Qed.
Lemma ex13_room : @roomy BN bs 27 /\ ~ @exactly_full BN BM bs 27.
Proof.
  assert (H1 : (t_head (s_tape bs) = 13)%Z) by (vm_compute; reflexivity).
  assert (H2 : (t_size (s_tape bs) = 12)%Z) by (vm_compute; reflexivity).
  unfold roomy, exactly_full, storage. rewrite H1, H2. split; [lia|]. intros [_ A].
  destruct (A ltac:(lia)) as (k & Hk & _). change (@init_tape_size BN BM) with 12%Z in Hk. lia.
Qed.
Example C13_gradient_ex : exists v ds s',
  @gradient BN BM (fun xv => @call_fn1 BN BM f13 ([1; 2]%Z ++ xv)) [c3; c4] bs = Ok (v :: ds, s') /\ nth_error ds 1 = Some c0.
Proof.
  pose proof ex13_room as [H1 H2].
  assert (HW : (6 * @zlen (@F BN) [c3; c4] + @cost BN f13 (seq 0 4) (map (@given BN) ([c3; cm3] ++ [c3; c4])) = 27)%Z) by (vm_compute; reflexivity).
  rewrite <- HW in H1, H2.
  destruct (@C13_gradient BN _ BM [1; 2]%Z bs [1; 2]%Z [c3; cm3] [c3; c4] f13 5 [] t13 u13 (demo_practical BN) (ex53_reach L)
    ltac:(vm_compute; reflexivity) (ex53_alive L) (ex53_vals L)) as (v & ds & s' & E & _ & Q); auto using ex13_trace, ex13_upward, ex13_silent.
  - cbn. repeat split; repeat constructor.
  - exists v, ds, s'. split; [exact E|]. apply Q; [cbn; lia|reflexivity].
Qed.
End Ex13.

(* ---- C16 ---- *)
(* computed operands.  An operand recorded by the same operator, as in (x + 3.d0) + 0.d0:
   no later client can tell the state from the one before the call. *)
Theorem C16_same_operator_partial {N : Num} {RL : RepLaws N} {C : Cfg N} env s o r h vr :
  practical -> reachable env s -> adds_nothing o r ->
  nth_error env r = Some h -> alive s h -> vget s h = Ok vr -> rule_of o = Some (v_chain vr) ->
  exists s', exec_op env o s = Ok (h :: nil, s') /\
    forall q, client_ok q (env ++ h :: nil) s -> client_ok q (env ++ h :: nil) s' ->
      same_outcome (run q (env ++ h :: nil) s) (run q (env ++ h :: nil) s').
Proof. exact (same_rule_neutral env s o r h vr). Qed.
Print Assumptions C16_same_operator_partial.
(* An operand h computed from x alone by any operation: h + 0.d0, 0.d0 + h and h - 0.d0
   make h pass its adjoint on to x unchanged, whatever the derivative of h by x is. *)
Theorem C16_one_operand {N : Num} {RL : RepLaws N} {C : Cfg N} env s o r d h x vx :
  practical -> reachable env s -> feq d f0 = true -> o = OVD BAdd r d \/ o = ODV BAdd d r \/ o = OVD BSub r d ->
  nth_error env r = Some h -> alive s h -> alive s x -> vget s x = Ok vx -> var_operands s h = Ok (v_i vx :: nil) ->
  exists s', exec_op env o s = Ok (h :: nil, s') /\
    (forall z, alive s z -> alive s' z /\ var_val s' z = var_val s z /\ var_adj s' z = var_adj s z) /\
    forall ps a s1, Forall (fun p => alive s' (fst p)) ps -> set_adjoints ps s' = Ok s1 -> var_adj s1 h = Ok a ->
      exists s2, chain_at s1 h = Ok s2 /\
        forall z b, alive s' z -> var_adj s1 z = Ok b -> var_adj s2 z = Ok (if Z.eqb x z then fadd b a else b).
Proof. exact (zero_neutral env s o r d h x vx). Qed.
Print Assumptions C16_one_operand.
Section Ex16.
Context (L : Libm).
(* x = 3, y = x * (-3), w = sqrt(x) *)
Definition work16 : list (@cmd (B64 L)) := [COp (@OVar (B64 L) c3); COp (@OVD (B64 L) BMul 0 cm3); COp (OUn USqrt 0)].
Example C16_computed_ex : @reachable (B64 L) (demo _) (ev_of L work16) (st_of L work16) /\ ev_of L work16 = [1; 2; 3]%Z /\
  Forall (alive (st_of L work16)) [1; 2; 3]%Z /\
  (exists vr, vget (st_of L work16) 2 = Ok vr /\ @rule_of (B64 L) (@ODV (B64 L) BMul B64.c1 1) = Some (v_chain vr)) /\
  (exists vx, vget (st_of L work16) 1 = Ok vx /\ var_operands (st_of L work16) 3 = Ok (v_i vx :: nil)).
Proof.
  split; [apply reach_of; [repeat constructor|vm_compute; reflexivity]|].
  split; [vm_compute; reflexivity|]. split; [repeat constructor; vm_compute; try reflexivity; discriminate|].
  split; eexists; split; vm_compute; reflexivity.
Qed.
End Ex16.

(* ---- C19 ---- *)
(* The value is wrong (C19_refuted): it is 1 for every x.  The derivative is right. *)
Theorem C19_derivative_partial {lg : R -> R} {C : Cfg (RNum lg)} env0 (s : @st (RNum lg)) x (v : R) :
  @practical (RNum lg) C -> reachable env0 s -> alive s x -> var_val s x = Ok v -> v <> 0%R -> roomy s 7 ->
  exists h s' d, un_v UInvSquare x s = Ok (h, s') /\ @var_val (RNum lg) s' h = Ok (1%R : @F (RNum lg)) /\
    is_derive (fun t => 1 / (t * t))%R v d /\ passes s s' h x d /\ forall z, alive s z -> z <> x -> passes s s' h z 0%R.
Proof. exact (isq_un env0 s x v). Qed.
Print Assumptions C19_derivative_partial.
Theorem C19_power_derivative_partial {lg : R -> R} {C : Cfg (RNum lg)} env0 (s : @st (RNum lg)) x (v : R) :
  @practical (RNum lg) C -> reachable env0 s -> alive s x -> var_val s x = Ok v -> v <> 0%R -> roomy s 9 ->
  exists h s' d, bin_vd BPow x ((- (2))%R : @F (RNum lg)) s = Ok (h, s') /\ @var_val (RNum lg) s' h = Ok (1%R : @F (RNum lg)) /\
    is_derive (fun t => 1 / (t * t))%R v d /\ passes s s' h x d /\ forall z, alive s z -> z <> x -> passes s s' h z 0%R.
Proof. exact (isq_pow env0 s x v). Qed.
Print Assumptions C19_power_derivative_partial.
Example C19_ex : alive rs 4 /\ @var_val RN rs 4 = Ok (/ 2)%R /\ (/ 2 <> 0)%R /\ roomy rs 9.
Proof.
  split; [split; vm_compute; [discriminate|reflexivity]|]. split; [vm_compute; reflexivity|]. split; [lra|]. apply rs_roomy; lia.
Qed.

(* ---- C34 ---- *)
(* ten levels, no more: at ten, begin_nested writes outside its arrays, and with it every
   call of gradient and jacobian *)
Theorem C34_depth {N : Num} {RL : RepLaws N} {C : Cfg N} env0 s : practical -> reachable env0 s ->
  (0 <= s_lvl s <= 10)%Z /\
  ((s_lvl s < 10)%Z -> exists s', begin_nested s = Ok (tt, s')) /\
  (s_lvl s = 10%Z -> begin_nested s = Undef OutOfBounds /\
     (forall f xs, gradient f xs s = Undef OutOfBounds) /\ forall f xs, jacobian f xs s = Undef OutOfBounds).
Proof. exact (depth env0 s). Qed.
Print Assumptions C34_depth.
Example C34_depth_ex (L : Libm) : exists env s, @reachable (B64 L) (demo _) env s /\ s_lvl s = 10%Z.
Proof. destruct (eleven L) as (env & s & H1 & H2 & _). eauto. Qed.
