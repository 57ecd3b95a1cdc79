(* C07, C10, C11, C16, C18, C19, C25, C27, C33-C36, C38, C41-C44: what calls
   return and what they leave alone.  Vocabulary as in Properties_storage.
   [same_val], [same_adj], [same_op] s s' h: h has the same value, adjoint, or
   record (tape position, operands, data, derivative rule) in s' as in s.
   [ends r]: how a call ends.  [seen L l]: the numbers and truth values a script
   of calls returns in IEEE binary64 with math library L, as bits. *)
From Coq Require Import Rdefinitions.
From Flocq Require Import IEEE754.BinarySingleNaN IEEE754.Binary IEEE754.Bits.
From Verif Require Import TapeFacts.
From Verif Require Export ArraysFacts Properties_storage.

(* ---- C07 ---- *)
(* [plain_prog p vs]: the same expressions on plain numbers, Forward.v.
   Missing from the full claim, and false in general: inv_square (C07_refuted)
   and, through it, x**(-2); constants that return their operand (C16); equal in
   real but not in machine arithmetic: abs, d*v and hypot(d,v), which the
   library computes as v*d and hypot(v,d), and the special exponents.  These are
   what [direct] and [neutral] leave out. *)
Theorem C07_values_partial {N : Num} {RL : RepLaws N} {C : Cfg N} env0 p s env vs env' s' :
  practical -> reachable env0 s -> Forall (alive s) env ->
  prog_ok p -> forallb direct p = true -> (existsb is_matmul p = true -> s_lvl s = 0) ->
  mapM (var_val s) env = Ok vs -> exec p env s = Ok (env', s') ->
  exists vs', mapM (var_val s') env' = Ok vs' /\ plain_prog p vs = Some vs'.
Proof. exact (reach_prog_value env0 p s env vs env' s'). Qed.
Print Assumptions C07_values_partial.
Definition prog1 : list (@op (B64 libm0)) :=
  [OVV BDiv 1 0; OUn USqrt 1; @OVD (B64 libm0) BSub 5 c5; OMatVV 2 1 1 [4; 5]%nat [6]%nat; ODotVV [0; 1]%nat [7; 8]%nat].
Example C07_ex : prog_ok prog1 /\ forallb direct prog1 = true /\
  Forall (alive (st_of libm0 history)) (ev_of libm0 history) /\
  ends (@exec (B64 libm0) (demo _) prog1 (ev_of libm0 history) (st_of libm0 history)) = Returns.
Proof.
  split; [|split; [reflexivity|split; [|vm_compute; reflexivity]]].
  - repeat constructor; vm_compute; discriminate.
  - rewrite (proj1 history_vars). unfold alive. rewrite (proj2 history_vars). repeat constructor; discriminate.
Qed.
(* inv_square(2) is 1; 1/(2*2) is 1/4 *)
Theorem C07_refuted (L : Libm) :
  seen L [COp (@OVar (B64 L) c2); COp (OUn UInvSquare 0); CVal 1] = [num c1] /\
  @plain_un (B64 L) UInvSquare c2 = Some (b64_div rne c1 (b64_mult rne c2 c2)) /\
  num (b64_div rne c1 (b64_mult rne c2 c2)) = num cquarter.
Proof. exact (conj (proj1 (inv_square_wrong L)) (conj eq_refl (proj2 (proj2 (inv_square_wrong L))))). Qed.
Print Assumptions C07_refuted.

(* ---- C10 ---- *)
Theorem C10_grad_frame {N : Num} {RL : RepLaws N} {C : Cfg N} env s h :
  practical -> reachable env s -> alive s h ->
  exists s', grad h s = Ok (tt, s') /\
    s_head s' = s_head s /\ t_head (s_tape s') = t_head (s_tape s) /\ s_lvl s' = s_lvl s /\
    forall x, alive s x -> same_val s s' x /\ same_op s s' x.
Proof. exact (grad_call env s h). Qed.
Print Assumptions C10_grad_frame.
Example C10_ex : alive (st_of libm0 history) 3.
Proof. apply aliveb_ok. vm_compute. reflexivity. Qed.

(* ---- C11 ---- *)
Theorem C11_reset {N : Num} {RL : RepLaws N} {C : Cfg N} env s :
  practical -> reachable env s ->
  exists s', set_zero_all_adj s = Ok (tt, s') /\
    (s_head s' = s_head s /\ t_head (s_tape s') = t_head (s_tape s) /\ s_lvl s' = s_lvl s /\
     forall x, alive s x -> same_val s s' x /\ same_op s s' x) /\
    forall h, alive s h -> var_adj s' h = Ok f0.
Proof. exact (zero_call env s). Qed.
Print Assumptions C11_reset.
(* any earlier grads, a reset, a grad: as one grad on untouched adjoints *)
Theorem C11_repeat {N : Num} {RL : RepLaws N} {C : Cfg N} env s hs y s1 s2 s3 s4 :
  practical -> reachable env s -> Forall (alive s) hs -> alive s y ->
  (forall h, alive s h -> var_adj s h = Ok f0) ->
  grads hs s = Ok (tt, s1) -> set_zero_all_adj s1 = Ok (tt, s2) -> grad y s2 = Ok (tt, s3) ->
  grad y s = Ok (tt, s4) ->
  forall x, alive s x -> var_adj s3 x = var_adj s4 x.
Proof. exact (repeat_call env s hs y s1 s2 s3 s4). Qed.
Print Assumptions C11_repeat.
Definition no_grad : list (@cmd (B64 libm0)) := firstn 4 history.
Example C11_ex :
  let s := st_of libm0 no_grad in
  Forall (alive s) [4; 3] /\ alive s 4 /\
  map (fun h => rbits (var_adj s h)) [1; 2; 3; 4] = repeat (Some (bits_of_b64 c0)) 4 /\
  (match @grads (B64 libm0) (demo _) [4; 3] s with
   | Ok (_, s1) => rbits (var_adj s1 1) | _ => None end) <>
  (match @grad (B64 libm0) (demo _) 4 s with
   | Ok (_, s1) => rbits (var_adj s1 1) | _ => None end).
Proof.
  cbv zeta. split; [repeat first [apply Forall_nil | apply Forall_cons; [apply aliveb_ok; vm_compute; reflexivity|]]|].
  split; [apply aliveb_ok; vm_compute; reflexivity|]. split; [vm_compute; reflexivity|].
  vm_compute. discriminate.
Qed.

(* ---- C16 ---- *)
(* operands that are independent variables: the call returns the operand itself
   and no later client can tell the state from the one before the call *)
Theorem C16_leaf_partial {N : Num} {RL : RepLaws N} {C : Cfg N} env s o r h :
  practical -> reachable env s -> adds_nothing o r ->
  nth_error env r = Some h -> alive s h -> var_operands s h = Ok [] -> var_data s h = Ok [] ->
  exists s', exec_op env o s = Ok ([h], s') /\
    forall q, client_ok q (env ++ [h]) s -> client_ok q (env ++ [h]) s' ->
      same_outcome (run q (env ++ [h]) s) (run q (env ++ [h]) s').
Proof. exact (leaf_neutral env s o r h). Qed.
Print Assumptions C16_leaf_partial.
Example C16_leaf_ex :
  @adds_nothing (B64 libm0) (@OVD (B64 libm0) BMul 1 c1) 1 /\
  nth_error (ev_of libm0 history) 1 = Some 2 /\ alive (st_of libm0 history) 2 /\
  var_operands (st_of libm0 history) 2 = Ok [] /\ ends (var_data (st_of libm0 history) 2) = Returns.
Proof.
  split; [right; exists c1; split; [vm_compute; reflexivity|auto]|].
  split; [vm_compute; reflexivity|]. split; [apply aliveb_ok; vm_compute; reflexivity|].
  split; vm_compute; reflexivity.
Qed.
(* computed operands: y = sqrt(x) at x = 4 has dy/dx = 1/4; with y+0, 0+y or y-0
   the library gives 1 *)
Theorem C16_refuted (L : Libm) :
  seen L [COp (@OVar (B64 L) c4); COp (OUn USqrt 0); CGrad 1; CAdj 0] = [num cquarter] /\
  seen L [COp (@OVar (B64 L) c4); COp (OUn USqrt 0); COp (@OVD (B64 L) BAdd 1 c0); CGrad 2; CAdj 0] = [num c1] /\
  seen L [COp (@OVar (B64 L) c4); COp (OUn USqrt 0); COp (@ODV (B64 L) BAdd c0 1); CGrad 2; CAdj 0] = [num c1] /\
  seen L [COp (@OVar (B64 L) c4); COp (OUn USqrt 0); COp (@OVD (B64 L) BSub 1 c0); CGrad 2; CAdj 0] = [num c1].
Proof. exact (neutral_wrong L). Qed.
Print Assumptions C16_refuted.
(* x*y then +0, *1 or /1, then grad: an array of the wrong size is passed *)
Theorem C16_shape_refuted (L : Libm) :
  ends (@run (B64 L) (demo_std _) (script (two_then_neutral L (@OVD (B64 L) BAdd 2 c0))) [] st_init) = Undefined ShapeMismatch /\
  ends (@run (B64 L) (demo_std _) (script (two_then_neutral L (@OVD (B64 L) BMul 2 c1))) [] st_init) = Undefined ShapeMismatch /\
  ends (@run (B64 L) (demo_std _) (script (two_then_neutral L (@OVD (B64 L) BDiv 2 c1))) [] st_init) = Undefined ShapeMismatch.
Proof. exact (neutral_shape L). Qed.
Print Assumptions C16_shape_refuted.

(* ---- C18 ---- *)
(* hypot(0.d0, x) at x = -3 is -3 *)
Theorem C18_refuted (L : Libm) :
  seen L [COp (@OVar (B64 L) cm3); COp (@ODV (B64 L) BHypot c0 0); CVal 1] = [num cm3].
Proof. exact (hypot_wrong L). Qed.
Print Assumptions C18_refuted.

(* ---- C19 ---- *)
Theorem C19_refuted (L : Libm) :
  seen L [COp (@OVar (B64 L) c2); COp (OUn UInvSquare 0); CVal 1] = [num c1] /\
  seen L [COp (@OVar (B64 L) c2); COp (@OVD (B64 L) BPow 0 (b64_opp c2)); CVal 1] = [num c1] /\
  num (b64_div rne c1 (b64_mult rne c2 c2)) = num cquarter.
Proof. exact (inv_square_wrong L). Qed.
Print Assumptions C19_refuted.

(* ---- C25 ---- *)
(* var-var and var-real comparisons, on any state.  RelSpec.v: [written q x y] is x q y,
   [written64] the same in terms of extended reals. *)
Theorem C25_partial {N : Num} {RL : RepLaws N} {C : Cfg N} env s :
  practical -> reachable env s ->
  (forall q a b, alive s a -> alive s b -> exists x y,
     var_val s a = Ok x /\ var_val s b = Ok y /\ rel_vv q a b s = Ok (written q x y, s)) /\
  (forall q a d, alive s a -> exists x, var_val s a = Ok x /\ rel_vd q a d s = Ok (written q x d, s)).
Proof. exact (compare_two env s). Qed.
Print Assumptions C25_partial.
Theorem C25_binary64_partial (L : Libm) {C : Cfg (B64 L)} env s : @practical (B64 L) C -> reachable env s ->
  (forall q a b x y, alive s a -> alive s b -> var_val s a = Ok x -> var_val s b = Ok y ->
     exists r, rel_vv q a b s = Ok (r, s) /\ (r = true <-> written64 q x y)) /\
  (forall q a x (d : binary64), alive s a -> var_val s a = Ok x ->
     exists r, @rel_vd (B64 L) q a d s = Ok (r, s) /\ (r = true <-> written64 q x d)).
Proof. exact (compare_b64 L env s). Qed.
Print Assumptions C25_binary64_partial.
Example C25_ex : alive (st_of libm0 history) 1 /\ alive (st_of libm0 history) 4.
Proof. split; apply aliveb_ok; vm_compute; reflexivity. Qed.
Example C25_inf_ex : written64 RLt c1 (Binary.B754_infinity 53 1024 false) /\ written64 RGe c1 (Binary.B754_infinity 53 1024 true) /\
  ~ written64 REq (Binary.B754_infinity 53 1024 true) (Binary.B754_infinity 53 1024 false).
Proof. split; [exact Logic.I|]. split; [left; exact Logic.I|]. intros H. discriminate H. Qed.
Theorem C25_finite (L : Libm) q (x y : binary64) :
  Binary.is_finite 53 1024 x = true -> Binary.is_finite 53 1024 y = true ->
  @frel (B64 L) q x y = true <->
  match q with
  | REq => Binary.B2R 53 1024 x = Binary.B2R 53 1024 y
  | RNe => Binary.B2R 53 1024 x <> Binary.B2R 53 1024 y
  | RLt => (Binary.B2R 53 1024 x < Binary.B2R 53 1024 y)%R
  | RLe => (Binary.B2R 53 1024 x <= Binary.B2R 53 1024 y)%R
  | RGt => (Binary.B2R 53 1024 x > Binary.B2R 53 1024 y)%R
  | RGe => (Binary.B2R 53 1024 x >= Binary.B2R 53 1024 y)%R
  end.
Proof. exact (frel_finite L q x y). Qed.
Print Assumptions C25_finite.
Theorem C25_nan (L : Libm) q (x y : binary64) :
  Binary.is_nan 53 1024 x = true \/ Binary.is_nan 53 1024 y = true ->
  @frel (B64 L) q x y = match q with RNe => true | _ => false end.
Proof. exact (frel_nan L q x y). Qed.
Print Assumptions C25_nan.
(* real on the left: with x = 2, `1 < x` is false and `1 > x` is true, ... *)
Theorem C25_refuted (L : Libm) :
  seen L [COp (@OVar (B64 L) c2); @CRelDV (B64 L) RLt c1 0; @CRelDV (B64 L) RGt c1 0;
          @CRelDV (B64 L) RLe c1 0; @CRelDV (B64 L) RGe c1 0]
  = [inr false; inr true; inr false; inr true] /\
  @written (B64 L) RLt c1 c2 = true /\ @written (B64 L) RGt c1 c2 = false.
Proof. exact (rel_dv_wrong L). Qed.
Print Assumptions C25_refuted.
(* ... because the operands are swapped, always *)
Theorem C25_swapped {N : Num} {RL : RepLaws N} {C : Cfg N} env s :
  practical -> reachable env s ->
  forall q d b, alive s b -> exists y, var_val s b = Ok y /\ rel_dv q d b s = Ok (written q y d, s).
Proof. exact (fun HP HR => proj2 (proj2 (compare_call env s HP HR))). Qed.
Print Assumptions C25_swapped.

(* ---- C27 ---- *)
(* feq x x is false exactly for NaN *)
Theorem C27_acosh {N : Num} {RL : RepLaws N} {C : Cfg N} env s r h x :
  practical -> reachable env s -> nth_error env r = Some h -> alive s h -> var_val s h = Ok x ->
  (feq x x = false -> exec_op env (OUn UAcosh r) s = Ok ([h], s)) /\
  (feq x x = true -> fle x f1 = true -> exec_op env (OUn UAcosh r) s = ErrStop) /\
  (feq x x = true -> fle x f1 = false ->
     match exec_op env (OUn UAcosh r) s with
     | Ok ([h'], s') => ~ alive s h' /\ alive s' h' /\ var_val s' h' = Ok (facosh x)
     | Undef IntOverflow => True
     | _ => False
     end).
Proof. exact (acosh_call env s r h x). Qed.
Print Assumptions C27_acosh.
Theorem C27_atanh {N : Num} {RL : RepLaws N} {C : Cfg N} env s r h x :
  practical -> reachable env s -> nth_error env r = Some h -> alive s h -> var_val s h = Ok x ->
  (feq x x = false -> exec_op env (OUn UAtanh r) s = Ok ([h], s)) /\
  (feq x x = true -> fle x (fneg f1) || fge x f1 = true -> exec_op env (OUn UAtanh r) s = ErrStop) /\
  (feq x x = true -> fle x (fneg f1) || fge x f1 = false ->
     match exec_op env (OUn UAtanh r) s with
     | Ok ([h'], s') => ~ alive s h' /\ alive s' h' /\ var_val s' h' = Ok (fatanh x)
     | Undef IntOverflow => True
     | _ => False
     end).
Proof. exact (atanh_call env s r h x). Qed.
Print Assumptions C27_atanh.
Example C27_ex :
  map (fun d => ends (@run (B64 libm0) (demo _) (script [COp (@OVar (B64 libm0) d); COp (OUn UAcosh 0)]) [] st_init))
    [c2; c1; cm3; cnan] = [Returns; Stops; Stops; Returns] /\
  map (fun d => ends (@run (B64 libm0) (demo _) (script [COp (@OVar (B64 libm0) d); COp (OUn UAtanh 0)]) [] st_init))
    [chalf; c1; cm3; cnan] = [Returns; Stops; Stops; Returns].
Proof. split; vm_compute; reflexivity. Qed.

(* ---- C33 ---- *)
(* block p env: begin_nested(); the calls of p; end_nested().
   block_call_ok: every call meets its precondition, p closes what it opens and
   assigns to none of the outer variables, and the tape is not exactly full at
   the end (C35). *)
Theorem C33_no_trace {N : Num} {RL : RepLaws N} {C : Cfg N} env s p r s3 :
  practical -> reachable env s -> block_call_ok p env s -> block p env s = Ok (r, s3) ->
  s_head s3 = s_head s /\ s_lvl s3 = s_lvl s /\ t_head (s_tape s3) = t_head (s_tape s) /\
  (forall h, alive s h -> same_val s s3 h /\ same_op s s3 h) /\
  (forall i, t_head (s_tape s3) <= i -> t_mem (s_tape s3) i = w0).
Proof. exact (block_call env s p r s3). Qed.
Print Assumptions C33_no_trace.
Definition body : list (@cmd (B64 libm0)) :=
  [COp (OUn USquare 3); CBegin; COp (OVV BAdd 4 0); CGradNested 5; CEnd; CGrad 4].
Example C33_ex :
  block_call_ok (C := demo _) (script body) (ev_of libm0 history) (st_of libm0 history) /\
  ends (block (C := demo _) (script body) (ev_of libm0 history) (st_of libm0 history)) = Returns.
Proof.
  split; [|vm_compute; reflexivity].
  apply block_okb_ok; [repeat constructor|vm_compute; reflexivity].
Qed.

(* ---- C34 ---- *)
(* up to ten levels; beyond that C34_refuted *)
Theorem C34_partial {N : Num} {RL : RepLaws N} {C : Cfg N} env s :
  practical -> reachable env s -> s_lvl s < 10 ->
  exists s', begin_nested s = Ok (tt, s') /\ s_lvl s' = s_lvl s + 1 /\ s_head s' = s_head s /\
    t_head (s_tape s') = t_head (s_tape s) /\ forall h, alive s h -> untouched s s' h.
Proof. exact (begin_upto_ten env s). Qed.
Print Assumptions C34_partial.
Example C34_ex : s_lvl (st_of libm0 history) = 0.
Proof. vm_compute. reflexivity. Qed.
Theorem C34_refuted (L : Libm) : exists env s,
  @reachable (B64 L) (demo _) env s /\ s_lvl s = 10 /\ begin_nested s = Undef OutOfBounds.
Proof. exact (eleven L). Qed.
Print Assumptions C34_refuted.

(* ---- C35 ---- *)
(* end_nested stays inside the storage exactly when it is not full *)
Theorem C35_partial {N : Num} {RL : RepLaws N} {C : Cfg N} env s :
  practical -> reachable env s -> 1 <= s_lvl s ->
  (t_head (s_tape s) <= t_size (s_tape s) -> exists s', end_nested s = Ok (tt, s')) /\
  (t_size (s_tape s) < t_head (s_tape s) -> end_nested s = Undef OutOfBounds).
Proof. exact (end_iff env s). Qed.
Print Assumptions C35_partial.
Example C35_ex : s_lvl (st_of libm0 (history ++ [CBegin])) = 1.
Proof. vm_compute. reflexivity. Qed.
Theorem C35_refuted (L : Libm) : exists env s, @reachable (B64 L) (demo _) env s /\ s_lvl s = 1 /\
  t_head (s_tape s) = t_size (s_tape s) + 1 /\ end_nested s = Undef OutOfBounds.
Proof. exact (end_full_tape L). Qed.
Print Assumptions C35_refuted.
(* also when no variable was ever created *)
Theorem C35_unallocated_refuted (L : Libm) : exists env s, @reachable (B64 L) (demo _) env s /\ s_lvl s = 1 /\
  t_size (s_tape s) = 0 /\ end_nested s = Undef OutOfBounds.
Proof. exact (end_empty_tape L). Qed.
Print Assumptions C35_unallocated_refuted.

(* ---- C36 ---- *)
Theorem C36_end_partial {N : Num} (s : st) : s_lvl s = 0 -> end_nested s = Ok (tt, s).
Proof. exact (end_outside s). Qed.
Print Assumptions C36_end_partial.
Example C36_ex : s_lvl (st_of libm0 history) = 0.
Proof. vm_compute. reflexivity. Qed.
Theorem C36_refuted (L : Libm) : exists env s, @reachable (B64 L) (demo _) env s /\ s_lvl s = 0 /\ alive s 1 /\
  set_zero_nested_adj s = Undef OutOfBounds /\ @grad_nested (B64 L) (demo _) 1 s = Undef OutOfBounds.
Proof. exact (nested_outside L). Qed.
Print Assumptions C36_refuted.
(* and so in every state outside all blocks *)
Theorem C36_always_refuted {N : Num} {RL : RepLaws N} {C : Cfg N} env s :
  practical -> reachable env s -> s_lvl s = 0 ->
  set_zero_nested_adj s = Undef OutOfBounds /\
  forall h, alive s h -> grad_nested h s = Undef OutOfBounds.
Proof. exact (fun HP HR HL => conj (zero_outside s HL) (fun h => grad_nested_outside_oob env s h HP HR HL)). Qed.
Print Assumptions C36_always_refuted.

(* ---- C38 ---- *)
(* x%adj() is 6 before and 12 after a call of gradient on an unrelated function *)
Theorem C38_refuted (L : Libm) : exists env s v s', @reachable (B64 L) (demo _) env s /\ s_lvl s = 0 /\
  @gradient (B64 L) (demo _) (sqrt_of_first L) [c4] s = Ok (v, s') /\
  alive s 1 /\ var_adj s 1 = Ok c6 /\ var_adj s' 1 = Ok c12.
Proof. exact (gradient_disturbs L). Qed.
Print Assumptions C38_refuted.
Theorem C38_jacobian_refuted (L : Libm) : exists env s v s', @reachable (B64 L) (demo _) env s /\ s_lvl s = 0 /\
  @jacobian (B64 L) (demo _) (fun xv => y <~ sqrt_of_first L xv ;; mret [y]) [c4] s = Ok (v, s') /\
  alive s 1 /\ var_adj s 1 = Ok c6 /\ var_adj s' 1 = Ok c12.
Proof. exact (jacobian_disturbs L). Qed.
Print Assumptions C38_jacobian_refuted.

(* ---- C41 ---- *)
(* after a block that left the outer adjoints alone, every later client sees
   what it would see had the block not run.  Blocks that call matmul are left
   out (precondition op_ok): C41_refuted. *)
Theorem C41_partial {N : Num} {RL : RepLaws N} {C : Cfg N} env s p r s3 q :
  practical -> reachable env s -> block_call_ok p env s -> block p env s = Ok (r, s3) ->
  (forall h, alive s h -> same_adj s s3 h) ->
  client_ok q env s -> client_ok q env s3 ->
  same_outcome (run q env s) (run q env s3).
Proof. exact (after_block env s p r s3 q). Qed.
Print Assumptions C41_partial.
Definition body0 : list (@cmd (B64 libm0)) := [COp (@OVar (B64 libm0) c5); COp (OUn USquare 4); CGradNested 5].
Example C41_ex :
  block_call_ok (C := demo _) (script body0) (ev_of libm0 history) (st_of libm0 history) /\
  match block (C := demo _) (script body0) (ev_of libm0 history) (st_of libm0 history) with
  | Ok (_, s3) => map (fun h => rbits (var_adj s3 h)) [1; 2; 3; 4] =
                  map (fun h => rbits (var_adj (st_of libm0 history) h)) [1; 2; 3; 4]
  | _ => False end.
Proof.
  split; [|vm_compute; reflexivity].
  apply block_okb_ok; [repeat constructor|vm_compute; reflexivity].
Qed.
(* grad of an independent variable in the slot of a product of the block *)
Theorem C41_refuted (L : Libm) :
  ends (@run (B64 L) (demo_std _) (script (mat_block L (matmul_inside L))) [] st_init) = Returns /\
  ends (@run (B64 L) (demo_std _) (script (mat_block L (matmul_inside L) ++ [CGrad 4])) [] st_init) = Undefined ShapeMismatch /\
  ends (@run (B64 L) (demo_std _) (script (mat_block L [] ++ [CGrad 3])) [] st_init) = Returns.
Proof. exact (recycled_matmul L). Qed.
Print Assumptions C41_refuted.

(* ---- C42 ---- *)
Theorem C42_scalar {N : Num} {RL : RepLaws N} {C : Cfg N} env s h d :
  practical -> reachable env s -> alive s h ->
  exists s', set_var h d s = Ok (tt, s') /\ s_head s' = s_head s /\
    t_head (s_tape s') = t_head (s_tape s) /\ var_val s' h = Ok d /\
    forall x, alive s x -> same_adj s s' x /\ same_op s s' x /\ (x <> h -> same_val s s' x).
Proof. exact (assign_call env s h d). Qed.
Print Assumptions C42_scalar.
Theorem C42_array {N : Num} {RL : RepLaws N} {C : Cfg N} env s hs ds :
  practical -> reachable env s -> Forall (alive s) hs -> NoDup hs -> length ds = length hs ->
  exists s', set_var_1d hs ds s = Ok (tt, s') /\ s_head s' = s_head s /\ t_head (s_tape s') = t_head (s_tape s) /\
    mapM (var_val s') hs = Ok ds /\
    forall x, alive s x -> same_adj s s' x /\ same_op s s' x /\ (~ In x hs -> same_val s s' x).
Proof. exact (assign_1d env s hs ds). Qed.
Print Assumptions C42_array.
Theorem C42_array_scalar {N : Num} {RL : RepLaws N} {C : Cfg N} env s hs d :
  practical -> reachable env s -> Forall (alive s) hs ->
  exists s', set_var_1d_from_0d hs d s = Ok (tt, s') /\ s_head s' = s_head s /\ t_head (s_tape s') = t_head (s_tape s) /\
    (forall x, In x hs -> var_val s' x = Ok d) /\
    forall x, alive s x -> same_adj s s' x /\ same_op s s' x /\ (~ In x hs -> same_val s s' x).
Proof. exact (assign_1d_0d env s hs d). Qed.
Print Assumptions C42_array_scalar.
(* a matrix is the list of its columns *)
Theorem C42_matrix {N : Num} {RL : RepLaws N} {C : Cfg N} env s cols from :
  practical -> reachable env s -> Forall (alive s) (concat cols) -> NoDup (concat cols) ->
  Forall2 (fun hs ds => length hs = length ds) cols from ->
  exists s', set_var_2d cols from s = Ok (tt, s') /\ s_head s' = s_head s /\ t_head (s_tape s') = t_head (s_tape s) /\
    mapM (var_val s') (concat cols) = Ok (concat from) /\
    forall x, alive s x -> same_adj s s' x /\ same_op s s' x /\ (~ In x (concat cols) -> same_val s s' x).
Proof. exact (assign_2d env s cols from). Qed.
Print Assumptions C42_matrix.
Theorem C42_matrix_scalar {N : Num} {RL : RepLaws N} {C : Cfg N} env s cols d :
  practical -> reachable env s -> Forall (alive s) (concat cols) ->
  exists s', set_var_2d_from_0d cols d s = Ok (tt, s') /\ s_head s' = s_head s /\ t_head (s_tape s') = t_head (s_tape s) /\
    (forall x, In x (concat cols) -> var_val s' x = Ok d) /\
    forall x, alive s x -> same_adj s s' x /\ same_op s s' x /\ (~ In x (concat cols) -> same_val s s' x).
Proof. exact (assign_2d_0d env s cols d). Qed.
Print Assumptions C42_matrix_scalar.
Example C42_ex : Forall (alive (st_of libm0 history)) (concat [[1; 3]; [4; 2]]) /\ NoDup (concat [[1; 3]; [4; 2]]) /\
  Forall2 (fun (hs : list Z) (ds : list binary64) => length hs = length ds) [[1; 3]; [4; 2]] [[c1; c2]; [c3; c4]].
Proof.
  split; [|split; [|repeat constructor]].
  - cbn [concat app]. repeat first [apply Forall_nil | apply Forall_cons; [apply aliveb_ok; vm_compute; reflexivity|]].
  - cbn [concat app]. repeat constructor; cbn [In]; intuition discriminate.
Qed.

(* ---- C43 ---- *)
(* y = x copies the handle and is not a call.  In IEEE arithmetic the two
   comparisons of constants hold (C43_ex). *)
Theorem C43_alias {N : Num} {RL : RepLaws N} {C : Cfg N} env s r h x :
  practical -> reachable env s -> nth_error env r = Some h -> alive s h -> var_val s h = Ok x ->
  exec_op env (OUn UPos r) s = Ok ([h], s) /\
  (feq f1 fhalf = false -> feq f1 f1 = true -> exec_op env (OVD BPow r f1) s = Ok ([h], s)) /\
  (fgt x f0 = true -> exec_op env (OUn UAbs r) s = Ok ([h], s)).
Proof. exact (alias_call env s r h x). Qed.
Print Assumptions C43_alias.
Example C43_ex (L : Libm) : @feq (B64 L) c1 chalf = false /\ @feq (B64 L) c1 c1 = true /\ @fgt (B64 L) c3 c0 = true /\
  nth_error (ev_of libm0 history) 0 = Some 1 /\ alive (st_of libm0 history) 1 /\
  rbits (var_val (st_of libm0 history) 1) = Some (bits_of_b64 c3).
Proof.
  repeat (split; [vm_compute; reflexivity|]). split; [apply aliveb_ok; vm_compute; reflexivity|].
  vm_compute; reflexivity.
Qed.

(* ---- C44 ---- *)
(* x = 0, y = x + 1: dy/dx = 1; with an unused sqrt(x) in between it is NaN *)
Theorem C44_refuted (L : Libm) :
  seen L [COp (@OVar (B64 L) c0); COp (@OVD (B64 L) BAdd 0 c1); CGrad 1; CAdj 0] = [num c1] /\
  length (seen L [COp (@OVar (B64 L) c0); COp (OUn USqrt 0); COp (@OVD (B64 L) BAdd 0 c1); CGrad 2; CAdj 0]) = 1%nat /\
  all_nan (seen L [COp (@OVar (B64 L) c0); COp (OUn USqrt 0); COp (@OVD (B64 L) BAdd 0 c1); CGrad 2; CAdj 0]) = true.
Proof. exact (contaminated L). Qed.
Print Assumptions C44_refuted.
