(* Programs that call matmul inside nested blocks.  P marks variable slots: a variable
   without an operation only ever takes a marked slot, an entry of a matrix product made in
   a block never does. *)
From Verif Require Export Blocks.
Local Open Scope Z_scope.

Section Apart.
Context {N : Num} {C : Cfg N} (P : Z -> bool).

(* the call makes a variable without an operation: a new independent variable, or the
   absolute value of 0 *)
Definition makes_leaf (s : st) (env : list Z) (o : op) : Prop :=
  match o with
  | OVar _ | OVar0 => True
  | OUn UAbs r => exists h x, nth_error env r = Some h /\ var_val s h = Ok x /\ feq x f0 = true
  | _ => False
  end.
(* number of entries of a matrix product *)
Definition entries (o : op) : Z :=
  match o with
  | OMatVV m _ n _ _ | OMatVD m _ n _ _ | OMatDV m _ n _ _ => Z.of_nat (m * n)
  | _ => 0
  end.

(* op_ok of Valid.v with matmul at any level, as long as the slots are kept apart *)
Definition op_apart (s : st) (env : list Z) (o : op) : Prop :=
  Forall (has_reg s env) (op_regs o) /\ op_shape o /\ neutral o = false /\
  (makes_leaf s env o -> P (s_head s) = true) /\
  (is_matmul o = true -> s_lvl s = 0 \/ forall i, 0 <= i < entries o -> P (s_head s + i) = false).
Definition cmd_apart (s : st) (env : list Z) (c : cmd) : Prop :=
  match c with COp o => op_apart s env o | _ => cmd_ok s env c end.
(* the same walks as client_ok, reachable, block_ok and block_call_ok *)
Fixpoint client_apart (p : client) (env : list Z) (s : st) : Prop :=
  match p with
  | Done => True
  | Do c k => cmd_apart s env c /\
      forall hs os s', exec_cmd env c s = Ok ((hs, os), s') -> client_apart (k os) (env ++ hs) s'
  end.
Definition reachable_apart (env : list Z) (s : st) : Prop :=
  exists p os, client_apart p [] st_init /\ run p [] st_init = Ok ((env, os), s).
Fixpoint block_apart (l outer : Z) (p : client) (env : list Z) (s : st) : Prop :=
  match p with
  | Done => s_lvl s = l
  | Do c k =>
      cmd_apart s env c /\
      (c = CEnd -> l < s_lvl s) /\
      (forall r d, c = CSet r d -> forall h, nth_error env r = Some h -> outer <= h) /\
      forall hs os s', exec_cmd env c s = Ok ((hs, os), s') -> block_apart l outer (k os) (env ++ hs) s'
  end.
Definition block_call_apart (p : client) (env : list Z) (s : st) : Prop :=
  s_lvl s < 10 /\
  (forall s1, begin_nested s = Ok (tt, s1) -> block_apart (s_lvl s1) (s_head s) p env s1) /\
  (forall s1 r s2, begin_nested s = Ok (tt, s1) -> run p env s1 = Ok (r, s2) ->
     t_head (s_tape s2) <= t_size (s_tape s2)).
End Apart.
