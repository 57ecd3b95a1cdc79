(* User functions with branches (C51): what the caller of gradient / jacobian may
   write, and what such a function means on plain numbers. *)
From Verif Require Export CostSpec RSpec Vari Ops.

Local Open Scope R_scope.

Section Functions.
Context {N : Num}.

(* a function body: library calls, tests on comparisons of variables
   (src/relational.F90) with arbitrary continuations, and the registers returned *)
Inductive fn :=
| FRet (ys : list nat)
| FCall (o : op) (k : fn)
| FTest (q : rel) (a b : nat) (k : bool -> fn)        (* register a compared with register b *)
| FTestC (q : rel) (a : nat) (d : F) (k : bool -> fn). (* register a compared with a constant *)

Context {C : Cfg N}.

(* running it on the registers env *)
Fixpoint call_fn (f : fn) (env : list Z) : M (list Z) :=
  match f with
  | FRet ys => regs env ys
  | FCall o k => hs <~ exec_op env o ;; call_fn k (env ++ hs)
  | FTest q a b k => x <~ reg env a ;; y <~ reg env b ;; t <~ rel_vv q x y ;; call_fn (k t) env
  | FTestC q a d k => x <~ reg env a ;; t <~ rel_vd q x d ;; call_fn (k t) env
  end.

(* the first variable returned *)
Definition call_fn1 (f : fn) (env : list Z) : M Z := hs <~ call_fn f env ;; reg hs 0.
(* taking w more words fills the storage to the last word *)
Definition exactly_full (s : st) (w : Z) : Prop :=
  storage (t_size (s_tape s)) (t_head (s_tape s) + w)%Z (t_head (s_tape s) + w - 1)%Z.
End Functions.

Section Meaning.
Context {lg : R -> R}.
Notation N := (RNum lg).

Definition holds (q : rel) (x y : R) : bool :=
  match q with
  | REq => if Req_EM_T x y then true else false
  | RNe => if Req_EM_T x y then false else true
  | RLt => if Rlt_dec x y then true else false
  | RGt => if Rlt_dec y x then true else false
  | RLe => if Rle_dec x y then true else false
  | RGe => if Rle_dec y x then true else false
  end.

(* the values returned, on plain numbers *)
Fixpoint fval (f : @fn N) (ws : list R) : list R :=
  match f with
  | FRet ys => map (fun y => nth y ws 0) ys
  | FCall o k => fval k (ws ++ denote o (at_regs ws (op_regs o)))
  | FTest q a b k => fval (k (holds q (nth a ws 0) (nth b ws 0))) ws
  | FTestC q a d k => fval (k (holds q (nth a ws 0) d)) ws
  end.

(* on the way it takes: every call inside its domain, no comparison of equal numbers *)
Fixpoint fdom (f : @fn N) (ws : list R) : Prop :=
  match f with
  | FRet _ => True
  | FCall o k => op_dom o (at_regs ws (op_regs o)) /\ op_shape o /\ neutral o = false /\
                 fdom k (ws ++ denote o (at_regs ws (op_regs o)))
  | FTest q a b k => nth a ws 0 <> nth b ws 0 /\ fdom (k (holds q (nth a ws 0) (nth b ws 0))) ws
  | FTestC q a d k => nth a ws 0 <> d /\ fdom (k (holds q (nth a ws 0) d)) ws
  end.
End Meaning.

(* what the function takes from the storage, and that it names only registers it has *)

Section Storage.
Context {lg : R -> R}.
Notation N := (RNum lg).

Fixpoint fwords (f : @fn N) (ws : list R) : Z :=
  match f with
  | FRet _ => 0%Z
  | FCall o k => (words o (at_regs ws (op_regs o)) + fwords k (ws ++ denote o (at_regs ws (op_regs o))))%Z
  | FTest q a b k => fwords (k (holds q (nth a ws 0) (nth b ws 0))) ws
  | FTestC q a d k => fwords (k (holds q (nth a ws 0) d)) ws
  end.

Fixpoint fregs (f : @fn N) (ws : list R) : Prop :=
  match f with
  | FRet ys => Forall (fun y => (y < length ws)%nat) ys
  | FCall o k => Forall (fun r => (r < length ws)%nat) (op_regs o) /\ fregs k (ws ++ denote o (at_regs ws (op_regs o)))
  | FTest q a b k => (a < length ws)%nat /\ (b < length ws)%nat /\ fregs (k (holds q (nth a ws 0) (nth b ws 0))) ws
  | FTestC q a d k => (a < length ws)%nat /\ fregs (k (holds q (nth a ws 0) d)) ws
  end.
End Storage.
