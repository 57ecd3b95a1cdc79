(* What the operations mean in mathematics, written without reference to the
   model: the function each call denotes, where it is differentiable, and the
   value of a whole program when one of its variables is moved. *)
From Verif Require Export RNum Ops Valid.
Local Open Scope R_scope.

Section Spec.
Context {lg : R -> R}.
Notation N := (RNum lg).

(* functions of one argument *)
Definition un_fun (u : un) (x : R) : R :=
  match u with
  | USin => sin x | UCos => cos x | UTan => tan x
  | UAsin => asin x | UAcos => acos x | UAtan => atan x
  | USinh => sinh x | UCosh => cosh x | UTanh => tanh x
  | UAsinh => ln (x + sqrt (x * x + 1))
  | UAcosh => ln (x + sqrt (x * x - 1))
  | UAtanh => / 2 * ln ((1 + x) / (1 - x))
  | UExp => exp x | ULog => ln x | USqrt => sqrt x
  | USquare => x * x | UInv => 1 / x
  | UInvSqrt => 1 / sqrt x | UInvSquare => 1 / (x * x)
  | ULogit => ln (x / (1 - x)) | UInvLogit => 1 / (1 + exp (- x))
  | UErf => rerf x | UErfc => 1 - rerf x | ULogGamma => lg x
  | UNeg => - x | UPos => x | UAbs => Rabs x
  end.

(* ... and where the library is claimed to differentiate them.  Left out, with
   reasons in DESIGN.md: inv_square (wrong value), log_gamma (its derivative is a
   rational approximation), inv_logit below log(tiny). *)
Definition un_dom (u : un) (x : R) : Prop :=
  match u with
  | UTan => cos x <> 0
  | UAsin | UAcos | UAtanh => -1 < x < 1
  | UAcosh => 1 < x
  | ULog | USqrt | UInvSqrt => 0 < x
  | UInv | UAbs => x <> 0
  | ULogit => 0 < x < 1
  | UInvLogit => ln rtiny <= x
  | UInvSquare | ULogGamma => False
  | _ => True
  end.

(* functions of two arguments *)
Definition bin_fun (b : bin) (x y : R) : R :=
  match b with
  | BAdd => x + y | BSub => x - y | BMul => x * y | BDiv => x / y
  | BPow => rpow x y | BHypot => sqrt (x * x + y * y)
  end.

Definition vv_dom (b : bin) (x y : R) : Prop :=
  match b with
  | BDiv => y <> 0 | BPow => 0 < x | BHypot => x <> 0 \/ y <> 0 | _ => True
  end.

(* variable x, constant d; -2 is left out because of inv_square *)
Definition vd_dom (b : bin) (x d : R) : Prop :=
  match b with
  | BDiv => d <> 0
  | BPow => d <> -2 /\ (0 < x \/ exists z, d = IZR z /\ (x <> 0 \/ (0 <= z)%Z))
  | _ => True
  end.

(* constant d, variable x *)
Definition dv_dom (b : bin) (d x : R) : Prop :=
  match b with
  | BDiv => x <> 0 | BPow => 0 < d \/ (d = 0 /\ 0 < x) | _ => True
  end.

(* matrix product of column-major lists: entry (i,j) is sum_l a(i,l) b(l,j) *)
Definition mm_fun (m k n : nat) (a b : list R) : list R :=
  flat_map (fun j => map (fun i =>
      rsum (map (fun l => nth (i + l * m) a 0 * nth (l + j * k) b 0) (seq 0 k))) (seq 0 m)) (seq 0 n).

(* results of a call, from the values of its variable operands in the order written *)
Definition denote (o : @op N) (xs : list R) : list R :=
  match o with
  | OVar d => [d]
  | OVar0 => [0]
  | OUn u _ => [un_fun u (nth 0 xs 0)]
  | OVV b _ _ => [bin_fun b (nth 0 xs 0) (nth 1 xs 0)]
  | OVD b _ d => [bin_fun b (nth 0 xs 0) d]
  | ODV b d _ => [bin_fun b d (nth 0 xs 0)]
  | OSum _ => [rsum xs]
  | ONorm2 _ => [sqrt (rsum (map (fun x => x * x) xs))]
  | OLse _ => [ln (rsum (map exp xs))]
  | ODotVV l _ => [rdot (firstn (length l) xs) (skipn (length l) xs)]
  | ODotVD _ d => [rdot xs d]
  | ODotDV d _ => [rdot d xs]
  | OMatVV m k n a _ => mm_fun m k n (firstn (length a) xs) (skipn (length a) xs)
  | OMatVD m k n _ b => mm_fun m k n xs b
  | OMatDV m k n a _ => mm_fun m k n a xs
  | OPart v _ _ => [v xs]
  end.

(* v is differentiable at xs with partial derivatives ds: along every curve
   through xs, v changes at the rate sum_i ds_i * (rate of the i-th coordinate) *)
Definition has_partials (v : list R -> R) (xs ds : list R) : Prop :=
  forall (fs : list (R -> R)) (t : R) (vs : list R),
    map (fun f => f t) fs = xs -> Forall2 (fun f d => is_derive f t d) fs vs ->
    is_derive (fun u => v (map (fun f => f u) fs)) t (rdot ds vs).

(* the point is inside the domain of the call *)
Definition op_dom (o : @op N) (xs : list R) : Prop :=
  match o with
  | OUn u _ => un_dom u (nth 0 xs 0)
  | OVV b _ _ => vv_dom b (nth 0 xs 0) (nth 1 xs 0)
  | OVD b _ d => vd_dom b (nth 0 xs 0) d
  | ODV b d _ => dv_dom b d (nth 0 xs 0)
  | ONorm2 _ => Exists (fun x => x <> 0) xs
  | OLse _ => xs <> [] /\ Forall (fun x => x <= rhuge) xs
  | OPart v p _ => has_partials v xs (p xs)
  | _ => True
  end.

(* values of the registers of a program when register x is held at t, and the
   calls after it are evaluated with it *)
Definition hold (x : nat) (t : R) (from : nat) (ys : list R) : list R :=
  map (fun q => if Nat.eqb (fst q) x then t else snd q) (combine (seq from (length ys)) ys).

Definition at_regs (ws : list R) (l : list nat) : list R := map (fun r => nth r ws 0) l.

Fixpoint eval_with (x : nat) (t : R) (p : list (@op N)) (ws : list R) : list R :=
  match p with
  | [] => ws
  | o :: q => eval_with x t q (ws ++ hold x t (length ws) (denote o (at_regs ws (op_regs o))))
  end.

(* plain evaluation *)
Fixpoint eval (p : list (@op N)) (ws : list R) : list R :=
  match p with
  | [] => ws
  | o :: q => eval q (ws ++ denote o (at_regs ws (op_regs o)))
  end.

(* every call of the program is inside its domain, has conforming arrays, and is
   not one of the calls of C16 *)
Fixpoint prog_dom (p : list (@op N)) (ws : list R) : Prop :=
  match p with
  | [] => True
  | o :: q => op_dom o (at_regs ws (op_regs o)) /\ op_shape o /\ neutral o = false /\
              prog_dom q (ws ++ denote o (at_regs ws (op_regs o)))
  end.

(* register k of the program as a function of register x *)
Definition along (p : list (@op N)) (x k : nat) (t : R) : R := nth k (eval_with x t p []) 0.

End Spec.
