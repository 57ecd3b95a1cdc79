(* Specification of C50: what each call records, as formulas of the arithmetic, and
   what it means for a call to record them. *)
From Verif Require Export Observe.

Section Records.
Context {N : Num} {RL : RepLaws N} {C : Cfg N}.

(* amounts addressed to z, in order *)
Definition due (z : Z) (l : list (Z * F)) : list F := map snd (filter (fun p => Z.eqb (fst p) z) l).

(* the adjoints of some variables set to arbitrary numbers *)
Definition set_adjoints (ps : list (Z * F)) (s : st) : res st := foldM (fun s p => set_var_adj (fst p) (snd p) s) ps s.

(* h is a new variable with value v; whatever the adjoints are, a being that of h,
   its step in the gradient pass adds the amounts l a, one after the other and each
   with one floating-point addition, and changes nothing else *)
Definition records (s s' : st) (h : Z) (v : F) (l : F -> list (Z * F)) : Prop :=
  ~ alive s h /\ var_val s' h = Ok v /\
  forall ps a s1, Forall (fun p => alive s' (fst p)) ps -> set_adjoints ps s' = Ok s1 -> var_adj s1 h = Ok a ->
    exists s2, chain_at s1 h = Ok s2 /\
    (forall z, alive s' z -> var_val s2 z = var_val s' z) /\
    forall z b, alive s' z -> var_adj s1 z = Ok b -> var_adj s2 z = Ok (fold_left fadd (due z (l a)) b).
End Records.

(* ---- the formulas, in terms of the arithmetic only ---- *)
Section Tables.
Context {N : Num}.
Declare Scope num_scope.
Delimit Scope num_scope with num.
Local Infix "+" := fadd : num_scope.
Local Infix "-" := fsub : num_scope.
Local Infix "*" := fmul : num_scope.
Local Infix "/" := fdiv : num_scope.
Local Notation "- x" := (fneg x) : num_scope.
Local Notation "1" := f1 : num_scope.
Local Notation "2" := f2 : num_scope.
Local Open Scope num_scope.

(* value of f(x), and amount added to x when f(x) = y has adjoint a *)
Definition un_value (u : un) (x : F) : F :=
  match u with
  | USin => fsin x | UCos => fcos x | UTan => ftan x
  | UAsin => fasin x | UAcos => facos x | UAtan => fatan x
  | USinh => fsinh x | UCosh => fcosh x | UTanh => ftanh x
  | UAsinh => fasinh x | UAcosh => facosh x | UAtanh => fatanh x
  | UExp => fexp x | ULog => flog x | USqrt => fsqrt x
  | USquare => x * x | UInv => 1 / x | UInvSqrt => 1 / fsqrt x
  | UInvSquare => (1 / x) * x          (* sic: C19 *)
  | ULogit => flog (x / (1 - x))
  | UInvLogit => if flt x f0 then (if flt x c_log_epsilon then fexp x else fexp x / (1 + fexp x)) else 1 / (1 + fexp (- x))
  | UErf => ferf x | UErfc => ferfc x | ULogGamma => floggamma x
  | UNeg => - x | UPos | UAbs => x
  end.
Definition un_step (u : un) (x y a : F) : F :=
  match u with
  | USin => a * fcos x
  | UCos => - (a * fsin x)
  | UTan => a * (1 + y * y)
  | UAsin => a / fsqrt (1 - x * x)
  | UAcos => - (a / fsqrt (1 - x * x))
  | UAtan => a / (1 + x * x)
  | USinh => a * fcosh x
  | UCosh => a * fsinh x
  | UTanh => a / (fcosh x * fcosh x)
  | UAsinh => a / fsqrt (x * x + 1)
  | UAcosh => a / fsqrt (x * x - 1)
  | UAtanh => a / (1 - x * x)
  | UExp => a * y
  | ULog => a / x
  | USqrt => fhalf * a / y
  | USquare => a * 2 * x
  | UInv => - (a / (x * x))
  | UInvSqrt => - (fhalf * a / (x * fsqrt x))
  | UInvSquare => - (a * 2 / (x * x * x))
  | ULogit => a / (x - x * x)
  | UInvLogit => a * y * (1 - y)
  | UErf => a * c_two_over_sqrt_pi * fexp (- (x * x))
  | UErfc => - (a * c_two_over_sqrt_pi * fexp (- (x * x)))
  | ULogGamma => a * digamma x
  | UNeg => - a
  | UPos | UAbs => a
  end.
(* calls that always record: not acosh, atanh outside their domain, not +x, |x| *)
Definition un_records (u : un) (x : F) : bool :=
  match u with
  | UAcosh => negb (is_nan_d x) && negb (fle x 1)
  | UAtanh => negb (is_nan_d x) && negb (fle x (fneg f1)) && negb (fle 1 x)
  | UPos | UAbs => false
  | _ => true
  end.

(* x op y = v with adjoint a *)
Definition bin_value (b : bin) (x y : F) : F :=
  match b with
  | BAdd => x + y | BSub => x - y | BMul => x * y | BDiv => x / y
  | BPow => fpow x y | BHypot => fhypot x y
  end.
(* amounts for x and y; nothing is added by a power with base zero *)
Definition vv_step (b : bin) (x y v a : F) : list F :=
  match b with
  | BAdd => [a; a]
  | BSub => [a; - a]
  | BMul => [y * a; x * a]
  | BDiv => [a / y; - (v * a / y)]
  | BPow => if feq x f0 then [] else [a * y * v / x; a * v * flog x]
  | BHypot => [a * x / v; a * y / v]
  end.

(* x op d with a constant d; a power with one of the special exponents is the
   function of one variable *)
Definition pow_as (d : F) : option un :=
  if feq d fhalf then Some USqrt else if feq d f1 then Some UPos else if feq d f2 then Some USquare
  else if feq d (fneg f2) then Some UInvSquare else if feq d (fneg f1) then Some UInv
  else if feq d (fneg fhalf) then Some UInvSqrt else None.
Definition vd_value (b : bin) (x d : F) : F :=
  match b with BPow => match pow_as d with Some u => un_value u x | None => fpow x d end | _ => bin_value b x d end.
Definition vd_step (b : bin) (x d v a : F) : list F :=
  match b with
  | BAdd | BSub => [a]
  | BMul => [a * d]
  | BDiv => [a / d]
  | BPow => match pow_as d with Some u => [un_step u x v a] | None => if feq x f0 then [] else [a * d * v / x] end
  | BHypot => [a * x / v]
  end.
Definition vd_records (b : bin) (d : F) : bool :=
  match b with
  | BAdd | BSub | BHypot => negb (feq d f0)
  | BMul | BDiv => negb (feq d f1)
  | BPow => match pow_as d with Some UPos => false | _ => true end
  end.
(* d op x *)
Definition dv_value (b : bin) (d x : F) : F :=
  match b with BMul => x * d | BHypot => fhypot x d | _ => bin_value b d x end.
Definition dv_step (b : bin) (d x v a : F) : list F :=
  match b with
  | BAdd => [a]
  | BSub => [- a]
  | BMul => [a * d]
  | BDiv => [- (v * a / x)]
  | BPow => if feq d f0 then [] else [a * v * flog d]
  | BHypot => [a * x / v]
  end.
Definition dv_records (b : bin) (d : F) : bool :=
  match b with BAdd | BHypot => negb (feq d f0) | BMul => negb (feq d f1) | _ => true end.
End Tables.
