(* Specification of C59: accuracy of reverse accumulation in binary64.  Real numbers and
   roundings only; it knows nothing of tapes, tables or chain pointers. *)
From Coq Require Import Reals List.
From Flocq Require Import Core IEEE754.Binary IEEE754.Bits.
From Verif Require Export ReverseSpec B64 RSpec.
Import ListNotations.
Local Open Scope R_scope.

Notation fin := (Binary.is_finite 53 1024).
Notation rl := (Binary.B2R 53 1024).

(* 2^-53: a rounding changes a number by a factor between 1/(1+2^-53) and 1+2^-53 *)
Definition roundoff : R := bpow radix2 (-53).
(* x is e up to m roundings *)
Definition near (m : nat) (x e : R) : Prop := exists r, x = e * r /\ / (1 + roundoff) ^ m <= r <= (1 + roundoff) ^ m.
(* e is not in the range of underflow *)
Definition clear (e : R) : Prop := e = 0 \/ bpow radix2 (-1022) <= Rabs e.

(* Reverse accumulation over the reals: [nth k w []] holds the slopes of line k, one for
   each line it was computed from. *)
Definition spread (sl : list (nat * R)) (a : R) (f : nat -> R) : nat -> R :=
  fold_left (fun f p i => if Nat.eqb i (fst p) then f i + snd p * a else f i) sl f.
Definition accumulate (w : list (list (nat * R))) (f : nat -> R) : nat -> R :=
  fold_right (fun k f => spread (nth k w []) (f k) f) f (seq 0 (length w)).
Definition unit_at (y : nat) (i : nat) : R := if Nat.eqb i y then 1 else 0.
(* the derivative by line i of line y, and the same with all slopes made positive *)
Definition slope_of (w : list (list (nat * R))) (y i : nat) : R := accumulate w (unit_at y) i.
Definition size_of (w : list (list (nat * R))) (y i : nat) : R :=
  accumulate (map (map (fun p => (fst p, Rabs (snd p)))) w) (unit_at y) i.
Definition count {A} (w : list (list A)) : nat := list_sum (map (@length A) w).

(* the chain rule: the rate of a line is the sum of slope times rate over its operands *)
Fixpoint sumto (f : nat -> R) (n : nat) : R := match n with O => 0 | S k => sumto f k + f k end.
Fixpoint tangent (sl : list (nat * R)) (z : nat -> R) : R :=
  match sl with [] => 0 | (j, s) :: t => s * z j + tangent t z end.

Section Lines.
Context (L : Libm).
Local Notation BN := (B64 L).
(* the step of line l adds to the lines of sl and to no others *)
Definition targets (l : @line BN) (sl : list (nat * R)) : Prop := forall a, map fst (l_back l a) = map fst sl.
(* with adjoint a it adds, up to m roundings, a times the slopes, unless it overflows *)
Definition accurate (m : nat) (l : @line BN) (sl : list (nat * R)) (a : binary64) : Prop :=
  Forall2 (fun (p : nat * binary64) q => fin (snd p) = true -> near m (rl (snd p)) (snd q * rl a)) (l_back l a) sl.
(* w holds slopes for the lines t, each line using lines before it only; the steps of t,
   run with the adjoints they meet when line y is differentiated, are accurate *)
Record sloped (m : nat) (t : list (@line BN)) (w : list (list (nat * R))) (y : nat) : Prop := {
  sl_length : length w = length t;
  sl_below : forall k p, (k < length t)%nat -> In p (nth k w []) -> (fst p < k)%nat;
  sl_targets : forall k, (k < length t)%nat -> targets (nth k t (@given BN c0)) (nth k w []);
  sl_steps : forall k, (k < length t)%nat -> accurate m (nth k t (@given BN c0)) (nth k w []) (@reverse BN t (seed y) k)
}.
End Lines.

(* ---- the operations ---- *)
Section Tables.
Context (L : Libm).
Local Notation BN := (B64 L).
Local Notation "x *b y" := (b64_mult rne x y) (at level 40).
Local Notation "x /b y" := (b64_div rne x y) (at level 40).
Local Notation "x -b y" := (b64_minus rne x y) (at level 50).
(* the number of roundings, and what must not underflow (or divide by zero) *)
Definition un_rounds (f : un) : nat :=
  match f with USquare | UInv => 2 | USqrt => 3 | UInvSqrt => 4 | ULog => 1 | UAtan => 3 | UAsinh => 4
  | UAsin | UAcos => 5 | UAcosh => 6 | UAtanh | ULogit => 4 | _ => 0 end.
Definition un_safe (f : un) (x a : binary64) : Prop :=
  match f with
  | UNeg => True
  | USquare => clear (rl a * 2) /\ clear (rl (a *b c2) * rl x)
  | USqrt => 0 < rl x /\ clear (/ 2 * rl a) /\ clear (rl (chalf *b a) / rl (b64_sqrt rne x))
  | UInv => clear (rl x * rl x) /\ rl (x *b x) <> 0 /\ clear (rl a / rl (x *b x))
  | UInvSqrt => 0 < rl x /\ clear (/ 2 * rl a) /\ clear (rl x * rl (b64_sqrt rne x)) /\ rl (x *b b64_sqrt rne x) <> 0 /\
      clear (rl (chalf *b a) / rl (x *b b64_sqrt rne x))
  | ULog => 0 < rl x /\ clear (rl a / rl x)
  | UAtan => fin (b64_plus rne B64.c1 (x *b x)) = true /\ clear (rl x * rl x) /\ clear (rl a / rl (b64_plus rne B64.c1 (x *b x)))
  (* away from the points where the formula cancels *)
  | UAsin | UAcos => rl x * rl x <= / 2 /\ fin (B64.c1 -b (x *b x)) = true /\ clear (rl x * rl x) /\ clear (rl a / rl (b64_sqrt rne (B64.c1 -b (x *b x))))
  | UAtanh => rl x * rl x <= / 2 /\ fin (B64.c1 -b (x *b x)) = true /\ clear (rl x * rl x) /\ clear (rl a / rl (B64.c1 -b (x *b x)))
  | UAcosh => 0 < rl x /\ 2 <= rl x * rl x /\ fin ((x *b x) -b B64.c1) = true /\ clear (rl a / rl (b64_sqrt rne ((x *b x) -b B64.c1)))
  | ULogit => 0 < rl x <= / 2 /\ fin (x -b (x *b x)) = true /\ clear (rl x * rl x) /\ clear (rl a / rl (x -b (x *b x)))
  | UAsinh => fin (b64_plus rne (x *b x) B64.c1) = true /\ clear (rl x * rl x) /\ clear (rl a / rl (b64_sqrt rne (b64_plus rne (x *b x) B64.c1)))
  | _ => False
  end.
(* functions whose derivative is another intrinsic function: its result and its true value *)
Definition un_partner (f : un) (x : binary64) : option (binary64 * R) :=
  match f with
  | USin => Some (l_cos L x, cos (rl x)) | UCos => Some (l_sin L x, sin (rl x)) | USinh => Some (l_cosh L x, cosh (rl x))
  | UCosh => Some (l_sinh L x, sinh (rl x)) | UExp => Some (l_exp L x, exp (rl x))
  | _ => None
  end.
(* k: accuracy, in roundings, of the intrinsic functions *)
Definition un_rounds_of (k : nat) (f : un) : nat :=
  match f with USin | UCos | USinh | UCosh | UExp => 1 + k | UTan => 3 + 2 * k | UTanh => 2 + 2 * k | _ => un_rounds f end.
Definition bin_rounds (k : nat) (b : bin) : nat :=
  match b with BMul => 1 | BDiv => 3 | BHypot => 2 + k | BPow => 3 + 2 * k | _ => 0 end.
Definition vv_safe (b : bin) (x y a : binary64) : Prop :=
  match b with
  | BAdd | BSub => True
  | BMul => clear (rl y * rl a) /\ clear (rl x * rl a)
  | BDiv => rl y <> 0 /\ fin (x /b y) = true /\ clear (rl a / rl y) /\ clear (rl x / rl y) /\
      clear (rl (x /b y) * rl a) /\ clear (rl (x /b y *b a) / rl y)
  | _ => False
  end.
Definition vd_safe (b : bin) (d a : binary64) : Prop :=
  match b with
  | BAdd | BSub => True
  | BMul => clear (rl a * rl d)
  | BDiv => rl d <> 0 /\ clear (rl a / rl d)
  | _ => False
  end.
Definition dv_safe (b : bin) (d x a : binary64) : Prop :=
  match b with
  | BAdd | BSub => True
  | BMul => clear (rl a * rl d)
  | BDiv => rl x <> 0 /\ fin (d /b x) = true /\ clear (rl d / rl x) /\ clear (rl (d /b x) * rl a) /\ clear (rl (d /b x *b a) / rl x)
  | _ => False
  end.
(* the same with the functions that call an intrinsic function: a*x/v where v should be e *)
Definition ratio_safe (k : nat) (a x v : binary64) (e : R) : Prop :=
  e <> 0 /\ near k (rl v) e /\ clear (rl a * rl x) /\ clear (rl (a *b x) / rl v).
Definition un_fine (k : nat) (f : un) (x a : binary64) : Prop :=
  match f with
  | UTan => let y := l_tan L x in cos (rl x) <> 0 /\ near k (rl y) (tan (rl x)) /\ clear (rl y * rl y) /\
      fin (b64_plus rne B64.c1 (y *b y)) = true /\ clear (rl a * rl (b64_plus rne B64.c1 (y *b y)))
  | UTanh => let c := l_cosh L x in near k (rl c) (cosh (rl x)) /\ fin (c *b c) = true /\ clear (rl c * rl c) /\ clear (rl a / rl (c *b c))
  | _ => match un_partner f x with
         | Some (c, e) => near k (rl c) e /\ clear (rl a * rl c)
         | None => un_safe f x a
         end
  end.
Definition vv_fine (k : nat) (b : bin) (x y a : binary64) : Prop :=
  match b with
  | BHypot => let e := sqrt (rl x * rl x + rl y * rl y) in ratio_safe k a x (l_hypot L x y) e /\ ratio_safe k a y (l_hypot L x y) e
  | BPow => let v := l_pow L x y in 0 < rl x /\ near k (rl v) (Rpower (rl x) (rl y)) /\ near k (rl (l_log L x)) (ln (rl x)) /\
      clear (rl a * rl y) /\ clear (rl (a *b y) * rl v) /\ clear (rl (a *b y *b v) / rl x) /\
      clear (rl a * rl v) /\ clear (rl (a *b v) * rl (l_log L x))
  | _ => vv_safe b x y a
  end.
Definition vd_fine (k : nat) (b : bin) (x d a : binary64) : Prop :=
  match b with
  | BHypot => ratio_safe k a x (l_hypot L x d) (sqrt (rl x * rl x + rl d * rl d))
  | BPow => let v := l_pow L x d in @pow_as BN d = None /\ 0 < rl x /\ near k (rl v) (Rpower (rl x) (rl d)) /\
      clear (rl a * rl d) /\ clear (rl (a *b d) * rl v) /\ clear (rl (a *b d *b v) / rl x)
  | _ => vd_safe b d a
  end.
Definition dv_fine (k : nat) (b : bin) (d x a : binary64) : Prop :=
  match b with
  | BHypot => ratio_safe k a x (l_hypot L x d) (sqrt (rl d * rl d + rl x * rl x))
  | BPow => let v := l_pow L d x in 0 < rl d /\ near k (rl v) (Rpower (rl d) (rl x)) /\ near k (rl (l_log L d)) (ln (rl d)) /\
      clear (rl a * rl v) /\ clear (rl (a *b v) * rl (l_log L d))
  | _ => dv_safe b d x a
  end.
End Tables.

(* ---- whole functions ---- *)
Section Functions.
Context (L : Libm).
Local Notation BN := (B64 L).
(* derivatives of the operations, where they are claimed to be accurate *)
Definition un_slope (f : un) (x : R) : R :=
  match f with
  | USquare => 2 * x | USqrt => 1 / (2 * sqrt x) | UInv => - (1 / (x * x)) | UInvSqrt => - (1 / (2 * (x * sqrt x)))
  | ULog => / x | UAtan => 1 / (1 + x * x) | UAsinh => 1 / sqrt (x * x + 1) | UNeg => -1
  | USin => cos x | UCos => - sin x | USinh => cosh x | UCosh => sinh x | UExp => exp x
  | UAsin => 1 / sqrt (1 - x * x) | UAcos => - (1 / sqrt (1 - x * x)) | UAcosh => 1 / sqrt (x * x - 1)
  | UAtanh => 1 / (1 - x * x) | ULogit => 1 / (x - x * x)
  | UTan => 1 + tan x * tan x | UTanh => 1 / (cosh x * cosh x)
  | _ => 0
  end.
(* where the slopes are derivatives *)
Definition un_slope_at (f : un) (x : R) : Prop :=
  match f with
  | USquare | UAtan | UAsinh | UNeg | USin | UCos | USinh | UCosh | UTanh | UExp => True | UTan => cos x <> 0
  | UAsin | UAcos | UAtanh => -1 < x < 1 | UAcosh => 1 < x | ULogit => 0 < x < 1
  | USqrt | UInvSqrt | ULog => 0 < x | UInv => x <> 0
  | _ => False
  end.
Definition bin_slopes (b : bin) (x y : R) : R * R :=
  match b with
  | BAdd => (1, 1) | BSub => (1, -1) | BMul => (y, x) | BDiv => (/ y, - (x / (y * y)))
  | BHypot => let e := sqrt (x * x + y * y) in (x / e, y / e)
  | BPow => (y * Rpower x y / x, Rpower x y * ln x)
  end.
Definition norm_of (xs : list binary64) : R := sqrt (fold_right (fun x s => rl x * rl x + s) 0 xs).
(* slopes of the lines a call records: ks its operand lines, xs their values *)
Definition op_slopes (o : @op BN) (ks : list nat) (xs : list binary64) : list (list (nat * R)) :=
  let k := nth 0 ks 0%nat in let x := nth 0 xs c0 in
  match o with
  | OVar _ | OVar0 => [[]]
  | OUn UAbs _ => if b_lt x c0 then [[(k, -1)]] else [[]]
  | OUn f _ => [[(k, un_slope f (rl x))]]
  | OVV b _ _ => let (d, e) := bin_slopes b (rl x) (rl (nth 1 xs c0)) in [combine ks [d; e]]
  | OVD b _ d => [combine ks [fst (bin_slopes b (rl x) (rl d))]]
  | ODV b d _ => [combine ks [snd (bin_slopes b (rl d) (rl x))]]
  | OSum _ => [combine ks (map (fun _ => 1) xs)]
  | ONorm2 _ => [combine ks (map (fun x => rl x / norm_of xs) xs)]
  | ODotVV l _ => [combine ks (map rl (skipn (length l) xs ++ firstn (length l) xs))]
  | ODotVD _ d | ODotDV d _ => [combine ks (map rl d)]
  | OMatVV m c n l _ =>
      let ka := firstn (length l) ks in let kb := skipn (length l) ks in
      let ws := firstn (length l) xs in let us := skipn (length l) xs in
      map (fun e => let (i, j) := e : nat * nat in
        combine (row 0%nat m c i ka) (map rl (col c0 c j us)) ++ combine (col 0%nat c j kb) (map rl (row c0 m c i ws))) (entries m n)
  | OMatVD m c n _ d => map (fun e => let (i, j) := e : nat * nat in combine (row 0%nat m c i ks) (map rl (col c0 c j d))) (entries m n)
  | OMatDV m c n d _ => map (fun e => let (i, j) := e : nat * nat in combine (col 0%nat c j ks) (map rl (row c0 m c i d))) (entries m n)
  | OPart _ p _ => [combine ks (map rl (p xs))]
  | _ => []
  end.
(* the step of a line with adjoint a does not underflow, and the intrinsic functions it
   calls are right up to k roundings *)
Definition mul_safe (a : binary64) (l : list binary64) : Prop := Forall (fun c => clear (rl a * rl c)) l.
Definition op_safe (k : nat) (o : @op BN) (xs adj : list binary64) : Prop :=
  let x := nth 0 xs c0 in let a := nth 0 adj c0 in
  match o with
  | OVar _ | OVar0 | OSum _ => True
  | OUn UAbs _ => fin x = true
  | OUn f _ => un_fine L k f x a
  | OVV b _ _ => vv_fine L k b x (nth 1 xs c0) a
  | OVD b _ d => vd_fine L k b x d a
  | ODV b d _ => dv_fine L k b d x a
  | ONorm2 _ => Forall (fun x => ratio_safe k a x (l_norm2 L xs) (norm_of xs)) xs
  | ODotVV _ _ => mul_safe a xs
  | ODotVD _ d | ODotDV d _ => mul_safe a d
  | OMatVV _ _ _ _ _ => Forall (fun a => mul_safe a xs) adj
  | OMatVD _ _ _ _ d | OMatDV _ _ _ d _ => Forall (fun a => mul_safe a d) adj
  | OPart _ p _ => mul_safe a (p xs)
  | _ => False
  end.
(* along the way taken: all slopes, and what must not underflow when the lines have the
   adjoints adj *)
Fixpoint fn_slopes (f : @fn BN) (rs : list nat) (t : list (@line BN)) (w : list (list (nat * R))) : list (list (nat * R)) :=
  match f with
  | FRet _ => w
  | FCall o g =>
      let ks := lines_at rs (op_regs o) in let xs := map (@value BN t) ks in
      match step o ks xs with
      | New ls => fn_slopes g (rs ++ seq (length t) (length ls)) (t ++ ls) (w ++ op_slopes o ks xs)
      | Same => fn_slopes g (rs ++ ks) t w
      | Stops => w
      end
  | FTest q a b g => fn_slopes (g (written q (@value BN t (nth a rs 0%nat)) (@value BN t (nth b rs 0%nat)))) rs t w
  | FTestC q a d g => fn_slopes (g (written q (@value BN t (nth a rs 0%nat)) d)) rs t w
  end.
Fixpoint fn_safe (k : nat) (adj : nat -> binary64) (f : @fn BN) (rs : list nat) (t : list (@line BN)) : Prop :=
  match f with
  | FRet _ => True
  | FCall o g =>
      let ks := lines_at rs (op_regs o) in let xs := map (@value BN t) ks in
      match step o ks xs with
      | New ls => op_safe k o xs (map adj (seq (length t) (length ls))) /\
          fn_safe k adj g (rs ++ seq (length t) (length ls)) (t ++ ls)
      | Same => fn_safe k adj g (rs ++ ks) t
      | Stops => True
      end
  | FTest q a b g => fn_safe k adj (g (written q (@value BN t (nth a rs 0%nat)) (@value BN t (nth b rs 0%nat)))) rs t
  | FTestC q a d g => fn_safe k adj (g (written q (@value BN t (nth a rs 0%nat)) d)) rs t
  end.
End Functions.

