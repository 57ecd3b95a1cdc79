(* A math library to run the repository's own tests with: every function is
   evaluated with integers scaled by 2**192 and rounded once to binary64.  Used by
   tests only (Repo_tests.v); no theorem depends on it. *)
From Flocq Require Import IEEE754.BinarySingleNaN IEEE754.Binary IEEE754.Bits.
From Verif Require Import B64 Expect.
Local Open Scope Z_scope.

Definition sc : Z := 192.
Definition one_ : Z := 2 ^ sc.

(* m * 2**e rounded to nearest *)
Definition round64 (m e : Z) : binary64 :=
  binary_normalize 53 1024 (eq_refl _) (eq_refl _) rne m e false.
Definition of_fix (z : Z) : binary64 := round64 z (- sc).
(* a finite number, cut to the scale *)
Definition to_fix (x : binary64) : Z :=
  match x with
  | B754_finite _ _ s m e _ => Z.shiftl (if s then Zneg m else Zpos m) (e + sc)
  | _ => 0
  end.
(* a / b rounded to nearest, b > 0 *)
Definition ratio (a b : Z) : binary64 :=
  let n := Z.shiftl (Z.abs a) 1200 in
  let q := n / b in
  let q' := 2 * q + (if n mod b =? 0 then 0 else 1) in
  round64 (Z.sgn a * q') (-1201).
(* the literal m * 10**e *)
Definition lit (m e : Z) : binary64 := if 0 <=? e then round64 (m * 10 ^ e) 0 else ratio m (10 ^ (- e)).

Definition mulf (a b : Z) : Z := Z.shiftr (a * b) sc.
Definition divf (a b : Z) : Z := Z.shiftl a sc / b.
Definition sqrtf (a : Z) : Z := Z.sqrt (Z.shiftl a sc).

(* sum of t_k, t_(k+1) = t_k * x / d_k *)
Fixpoint series (n : nat) (k : Z) (d : Z -> Z) (x t acc : Z) : Z :=
  match n with
  | O => acc
  | S n' => series n' (k + 1) d x (mulf t x / d k) (acc + t)
  end.
(* sum of p_k / (2k+1), p_(k+1) = p_k * x *)
Fixpoint odd_series (n : nat) (k : Z) (x p acc : Z) : Z :=
  match n with
  | O => acc
  | S n' => odd_series n' (k + 1) x (mulf p x) (acc + p / (2 * k + 1))
  end.

Fixpoint squares (n : nat) (z : Z) : Z := match n with O => z | S n' => squares n' (mulf z z) end.
Definition expf (x : Z) : Z := squares 12 (series 30 1 (fun k => k) (Z.shiftr x 12) one_ 0).
Definition atanhf (t : Z) : Z := odd_series 80 0 (mulf t t) t 0.
Definition ln2 : Z := 2 * atanhf (one_ / 3).
(* x > 0: x = m * 2**e, 1 <= m < 2 *)
Definition logf (x : Z) : Z :=
  let e := Z.log2 x - sc in
  let m := Z.shiftl x (- e) in
  e * ln2 + 2 * atanhf (divf (m - one_) (m + one_)).
Definition sinf (x : Z) : Z := series 60 1 (fun k => - (2 * k * (2 * k + 1))) (mulf x x) x 0.
Definition cosf (x : Z) : Z := series 60 1 (fun k => - ((2 * k - 1) * (2 * k))) (mulf x x) one_ 0.
Fixpoint atan_red (n : nat) (x : Z) : Z :=
  match n with
  | O => odd_series 60 0 (- mulf x x) x 0
  | S n' => 2 * atan_red n' (divf x (one_ + sqrtf (one_ + mulf x x)))
  end.
Definition atanf (x : Z) : Z := atan_red 4 x.
Definition pif : Z := 4 * atanf one_.
Definition asinf (x : Z) : Z := atanf (divf x (sqrtf (one_ - mulf x x))).
Definition sinhf (x : Z) : Z := (expf x - expf (- x)) / 2.
Definition coshf (x : Z) : Z := (expf x + expf (- x)) / 2.
(* 2/sqrt(pi) * sum (-1)^k x^(2k+1) / (k! (2k+1)) *)
Fixpoint erf_series (n : nat) (k : Z) (x2 t acc : Z) : Z :=
  match n with
  | O => acc
  | S n' => erf_series n' (k + 1) x2 (- mulf t x2 / (k + 1)) (acc + t / (2 * k + 1))
  end.
Definition erff (x : Z) : Z := mulf (divf (2 * one_) (sqrtf pif)) (erf_series 120 0 (mulf x x) x 0).
(* log gamma by Stirling's series at x + 40 *)
Fixpoint logs (n : nat) (x : Z) : Z := match n with O => 0 | S n' => logf x + logs n' (x + one_) end.
Definition lgammaf (x : Z) : Z :=
  let z := x + 40 * one_ in
  let i := divf one_ z in
  let i2 := mulf i i in
  let i3 := mulf i i2 in
  let i5 := mulf i3 i2 in
  let i7 := mulf i5 i2 in
  let i9 := mulf i7 i2 in
  let i11 := mulf i9 i2 in
  mulf (z - one_ / 2) (logf z) - z + logf (2 * pif) / 2
  + i / 12 - i3 / 360 + i5 / 1260 - i7 / 1680 + i9 / 1188 - 691 * i11 / 360360
  - logs 40 x.

Definition big (x : binary64) : bool := b_lt (lit 60 0) (b64_abs x).
Definition neg64 (x : binary64) : bool := b_lt x c0.
Definition fin64 (x : binary64) : bool := match x with B754_finite _ _ _ _ _ _ | B754_zero _ _ _ => true | _ => false end.
Definition inf64 (s : bool) : binary64 := B754_infinity 53 1024 s.
(* x finite, else NaN *)
Definition on_fin (f : binary64 -> binary64) (x : binary64) : binary64 := if fin64 x then f x else cnan.
Definition via (f : Z -> Z) : binary64 -> binary64 := on_fin (fun x => of_fix (f (to_fix x))).
Definition in_unit (f : Z -> Z) (x : binary64) : binary64 :=
  if b_lt (b64_abs x) c1 then via f x else cnan.
Definition exp64 (x : binary64) : binary64 :=
  if b_lt (lit 710 0) x then inf64 false
  else if b_lt x (lit (-740) 0) then c0
  else if b_lt x (lit (-60) 0) then on_fin (fun x => ratio one_ (expf (- to_fix x))) x
  else via expf x.
Definition log64 (x : binary64) : binary64 :=
  match x with
  | B754_finite _ _ false m e _ =>
      (* the exponent aside, so that tiny arguments keep their digits *)
      of_fix (e * ln2 + logf (Z.shiftl (Zpos m) sc))
  | B754_zero _ _ _ => inf64 true
  | B754_infinity _ _ false => x
  | _ => cnan
  end.
Definition erf64 (x : binary64) : binary64 :=
  if b_lt (lit 6 0) (b64_abs x) then (if neg64 x then b64_opp c1 else c1) else via erff x.
Definition erfc64 (x : binary64) : binary64 :=
  if b_lt (lit 6 0) (b64_abs x) then (if neg64 x then c2 else c0) else via (fun z => one_ - erff z) x.
Definition pow64 (x y : binary64) : binary64 :=
  if b_lt c0 x then of_fix (expf (mulf (to_fix y) (logf (to_fix x)))) else cnan.
Definition trunc (x : binary64) : Z := Z.quot (to_fix x) one_.
Definition fold64 (l : list binary64) : binary64 := fold_left (b64_plus rne) l c0.
Definition dot64 (a b : list binary64) : binary64 := fold64 (map (fun p => b64_mult rne (fst p) (snd p)) (combine a b)).
Definition max64 (l : list binary64) : binary64 := fold_left (fun a b => if b_lt a b then b else a) l (inf64 true).
Definition pi64 : binary64 := of_fix pif.

Definition tm : Libm := {|
  l_sin := via sinf; l_cos := via cosf;
  l_tan := on_fin (fun x => let c := cosf (to_fix x) in ratio (Z.sgn c * sinf (to_fix x)) (Z.abs c));
  l_asin := in_unit asinf; l_acos := in_unit (fun x => pif / 2 - asinf x); l_atan := via atanf;
  l_sinh := via sinhf; l_cosh := via coshf; l_tanh := via (fun x => divf (sinhf x) (coshf x));
  l_asinh := via (fun x => logf (x + sqrtf (mulf x x + one_)));
  l_acosh := via (fun x => logf (x + sqrtf (mulf x x - one_)));
  l_atanh := in_unit (fun x => logf (divf (one_ + x) (one_ - x)) / 2);
  l_exp := exp64; l_log := log64;
  l_erf := erf64; l_erfc := erfc64; l_loggamma := via lgammaf;
  l_aint := on_fin (fun x => round64 (trunc x) 0); l_int := trunc; l_ofZ := fun z => round64 z 0;
  l_pow := pow64;
  l_hypot := fun x y => of_fix (sqrtf (mulf (to_fix x) (to_fix x) + mulf (to_fix y) (to_fix y)));
  l_sum := fold64; l_dot := dot64;
  l_norm2 := fun l => b64_sqrt rne (fold64 (map (fun x => b64_mult rne x x) l));
  l_maxval := max64; l_mm := dot64;
  l_dec := lit;
  l_two_over_sqrt_pi := b64_div rne c2 (b64_sqrt rne pi64);
  l_log_epsilon := log64 (round64 1 (-1022));
  l_log_sqrt_two_pi := b64_mult rne chalf (b64_plus rne (log64 c2) (log64 pi64))
|}.
