(* IEEE binary64 stored in two int32 words: the arithmetic the library is
   compiled with.  The five IEEE operations and comparisons are Flocq's, with
   round to nearest even.  Everything the standard leaves to the math library
   or to the processor (transcendental functions, summation order, decimal
   literals) is a parameter [Libm]: theorems hold for every choice. *)
From Verif Require Export Num.
From Flocq Require Import IEEE754.BinarySingleNaN IEEE754.Binary IEEE754.Bits.

Record Libm := {
  l_sin : binary64 -> binary64; l_cos : binary64 -> binary64; l_tan : binary64 -> binary64;
  l_asin : binary64 -> binary64; l_acos : binary64 -> binary64; l_atan : binary64 -> binary64;
  l_sinh : binary64 -> binary64; l_cosh : binary64 -> binary64; l_tanh : binary64 -> binary64;
  l_asinh : binary64 -> binary64; l_acosh : binary64 -> binary64; l_atanh : binary64 -> binary64;
  l_exp : binary64 -> binary64; l_log : binary64 -> binary64;
  l_erf : binary64 -> binary64; l_erfc : binary64 -> binary64; l_loggamma : binary64 -> binary64;
  l_aint : binary64 -> binary64; l_int : binary64 -> Z; l_ofZ : Z -> binary64;
  l_pow : binary64 -> binary64 -> binary64; l_hypot : binary64 -> binary64 -> binary64;
  l_sum : list binary64 -> binary64;
  l_dot : list binary64 -> list binary64 -> binary64;
  l_norm2 : list binary64 -> binary64;
  l_maxval : list binary64 -> binary64;
  l_mm : list binary64 -> list binary64 -> binary64;
  l_dec : Z -> Z -> binary64;
  l_two_over_sqrt_pi : binary64;
  l_log_epsilon : binary64;
  l_log_sqrt_two_pi : binary64
}.

(* one int32 of storage, signed *)
Definition two32 : Z := 4294967296.
Definition to_s32 (z : Z) : Z := if z <? 2147483648 then z else z - two32.
Definition to_u32 (w : Z) : Z := w mod two32.

(* transfer(d, int32 array): low word first *)
Definition enc64 (x : binary64) : Z * Z :=
  let b := bits_of_b64 x in (to_s32 (b mod two32), to_s32 (b / two32)).
(* transfer(int32 array, real64) *)
Definition dec64 (lo hi : Z) : binary64 := b64_of_bits (to_u32 lo + two32 * to_u32 hi).

Definition b_cmp (a b : binary64) : option comparison := b64_compare a b.
Definition b_eq (a b : binary64) : bool := match b_cmp a b with Some Eq => true | _ => false end.
Definition b_lt (a b : binary64) : bool := match b_cmp a b with Some Lt => true | _ => false end.
Definition b_le (a b : binary64) : bool :=
  match b_cmp a b with Some Lt | Some Eq => true | _ => false end.

Definition rne : mode := BinarySingleNaN.mode_NE.

(* bit patterns *)
Definition c0 : binary64 := B754_zero 53 1024 false.
Definition c1 : binary64 := b64_of_bits 4607182418800017408.          (* 0x3FF0... *)
Definition c2 : binary64 := b64_of_bits 4611686018427387904.          (* 0x4000... *)
Definition chalf : binary64 := b64_of_bits 4602678819172646912.       (* 0x3FE0... *)
Definition cmax : binary64 := b64_of_bits 9218868437227405311.        (* 0x7FEF...F *)
(* arith.F90:10: the int64 -2251799813685248, that is 0xFFF8000000000000 *)
Definition cnan : binary64 := b64_of_bits 18444492273895866368.

Definition B64 (L : Libm) : Num := {|
  F := binary64; W := Z;
  f0 := c0; f1 := c1; f2 := c2; fhalf := chalf;
  fadd := b64_plus rne; fsub := b64_minus rne; fmul := b64_mult rne; fdiv := b64_div rne;
  fneg := b64_opp;
  feq := b_eq; flt := b_lt; fle := b_le;
  fsin := l_sin L; fcos := l_cos L; ftan := l_tan L;
  fasin := l_asin L; facos := l_acos L; fatan := l_atan L;
  fsinh := l_sinh L; fcosh := l_cosh L; ftanh := l_tanh L;
  fasinh := l_asinh L; facosh := l_acosh L; fatanh := l_atanh L;
  fexp := l_exp L; flog := l_log L; fsqrt := b64_sqrt rne;
  ferf := l_erf L; ferfc := l_erfc L; floggamma := l_loggamma L;
  fabs := b64_abs; faint := l_aint L; fint := l_int L; fofZ := l_ofZ L;
  fpow := l_pow L; fhypot := l_hypot L;
  fsum := l_sum L; fdot := l_dot L; fnorm2 := l_norm2 L; fmaxval := l_maxval L; fmm := l_mm L;
  fdec := l_dec L; c_nan := cnan;
  c_two_over_sqrt_pi := l_two_over_sqrt_pi L; c_log_epsilon := l_log_epsilon L;
  c_log_sqrt_two_pi := l_log_sqrt_two_pi L; c_huge := cmax;
  w_of_int := fun z => z; int_of_w := fun w => w;
  enc := enc64; dec := dec64
|}.
