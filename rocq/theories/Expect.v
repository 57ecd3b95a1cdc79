(* src/test.F90, the assertions shipped with the library.  They work on real64 only,
   so the model is on IEEE binary64 directly.  What they print before stopping is not
   modelled; `stop` is [ErrStop]. *)
From Flocq Require Import IEEE754.BinarySingleNaN IEEE754.Binary IEEE754.Bits.
From Verif Require Export B64.

(* ulp_f = 1.19209290e-7: src/test.F90:6, a single precision literal, that is 2**(-23) *)
Definition ulp_f : binary64 := b64_of_bits 4503599627370496000.
(* ulp_d = 2.2204460492503131e-16: src/test.F90:7, written without a kind, so a single
   precision literal; its value is 2**(-52) exactly *)
Definition ulp_d : binary64 := b64_of_bits 4372995238176751616.
(* 4.d0 *)
Definition four : binary64 := b64_of_bits 4616189618054758400.

(* expect_near_impl: src/test.F90:23-33 *)
Definition expect_near (a b tol : binary64) : res unit :=
  if b_le tol (b64_abs (b64_minus rne a b)) then ErrStop else Ok tt.

(* expect_float_eq_impl_0: src/test.F90:35-45 *)
Definition expect_float_eq (a b : binary64) : res unit := expect_near a b (b64_mult rne four ulp_f).
(* expect_dbl_eq_impl_0: src/test.F90:100-110 *)
Definition expect_dbl_eq (a b : binary64) : res unit := expect_near a b (b64_mult rne four ulp_d).

(* array reads; an index past the end of the array is out of bounds *)
Definition elem {A} (l : list A) (i : nat) : res A :=
  match nth_error l i with Some x => Ok x | None => Undef OutOfBounds end.

(* the loop of expect_float_eq_impl_1: src/test.F90:47-59 and expect_dbl_eq_impl_1:
   112-124; it runs over the indices of a *)
Definition expect_eq_1 (chk : binary64 -> binary64 -> res unit) (a b : list binary64) : res unit :=
  foldM (fun _ i => x <- elem a i ;; y <- elem b i ;; chk x y) (seq 0 (length a)) tt.
Definition expect_float_eq_1 := expect_eq_1 expect_float_eq.
Definition expect_dbl_eq_1 := expect_eq_1 expect_dbl_eq.

(* a rank two array, as its list of columns *)
Definition elem2 {A} (m : list (list A)) (j i : nat) : res A := c <- elem m i ;; elem c j.

(* the loops of expect_float_eq_impl_2: src/test.F90:61-75 and expect_dbl_eq_impl_2:
   126-140: the columns of a, in each the rows of a *)
Definition expect_eq_2 (chk : binary64 -> binary64 -> res unit) (nr : nat) (a b : list (list binary64)) : res unit :=
  foldM (fun _ i => foldM (fun _ j => x <- elem2 a j i ;; y <- elem2 b j i ;; chk x y) (seq 0 nr) tt) (seq 0 (length a)) tt.
Definition expect_float_eq_2 := expect_eq_2 expect_float_eq.
Definition expect_dbl_eq_2 := expect_eq_2 expect_dbl_eq.

(* expect_eq_impl: src/test.F90:77-87; expect_true_impl: 89-98 *)
Definition expect_eq (a b : Z) : res unit := if negb (a =? b)%Z then ErrStop else Ok tt.
Definition expect_true (a : bool) : res unit := if negb a then ErrStop else Ok tt.
