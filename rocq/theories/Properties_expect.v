(* C55.
   Vocabulary: fin x: the datum x is finite; rl x: its value as a real number; bnan x:
   x is a NaN.  The outcomes are Ok tt (the assertion returns), ErrStop (the program
   stops, the assertion failed) and Undef OutOfBounds. *)
From Coq Require Import Reals Lra.
From Flocq Require Import Core IEEE754.BinarySingleNaN IEEE754.Binary IEEE754.Bits.
From Verif Require Export Expect Claims_expect.

(* ---- C55 ---- *)
(* finite data: an assertion that returns guarantees the exact difference to be below the
   tolerance; it returns whenever a number below the tolerance bounds the difference *)
Theorem C55_near_partial (a b tol : binary64) : fin a = true -> fin b = true -> fin tol = true ->
  (expect_near a b tol = Ok tt \/ expect_near a b tol = ErrStop) /\
  (expect_near a b tol = Ok tt -> (Rabs (rl a - rl b) < rl tol)%R) /\
  (forall x, fin x = true -> (Rabs (rl a - rl b) <= rl x < rl tol)%R -> expect_near a b tol = Ok tt).
Proof. exact (near_spec a b tol). Qed.
Print Assumptions C55_near_partial.
Theorem C55_float_eq_partial (a b : binary64) : fin a = true -> fin b = true ->
  (expect_float_eq a b = Ok tt \/ expect_float_eq a b = ErrStop) /\
  (expect_float_eq a b = Ok tt -> (Rabs (rl a - rl b) < bpow radix2 (-21))%R) /\
  (forall x, fin x = true -> (Rabs (rl a - rl b) <= rl x < bpow radix2 (-21))%R -> expect_float_eq a b = Ok tt).
Proof. exact (float_spec a b). Qed.
Print Assumptions C55_float_eq_partial.
Theorem C55_dbl_eq_partial (a b : binary64) : fin a = true -> fin b = true ->
  (expect_dbl_eq a b = Ok tt \/ expect_dbl_eq a b = ErrStop) /\
  (expect_dbl_eq a b = Ok tt -> (Rabs (rl a - rl b) < bpow radix2 (-50))%R) /\
  (forall x, fin x = true -> (Rabs (rl a - rl b) <= rl x < bpow radix2 (-50))%R -> expect_dbl_eq a b = Ok tt).
Proof. exact (dbl_spec a b). Qed.
Print Assumptions C55_dbl_eq_partial.
(* both outcomes occur *)
Definition one64 : binary64 := b64_of_bits 4607182418800017408.
Definition one64_up (k : Z) : binary64 := b64_of_bits (4607182418800017408 + k).
Example C55_near_case : expect_dbl_eq (one64_up 3) one64 = Ok tt /\ expect_dbl_eq (one64_up 4) one64 = ErrStop /\
  fin one64 = true /\ fin (one64_up 3) = true /\ fin (one64_up 4) = true.
Proof. vm_compute. auto. Qed.
(* identical data pass; an infinity passes against nothing but itself or a NaN *)
Theorem C55_same (a tol : binary64) : fin tol = true -> (0 < rl tol)%R -> expect_near a a tol = Ok tt.
Proof. exact (near_refl a tol). Qed.
Print Assumptions C55_same.
Theorem C55_infinite s (b tol : binary64) : fin tol = true -> bnan b = false -> b <> B754_infinity 53 1024 s ->
  expect_near (B754_infinity 53 1024 s) b tol = ErrStop /\ expect_near b (B754_infinity 53 1024 s) tol = ErrStop.
Proof. exact (near_inf s b tol). Qed.
Print Assumptions C55_infinite.
Example C55_infinite_case : fin one64 = true /\ bnan one64 = false /\ one64 <> B754_infinity 53 1024 true /\ (0 < rl one64)%R.
Proof.
  split; [reflexivity|]. split; [reflexivity|]. split; [discriminate|].
  rewrite <- FF2R_B2FF. change (B2FF 53 1024 one64) with (F754_finite false 4503599627370496 (-52)).
  apply F2R_gt_0. reflexivity.
Qed.
(* false with a NaN: it passes against every number, with every tolerance *)
Theorem C55_nan_refuted : exists a : binary64, bnan a = true /\
  forall b tol, expect_near a b tol = Ok tt /\ expect_near b a tol = Ok tt.
Proof.
  exists cnan. split; [reflexivity|].
  exact (fun b tol => conj (near_nan cnan b tol (or_introl eq_refl)) (near_nan b cnan tol (or_intror eq_refl))).
Qed.
Print Assumptions C55_nan_refuted.
(* arrays of the same shape (rank two: as lists of columns): all elements pass *)
Theorem C55_array (a b : list binary64) : length a = length b ->
  (expect_dbl_eq_1 a b = Ok tt \/ expect_dbl_eq_1 a b = ErrStop) /\
  (expect_dbl_eq_1 a b = Ok tt <-> Forall2 (fun x y => expect_dbl_eq x y = Ok tt) a b) /\
  (expect_float_eq_1 a b = Ok tt \/ expect_float_eq_1 a b = ErrStop) /\
  (expect_float_eq_1 a b = Ok tt <-> Forall2 (fun x y => expect_float_eq x y = Ok tt) a b).
Proof. exact (arrays_1 a b). Qed.
Print Assumptions C55_array.
Theorem C55_matrix nr (a b : list (list binary64)) : length a = length b ->
  Forall (fun c => length c = nr) a -> Forall (fun c => length c = nr) b ->
  (expect_dbl_eq_2 nr a b = Ok tt \/ expect_dbl_eq_2 nr a b = ErrStop) /\
  (expect_dbl_eq_2 nr a b = Ok tt <-> Forall2 (Forall2 (fun x y => expect_dbl_eq x y = Ok tt)) a b) /\
  (expect_float_eq_2 nr a b = Ok tt \/ expect_float_eq_2 nr a b = ErrStop) /\
  (expect_float_eq_2 nr a b = Ok tt <-> Forall2 (Forall2 (fun x y => expect_float_eq x y = Ok tt)) a b).
Proof. exact (arrays_2 nr a b). Qed.
Print Assumptions C55_matrix.
Example C55_matrix_case :
  expect_dbl_eq_2 2 ((one64 :: one64_up 1 :: nil) :: (c0 :: one64 :: nil) :: nil)
                    ((one64 :: one64 :: nil) :: (c0 :: one64 :: nil) :: nil) = Ok tt /\
  expect_dbl_eq_2 2 ((one64 :: one64_up 1 :: nil) :: (c0 :: one64 :: nil) :: nil)
                    ((one64 :: one64 :: nil) :: (c0 :: c0 :: nil) :: nil) = ErrStop.
Proof. vm_compute. auto. Qed.
(* false for arrays of different sizes: what b has more is not looked at, what it lacks
   is read out of bounds *)
Theorem C55_size_refuted : exists a b : list binary64, length a <> length b /\
  expect_dbl_eq_1 a b = Ok tt /\ expect_dbl_eq_1 b a = Undef OutOfBounds.
Proof. exists nil, (c0 :: nil). exact size_case. Qed.
Print Assumptions C55_size_refuted.
Theorem C55_sizes chk (a b c : list binary64) x : length a = length b ->
  expect_eq_1 chk a (b ++ c) = expect_eq_1 chk a b /\
  (expect_eq_1 chk a b = Ok tt -> expect_eq_1 chk (a ++ x :: c) b = Undef OutOfBounds).
Proof. exact (fun H => conj (eq_1_longer chk a b c H) (eq_1_shorter chk a b x c H)). Qed.
Print Assumptions C55_sizes.
(* integers and logicals *)
Theorem C55_int_logical :
  (forall a b : Z, expect_eq a b = if (a =? b)%Z then Ok tt else ErrStop) /\
  (forall a : bool, expect_true a = if a then Ok tt else ErrStop).
Proof. exact int_logical. Qed.
Print Assumptions C55_int_logical.
