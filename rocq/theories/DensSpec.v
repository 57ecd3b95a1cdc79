(* Specification of C60: accuracy of the two densities in binary64.  Real numbers and
   roundings only. *)
From Coq Require Import Reals List.
From Flocq Require Import Core IEEE754.Binary IEEE754.Bits.
From Verif Require Export AccSpec.
Import ListNotations.
Local Open Scope R_scope.
Local Notation "x *b y" := (b64_mult rne x y) (at level 40).
Local Notation "x /b y" := (b64_div rne x y) (at level 40).

Definition sumR (l : list R) : R := fold_right Rplus 0 l.
(* v is the sum of the numbers xs up to k roundings of each; nothing overflowed *)
Definition sum_near (k : nat) (xs : list binary64) (v : binary64) : Prop :=
  Forall (fun x => fin x = true) xs /\ fin v = true /\
  Rabs (rl v - sumR (map rl xs)) <= ((1 + roundoff) ^ k - 1) * sumR (map (fun x => Rabs (rl x)) xs).
(* unless it overflowed, x is off r by at most a part of A that grows with the number n of
   roundings *)
Definition off_by (n : nat) (x : binary64) (r A : R) : Prop := fin x = true -> Rabs (rl x - r) <= ((1 + roundoff) ^ n - 1) * A.

(* for one observation: d is the distance from the mean, in units to be scaled by sigma *)
Definition score_safe (sigma d : binary64) : Prop :=
  let i := B64.c1 /b sigma in let z := d *b i in
  clear (1 / rl sigma) /\ clear (rl d * rl i) /\ clear (rl z * rl i) /\ clear (rl (i *b z) * rl z) /\
  clear (/ 2 * rl z) /\ clear (rl (chalf *b z) * rl z).
(* the terms whose roundings count, made positive: D stands for the distance *)
Definition size_mu (sigma D : R) : R := D / sigma ^ 2.
Definition size_sigma (sigma D : R) : R := D ^ 2 / sigma ^ 3 + / sigma.
Definition size_value (sigma D : R) : R := (D / sigma) ^ 2 / 2 + Rabs (ln sigma) + ln (sqrt (2 * PI)).

(* a procedure of one or two variables as a function of an array *)
Definition of1 {A B : Type} (f : Z -> A -> res B) (xv : list Z) (s : A) : res B := match xv with [a] => f a s | _ => ErrStop end.
Definition of2 {A B : Type} (f : Z -> Z -> A -> res B) (xv : list Z) (s : A) : res B := match xv with [a; b] => f a b s | _ => ErrStop end.
