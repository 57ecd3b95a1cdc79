(* The arithmetic the library is written in.

   [F] is real64, [W] is one int32 word of tape storage.  The class only lists
   the operations; [RepLaws] states the three facts about the word
   representation that the storage proofs need.  Two instances are given: exact
   reals ([RNum]) and IEEE binary64 on two 32-bit words ([B64]). *)
From Verif Require Export Base.

Class Num := {
  F : Type;
  W : Type;
  f0 : F; f1 : F; f2 : F; fhalf : F;      (* 0.d0 1.d0 2.d0 0.5d0 *)
  fadd : F -> F -> F;
  fsub : F -> F -> F;
  fmul : F -> F -> F;
  fdiv : F -> F -> F;
  fneg : F -> F;
  feq : F -> F -> bool;                   (* a == b *)
  flt : F -> F -> bool;                   (* a < b  *)
  fle : F -> F -> bool;                   (* a <= b *)
  (* Fortran intrinsics *)
  fsin : F -> F; fcos : F -> F; ftan : F -> F;
  fasin : F -> F; facos : F -> F; fatan : F -> F;
  fsinh : F -> F; fcosh : F -> F; ftanh : F -> F;
  fasinh : F -> F; facosh : F -> F; fatanh : F -> F;
  fexp : F -> F; flog : F -> F; fsqrt : F -> F;
  ferf : F -> F; ferfc : F -> F; floggamma : F -> F;
  fabs : F -> F; faint : F -> F; fint : F -> Z; fofZ : Z -> F;
  fpow : F -> F -> F; fhypot : F -> F -> F;
  (* array intrinsics; the order of summation is the processor's choice *)
  fsum : list F -> F;
  fdot : list F -> list F -> F;
  fnorm2 : list F -> F;
  fmaxval : list F -> F;
  (* one entry of matmul, from the row and the column it combines *)
  fmm : list F -> list F -> F;
  (* decimal literal m * 10^e, and named constants of src/arith.F90 *)
  fdec : Z -> Z -> F;
  c_nan : F;                              (* nan64: arith.F90:10 *)
  c_two_over_sqrt_pi : F;                 (* arith.F90:25 *)
  c_log_epsilon : F;                      (* arith.F90:34 *)
  c_log_sqrt_two_pi : F;                  (* arith.F90:49 *)
  c_huge : F;                             (* huge(d) *)
  (* storage words *)
  w_of_int : Z -> W;
  int_of_w : W -> Z;
  enc : F -> W * W;                       (* transfer(real64, int32 array) *)
  dec : W -> W -> F                       (* transfer(int32 array, real64) *)
}.

Class RepLaws (N : Num) : Prop := {
  dec_enc : forall x, dec (fst (enc x)) (snd (enc x)) = x;
  int_w : forall z, is_int32 z = true -> int_of_w (w_of_int z) = z;
  dec_zero : dec (w_of_int 0) (w_of_int 0) = f0
}.

(* Build configuration and the meaning given to nonconforming arrays.

   [init_len] is init_vari_stack_size (src/env.F90:10-14).
   [junk] = None: a shape mismatch is undefined (the standard).
   [junk] = Some j: a shape mismatch leaves the missing elements with the
   arbitrary contents [j], as compiled code without checks does. *)
Class Cfg (N : Num) := {
  init_len : Z;
  junk : option ((nat -> F) * (nat -> Z))
}.

(* src/env.F90:19 *)
Definition init_tape_size {N : Num} {C : Cfg N} : Z := 2 * min_rec_size * init_len.

Definition cfg_ok {N : Num} (C : Cfg N) : Prop :=
  1 <= init_len /\ init_tape_size <= max_int.

(* First n elements of l, completed from j. *)
Fixpoint fit {A} (j : nat -> A) (n : nat) (l : list A) : list A :=
  match n with
  | O => []
  | S k => match l with
           | [] => j n :: fit j k []
           | x :: t => x :: fit j k t
           end
  end.

Section Conform.
Context {N : Num} {C : Cfg N}.

(* Assignment of a whole array of size [length l] to an array of size n. *)
Definition conform (n : nat) (l : list F) : res (list F) :=
  if Nat.eqb (length l) n then Ok l
  else match junk with
       | None => Undef ShapeMismatch
       | Some j => Ok (fit (fst j) n l)
       end.

Definition conformZ (n : nat) (l : list Z) : res (list Z) :=
  if Nat.eqb (length l) n then Ok l
  else match junk with
       | None => Undef ShapeMismatch
       | Some j => Ok (fit (snd j) n l)
       end.

(* Actual argument l for a dummy declared with explicit size n: it may be
   longer, it must not be shorter. *)
Definition explicit_dummy (n : nat) (l : list F) : res (list F) :=
  if Nat.leb n (length l) then Ok (firstn n l)
  else match junk with
       | None => Undef ShapeMismatch
       | Some j => Ok (fit (fst j) n l)
       end.
End Conform.
