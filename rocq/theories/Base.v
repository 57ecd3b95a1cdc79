(* Outcomes, 32-bit integers and functional memories shared by all models.

   A Fortran procedure is modelled as a total function into [res].  What the
   language standard leaves undefined is a separate outcome [Undef], so a
   theorem that concludes [Ok] rules it out. *)
From Coq Require Export ZArith List Bool Lia.
Export ListNotations.
Open Scope Z_scope.

Inductive ub :=
| OutOfBounds      (* array element outside the declared or allocated bounds *)
| IntOverflow      (* default integer (int32) result not representable *)
| ShapeMismatch.   (* nonconforming array assignment, or an actual array
                      argument shorter than the explicit-shape dummy *)

Inductive res (A : Type) :=
| Ok (a : A)
| ErrStop          (* the program executed `error stop` *)
| Undef (u : ub)
| OutOfFuel.       (* a modelled loop did not finish in its fuel *)
Arguments Ok {A} a.
Arguments ErrStop {A}.
Arguments Undef {A} u.
Arguments OutOfFuel {A}.

Definition bind {A B} (r : res A) (f : A -> res B) : res B :=
  match r with
  | Ok a => f a
  | ErrStop => ErrStop
  | Undef u => Undef u
  | OutOfFuel => OutOfFuel
  end.
Notation "x <- e ;; k" := (bind e (fun x => k))
  (at level 61, e at next level, right associativity).
Notation "' p <- e ;; k" := (bind e (fun p => k))
  (at level 61, p pattern, e at next level, right associativity).

(* Left-to-right map with early exit: the model of a loop that fills an array. *)
Fixpoint mapM {A B} (f : A -> res B) (l : list A) : res (list B) :=
  match l with
  | [] => Ok []
  | x :: t => y <- f x ;; ys <- mapM f t ;; Ok (y :: ys)
  end.

(* Left-to-right loop that threads a state. *)
Fixpoint foldM {A S} (f : S -> A -> res S) (l : list A) (s : S) : res S :=
  match l with
  | [] => Ok s
  | x :: t => s' <- f s x ;; foldM f t s'
  end.

(* integer(int32): src/env.F90:25 *)
Definition max_int : Z := 2147483647.
Definition min_int : Z := -2147483648.
Definition is_int32 (z : Z) : bool := (min_int <=? z) && (z <=? max_int).

(* An int32 result that does not fit is undefined. *)
Definition i32 (z : Z) : res Z := if is_int32 z then Ok z else Undef IntOverflow.

(* [Z]-indexed memories.  Bounds live beside the memory, not in it. *)
Definition upd {A} (m : Z -> A) (i : Z) (x : A) : Z -> A :=
  fun j => if j =? i then x else m j.

(* first, first+1, ..., n elements *)
Fixpoint zseq (first : Z) (n : nat) : list Z :=
  match n with
  | O => []
  | S k => first :: zseq (first + 1) k
  end.

Definition zlen {A} (l : list A) : Z := Z.of_nat (length l).

(* src/env.F90:17 *)
Definition min_rec_size : Z := 6.
