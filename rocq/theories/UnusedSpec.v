(* Specification of C13 in any arithmetic. *)
From Verif Require Export ReverseSpec.
Local Open Scope nat_scope.

Section Unused.
Context {N : Num}.

(* a set u of lines such that with a line it contains every line its step may add to:
   a set containing y and closed in this sense contains all lines y is computed from *)
Definition upward (t : list line) (u : nat -> bool) : Prop :=
  forall k l a i, u k = true -> nth_error t k = Some l -> In i (map fst (l_back l a)) -> u i = true.

(* the step of a line outside u, run with adjoint zero, adds nothing that changes a zero *)
Definition silent (t : list line) (u : nat -> bool) : Prop :=
  forall k l, u k = false -> nth_error t k = Some l -> Forall (fun p => fadd f0 (snd p) = f0) (l_back l f0).
End Unused.
