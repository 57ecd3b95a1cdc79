(* C46, C47 in real arithmetic for right-hand sides with tests and matrix products. *)
From Verif Require Export SensSpec.
Local Open Scope R_scope.

Section Smooth.
Context {lg : R -> R}.
Notation N := (RNum lg).

(* component i of the right-hand side as a function of y and p: its formula, run on y, on
   the zeros the array f holds at the call, and on p *)
Definition rhs_fval (q : R -> @fn N) (t : R) (i : nat) (y p : list R) : R :=
  nth i (fval (q t) (y ++ repeat 0 (length y) ++ p)) 0.

(* the point lies in its domain, it names registers it has and gives n components *)
Definition rhs_at (q : R -> @fn N) (p : list R) (n : nat) (t : R) (y : list R) : Prop :=
  let ws := y ++ repeat 0 (length y) ++ p in fdom (q t) ws /\ fregs (q t) ws /\ length (fval (q t) ws) = n.

(* tape words that a callback takes *)
Definition rhs_words (q : R -> @fn N) (p : list R) (t : R) (y : list R) : Z :=
  let ws := y ++ repeat 0 (length y) ++ p in (6 * zlen ws + fwords (q t) ws)%Z.

(* r answers a callback: vector j is (df/dy) v_j, plus df/dp_k for the parameter k = par j *)
Definition rhs_answer (q : R -> @fn N) (p : list R) (par : nat -> option nat) (t : R) (y : list R) (yS r : list (list R)) : Prop :=
  length r = length yS /\ forall j, (j < length yS)%nat -> length (nth j r []) = length y /\
    forall i, (i < length y)%nat -> sens_eq (rhs_fval q t i) y p (nth j yS []) (par j) (nth i (nth j r []) 0).
End Smooth.
