(* Specification of C46 and C47. *)
From Verif Require Export Cvodes ExactSpec RSpec.

(* ---- C46 ---- *)
Section Sens.
Local Open Scope R_scope.
Context {lg : R -> R}.

(* component i of the user's right-hand side as a function of y and p: its
   formula, run on y, on the zeros the array f holds at the call, and on p *)
Definition rhs_value (q : R -> list (@op (RNum lg))) (outs : list nat) (t : R) (i : nat) (y p : list R) : R :=
  nth (nth i outs O) (eval (q t) (y ++ repeat 0 (length y) ++ p)) 0.

(* d = sum_l (df/dy_l) v_l, plus df/dp_j for a parameter j *)
Definition sens_eq (f : list R -> list R -> R) (y p v : list R) (par : option nat) (d : R) : Prop :=
  exists (J : nat -> R) (e : R),
    (forall l, (l < length y)%nat -> is_derive (fun u => f (hold l u 0 y) p) (nth l y 0) (J l)) /\
    match par with
    | None => e = 0
    | Some j => is_derive (fun u => f y (hold j u 0 p)) (nth j p 0) e
    end /\
    d = rsum (map (fun l => J l * nth l v 0) (seq 0 (length y))) + e.

(* r answers a callback: its j-th vector has the components above, for v the j-th
   sensitivity and the parameter named by par, if any *)
Definition sens_answer (q : R -> list (@op (RNum lg))) (outs : list nat) (p : list R) (par : nat -> option nat)
    (t : R) (y : list R) (yS r : list (list R)) : Prop :=
  length r = length yS /\ forall j, (j < length yS)%nat -> length (nth j r []) = length y /\
    forall i, (i < length y)%nat -> sens_eq (rhs_value q outs t i) y p (nth j yS []) (par j) (nth i (nth j r []) 0).
End Sens.

(* ---- C47 ---- *)
Section Paths.
Context {N : Num} {RL : RepLaws N} {C : Cfg N}.

(* what the integrator delivers at n output times when each callback gets an
   answer allowed by A *)
Inductive delivers (A : F -> list F -> list (list F) -> list (list F) -> Prop) : nat -> solver -> list (list F * list (list F)) -> Prop :=
| dl_end : forall p, delivers A 0 p []
| dl_out : forall n y yS p l, delivers A n p l -> delivers A (S n) (Output y yS p) ((y, yS) :: l)
| dl_call : forall n t y yS k r l, A t y yS r -> delivers A (S n) (k r) l -> delivers A (S n) (Callback t y yS k) l.

(* the integrator's vectors have n components and there are ns sensitivities, as
   long as the answers it gets are of these sizes; D holds of every point at which
   it asks for the right-hand side *)
Fixpoint asks (D : F -> list F -> Prop) (n ns : nat) (p : solver) : Prop :=
  let fits yS := length yS = ns /\ Forall (fun v => length v = n) yS in
  match p with
  | Failure => True
  | Callback t y yS k => D t y /\ length y = n /\ fits yS /\ forall r, fits r -> asks D n ns (k r)
  | Output y yS p => length y = n /\ fits yS /\ asks D n ns p
  end.

(* the n unit vectors; k zero vectors *)
Definition unit_vectors (n : nat) : list (list F) := map (fun j => map (fun i => if Nat.eqb i j then f1 else f0) (seq 0 n)) (seq 0 n).
Definition zero_vectors (k n : nat) : list (list F) := repeat (repeat f0 n) k.

(* column k of the result has n new variables; variable i has component i of the
   k-th delivered vector as value and, with adjoint a, its step in the gradient pass
   adds a times component i of the j-th delivered sensitivity to ops(j) *)
Definition solution (s s' : st) (ops : list Z) (n : nat) (l : list (list F * list (list F))) (yt : list (list Z)) : Prop :=
  length yt = length l /\ forall k hs, nth_error yt k = Some hs ->
    exists y yS, nth_error l k = Some (y, yS) /\ length hs = n /\
      forall i h, nth_error hs i = Some h ->
        records s s' h (nth i y f0) (fun a => combine ops (map (fmul a) (map (fun v => nth i v f0) yS))).

(* set_zero_all_adj, then grad on h: the adjoints of zs are ds *)
Definition gradient_is (s : st) (h : Z) (zs : list Z) (ds : list F) : Prop :=
  exists s1 s2, set_zero_all_adj s = Ok (tt, s1) /\ grad h s1 = Ok (tt, s2) /\ mapM (var_adj s2) zs = Ok ds.
End Paths.
