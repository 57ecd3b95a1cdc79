(* Specification of C58: what the programs of the documentation should print. *)
From Coq Require Import List.
From Verif Require Export Num RNum ArrSpec.
Import ListNotations.
Local Open Scope nat_scope.

Section Any.
Context {N : Num}.
(* the backward pass of the normal density by hand, operation by operation *)
Definition normal_back (y mu sigma : F) : list F :=
  let q := fdiv (fsub y mu) sigma in
  let half := fadd f0 (fneg f1) in                            (* adjoint of 0.5 * q**2 *)
  let square := fadd f0 (fmul half fhalf) in                  (* of q**2 *)
  let quot := fadd f0 (fmul (fmul square f2) q) in            (* of q *)
  let diff := fadd f0 (fdiv quot sigma) in                    (* of y - mu *)
  let logs := fadd f0 (fneg (fadd f0 f1)) in                  (* of log(sigma) *)
  [fadd f0 (fneg diff); fadd (fadd f0 (fneg (fdiv (fmul q quot) sigma))) (fdiv logs sigma)].
End Any.

Local Open Scope R_scope.
(* log density of the normal distribution *)
Definition normal_density (y mu sigma : R) : R := ln (1 / (sigma * sqrt (2 * PI)) * exp (- (1 / 2) * ((y - mu) / sigma) ^ 2)).

(* for every entry (i,j) of x y, column by column, the derivatives by the entries of x (m by
   p) and of y (p by n), column by column: x(i,l) has y(l,j) and y(l,j) has x(i,l) *)
Definition matmul_back (m p n : nat) (x y : list R) : list (list R) :=
  flat_map (fun j => map (fun i =>
    flat_map (fun l => map (fun r => if Nat.eqb r i then nth (l + j * p) y 0 else 0) (seq 0 m)) (seq 0 p) ++
    flat_map (fun c => map (fun l => if Nat.eqb c j then nth (i + l * m) x 0 else 0) (seq 0 p)) (seq 0 n))
    (seq 0 m)) (seq 0 n).
