(* Right-hand sides and integrators used in the examples of Properties_cvodes.v,
   and the two calls that go wrong. *)
From Coq Require Import ZifyBool ZifyNat.
From Flocq Require Import IEEE754.BinarySingleNaN IEEE754.Binary IEEE754.Bits.
From Verif Require Import TapeFacts.
From Verif Require Export Claims_cvodes Properties_more.
Local Open Scope R_scope.

(* examples: y1' = y1*y2, y2' = y1, and y' = p1*y + p2; p3 is not used; an
   integrator that calls back twice, at the initial values and at the first answer *)
Definition ode (t : @F RN) : list (@op RN) := [OVV BMul 0 1].
Definition ode_out : list nat := [4; 0]%nat.
Definition odep (t : @F RN) : list (@op RN) := [OVV BMul 0 2; OVV BAdd 5 3].
Definition odep_out : list nat := [6]%nat.
Definition steps : @integrator RN := fun y yS => @Callback RN 0 y yS (fun r => Output y r (@Callback RN 1 y yS (fun r2 => Output y r2 Failure))).

(* y' = y*y, by matmul *)
Definition ode_mat (t : @F RN) : list (@op RN) := OMatVV 1 1 1 (0%nat :: nil) (0%nat :: nil) :: nil.


Lemma matmul_rhs_fails : exists (s : @st RN) (S0 : @integrator RN), @reachable RN DM [1; 2; 3; 4; 4]%Z s /\ alive s 1 /\
  @asks RN (fun t u => prog_dom (ode_mat t) (u ++ repeat 0 1)) 1 1 (S0 (2 :: nil) (@unit_vectors RN 1)) /\
  @cvodes_sol_y0_sens RN DM (1%Z :: nil) 2 (@rhs_prog RN DM ode_mat (2%nat :: nil)) S0 s = Undef OutOfBounds.
Proof.
  exists rs, steps. split; [exact rs_reach|]. split; [vm_compute; repeat split; discriminate|].
  split; [|vm_compute; reflexivity].
  cbn. intuition. all: vm_compute; discriminate.
Qed.

Lemma two_parameters_fail : exists (s : @st RN) (S0 : @integrator RN), @reachable RN DM [1; 2; 3; 4; 4]%Z s /\ Forall (alive s) [1; 4]%Z /\
  @asks RN (fun t u => prog_dom (odep t) (u ++ repeat 0 1 ++ (2 :: / 2 :: nil))) 1 2 (S0 (2 :: nil) (@zero_vectors RN 2 1)) /\
  @cvodes_sol_par_sens RN DM (2 :: nil) [1; 4]%Z 1 (@rhs_prog RN DM odep odep_out) S0 s = Undef ShapeMismatch.
Proof.
  exists rs, steps. split; [exact rs_reach|]. split; [repeat constructor; vm_compute; try reflexivity; discriminate|].
  split; [|vm_compute; reflexivity].
  cbn. intuition.
Qed.
