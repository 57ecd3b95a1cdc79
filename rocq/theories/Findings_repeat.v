(* C54: a function that calls matmul spoils the next gradient. *)
From Flocq Require Import IEEE754.BinarySingleNaN IEEE754.Binary IEEE754.Bits.
From Verif Require Import TapeFacts.
From Verif Require Export Findings RepeatSpec.
Local Open Scope nat_scope.

Section Refuted.
Context (L : Libm).
Definition cc3 : binary64 := b64_of_bits 4613937818241073152.
(* x*y by matmul of 1 by 1 matrices, and (x*y)*z by the operator *)
Definition fmat : @fn (B64 L) := FCall (OMatVV 1 1 1 (0 :: nil) (1 :: nil)) (FRet (2 :: nil)).
Definition fmul : @fn (B64 L) := FCall (OVV BMul 0 1) (FCall (OVV BMul 3 2) (FRet (4 :: nil))).

Lemma repeat_matmul : exists f g xs ys,
  let once := Ask false f xs (fun _ => Enough) in let after := Ask false g ys (fun _ => once) in
  @well_formed (B64 L) f (seq 0 (length xs)) (map given xs) /\ @well_formed (B64 L) g (seq 0 (length ys)) (map given ys) /\ no_matmul f /\
  ends (@asks (B64 L) (demo (B64 L)) (Ask false g ys (fun _ => Enough)) [] st_init) = Returns /\
  ends (@asks (B64 L) (demo (B64 L)) once [] st_init) = Returns /\
  ends (@asks (B64 L) (demo (B64 L)) after [] st_init) = Undefined OutOfBounds /\
  ends (@asks (B64 L) (demo_std (B64 L)) after [] st_init) = Undefined ShapeMismatch.
Proof.
  exists fmul, fmat, (cc3 :: cc3 :: cc3 :: nil), (cc3 :: cc3 :: nil).
  split; [cbn; repeat split; repeat constructor|]. split; [cbn; repeat split; repeat constructor; discriminate|].
  split; [cbn; auto|]. repeat split; vm_compute; reflexivity.
Qed.
End Refuted.
