(* Specification of C25: what the six comparisons mean. *)
From Coq Require Import Rdefinitions.
From Flocq Require Import IEEE754.BinarySingleNaN IEEE754.Binary IEEE754.Bits.
From Verif Require Export Ops.

(* x q y, in the order written *)
Definition written {N : Num} (q : rel) (x y : F) : bool :=
  match q with
  | REq => feq x y | RNe => negb (feq x y)
  | RLt => flt x y | RLe => fle x y
  | RGt => flt y x | RGe => fle y x
  end.

(* a binary64 datum as an extended real; None for NaN *)
Inductive ext := MinusInf | Real (r : R) | PlusInf.
Definition ext64 (x : binary64) : option ext :=
  match x with
  | Binary.B754_nan _ _ _ _ _ => None
  | Binary.B754_infinity _ _ s => Some (if s then MinusInf else PlusInf)
  | _ => Some (Real (Binary.B2R 53 1024 x))
  end.
Definition ext_lt (u v : ext) : Prop :=
  match u, v with
  | MinusInf, MinusInf => False | MinusInf, _ => True
  | Real a, Real b => (a < b)%R | Real _, PlusInf => True | Real _, MinusInf => False
  | PlusInf, _ => False
  end.
(* IEEE 754: every comparison with a NaN is false, except /= *)
Definition written64 (q : rel) (x y : binary64) : Prop :=
  match ext64 x, ext64 y with
  | Some u, Some v =>
      match q with
      | REq => u = v | RNe => u <> v
      | RLt => ext_lt u v | RLe => ext_lt u v \/ u = v
      | RGt => ext_lt v u | RGe => ext_lt v u \/ u = v
      end
  | _, _ => q = RNe
  end.
