(* The binary64 arithmetic meets the representation laws. *)
From Verif Require Export B64.
From Flocq Require Import IEEE754.BinarySingleNaN IEEE754.Binary IEEE754.Bits.

Lemma s32_u32 z : 0 <= z < two32 -> to_u32 (to_s32 z) = z.
Proof.
  unfold to_s32, to_u32, two32. intros H. destruct (Z.ltb_spec z 2147483648).
  - apply Z.mod_small. lia.
  - replace (z - 4294967296) with (z + (-1) * 4294967296) by ring.
    rewrite Z.mod_add by lia. apply Z.mod_small. lia.
Qed.

Lemma bits_range x : 0 <= bits_of_b64 x < two32 * two32.
Proof.
  pose proof (bits_of_binary_float_range 52 11 eq_refl eq_refl x) as H.
  unfold bits_of_b64. change (two32 * two32) with (2 ^ (52 + 11 + 1)). exact H.
Qed.

Lemma to_s32_int32 z : 0 <= z < two32 -> is_int32 (to_s32 z) = true.
Proof.
  unfold to_s32, two32, is_int32, min_int, max_int. intros H. destruct (Z.ltb_spec z 2147483648); lia.
Qed.

Lemma dec64_enc64 x : dec64 (fst (enc64 x)) (snd (enc64 x)) = x.
Proof.
  unfold dec64, enc64. cbn [fst snd]. pose proof (bits_range x) as H.
  assert (H2 : 0 < two32) by reflexivity.
  rewrite !s32_u32.
  - replace (bits_of_b64 x mod two32 + two32 * (bits_of_b64 x / two32)) with (bits_of_b64 x).
    + apply (binary_float_of_bits_of_binary_float 52 11).
    + rewrite (Z.div_mod (bits_of_b64 x) two32) at 1 by lia. lia.
  - split; [apply Z.div_pos; lia|]. apply Z.div_lt_upper_bound; lia.
  - apply Z.mod_pos_bound. lia.
Qed.

#[export] Instance B64_laws (L : Libm) : RepLaws (B64 L).
Proof.
  constructor.
  - intros x. apply dec64_enc64.
  - reflexivity.
  - simpl. vm_compute. reflexivity.
Qed.

(* both words are int32 values *)
Lemma enc64_int32 x : is_int32 (fst (enc64 x)) = true /\ is_int32 (snd (enc64 x)) = true.
Proof.
  unfold enc64. cbn [fst snd]. pose proof (bits_range x) as H. assert (H2 : 0 < two32) by reflexivity.
  split; apply to_s32_int32.
  - apply Z.mod_pos_bound. lia.
  - split; [apply Z.div_pos; lia|]. apply Z.div_lt_upper_bound; lia.
Qed.

(* a trivial math library, used only to run examples *)
Definition libm0 : Libm :=
  let i := fun x : binary64 => x in
  {| l_sin := i; l_cos := i; l_tan := i; l_asin := i; l_acos := i; l_atan := i;
     l_sinh := i; l_cosh := i; l_tanh := i; l_asinh := i; l_acosh := i; l_atanh := i;
     l_exp := i; l_log := i; l_erf := i; l_erfc := i; l_loggamma := i;
     l_aint := i; l_int := fun _ => 0; l_ofZ := fun _ => c0;
     l_pow := fun x _ => x; l_hypot := fun x _ => x;
     l_sum := fun l => fold_left (b64_plus rne) l c0;
     l_dot := fun a b => fold_left (fun s p => b64_plus rne s (b64_mult rne (fst p) (snd p))) (combine a b) c0;
     l_norm2 := fun l => fold_left (b64_plus rne) l c0;
     l_maxval := fun l => fold_left (b64_plus rne) l c0;
     l_mm := fun a b => fold_left (fun s p => b64_plus rne s (b64_mult rne (fst p) (snd p))) (combine a b) c0;
     l_dec := fun _ _ => c0;
     l_two_over_sqrt_pi := c1; l_log_epsilon := c0; l_log_sqrt_two_pi := c0 |}.
