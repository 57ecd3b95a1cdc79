(* C01-C06, C24, C45, C49: variables and the storage they live in.

   N is any number representation with exact word packing (RepLaws); the IEEE
   one is [B64 L], for any math library L (B64_laws).  [reachable env s]: a
   client that respects the calls' preconditions gets to state s holding the
   variables env.  [alive s h]: handle h denotes a variable in s.
   [untouched s s' h]: h is alive in s' with the same value, adjoint, operands,
   data, tape position and derivative rule as in s. *)
From Flocq Require Import IEEE754.BinarySingleNaN IEEE754.Binary IEEE754.Bits.
From Verif Require Import TapeFacts.
From Verif Require Export Findings.

(* a non-trivial history for the examples: x=3, y=4, z=x*y, w=sqrt(z), w%grad() *)
Definition history : list (@cmd (B64 libm0)) :=
  [COp (@OVar (B64 libm0) c3); COp (@OVar (B64 libm0) c4); COp (OVV BMul 0 1); COp (OUn USqrt 2); CGrad 3].
Example history_reachable : @reachable (B64 libm0) (demo _) (ev_of libm0 history) (st_of libm0 history).
Proof. apply reach_of; [repeat constructor|vm_compute; reflexivity]. Qed.
Example history_vars : ev_of libm0 history = [1; 2; 3; 4] /\ s_head (st_of libm0 history) = 5.
Proof. split; vm_compute; reflexivity. Qed.

(* ---- C01 ---- *)

(* the two words a real64 is stored in determine its 64 bits, for all patterns *)
Theorem C01_bits (x : binary64) :
  bits_of_b64 (dec64 (fst (enc64 x)) (snd (enc64 x))) = bits_of_b64 x.
Proof. exact (f_equal bits_of_b64 (dec64_enc64 x)). Qed.
Print Assumptions C01_bits.
(* a NaN with a payload, a negative zero, a subnormal *)
Example C01_bits_ex :
  map (fun b => bits_of_b64 (dec64 (fst (enc64 (b64_of_bits b))) (snd (enc64 (b64_of_bits b)))))
    [18444492273895866369; 9223372036854775808; 1] = [18444492273895866369; 9223372036854775808; 1].
Proof. vm_compute. reflexivity. Qed.

Theorem C01_value {N : Num} {RL : RepLaws N} {C : Cfg N} env s d h s' :
  practical -> reachable env s -> new_var_val d s = Ok (h, s') -> var_val s' h = Ok d.
Proof. exact (fun HP HR HX => proj1 (proj2 (proj2 (proj2 (new_var_spec env s d h s' HP HR HX))))). Qed.
Print Assumptions C01_value.
Example C01_value_ex : ends (@new_var_val (B64 libm0) (demo _) c5 (st_of libm0 history)) = Returns.
Proof. vm_compute. reflexivity. Qed.

Theorem C01_adjoint {N : Num} {RL : RepLaws N} {C : Cfg N} env s h d s' :
  practical -> reachable env s -> alive s h -> set_var_adj h d s = Ok s' -> var_adj s' h = Ok d.
Proof. exact (fun HP HR HA HX => proj1 (set_adj_spec env s h d s' HP HR HA HX)). Qed.
Print Assumptions C01_adjoint.
Example C01_adjoint_ex : alive (st_of libm0 history) 2 /\
  ends (@set_var_adj (B64 libm0) 2 c5 (st_of libm0 history)) = Returns.
Proof. split; [apply aliveb_ok; vm_compute; reflexivity|vm_compute; reflexivity]. Qed.

(* data operands: p is the function that computes them from the operands' values *)
Theorem C01_data {N : Num} {RL : RepLaws N} {C : Cfg N} env s v p l hs s' :
  practical -> reachable env s -> op_ok s env (OPart v p l) ->
  exec_op env (OPart v p l) s = Ok (hs, s') ->
  exists h xs, hs = [h] /\ op_vals s env (OPart v p l) = Ok xs /\
    var_val s' h = Ok (v xs) /\ var_data s' h = Ok (p xs).
Proof. exact (part_spec env s v p l hs s'). Qed.
Print Assumptions C01_data.
Example C01_data_ex :
  op_ok (st_of libm0 history) (ev_of libm0 history) (@OPart (B64 libm0) (fun _ => c5) (fun xs => xs) [0; 1]%nat) /\
  ends (@exec_op (B64 libm0) (demo _) (ev_of libm0 history)
          (@OPart (B64 libm0) (fun _ => c5) (fun xs => xs) [0; 1]%nat) (st_of libm0 history)) = Returns.
Proof. split; [apply op_okb_ok; [intros xs H; exact H|vm_compute; reflexivity]|vm_compute; reflexivity]. Qed.

(* ---- C02 ---- *)

(* var(d) *)
Theorem C02_new_var {N : Num} {RL : RepLaws N} {C : Cfg N} env s d h s' :
  practical -> reachable env s -> new_var_val d s = Ok (h, s') ->
  h = s_head s /\ ~ alive s h /\ alive s' h /\ var_val s' h = Ok d /\ var_adj s' h = Ok f0 /\
  (forall x, alive s x -> untouched s s' x).
Proof. exact (new_var_spec env s d h s'). Qed.
Print Assumptions C02_new_var.
Example C02_new_var_ex : ends (@new_var_val (B64 libm0) (demo _) c5 (st_of libm0 history)) = Returns.
Proof. vm_compute. reflexivity. Qed.

(* every operation: existing variables are untouched; the results are new
   handles with adjoint zero, except for the operations that return an operand
   (C43); the call can stop only in acosh and atanh *)
Theorem C02_operations {N : Num} {RL : RepLaws N} {C : Cfg N} env s o :
  practical -> reachable env s -> op_ok s env o ->
  match exec_op env o s with
  | Ok (hs, s') =>
      s_lvl s' = s_lvl s /\
      (forall h, alive s h -> untouched s s' h) /\
      ((may_alias o = true /\ (exists h, hs = [h] /\ alive s h) /\ s_head s' = s_head s) \/
       (hs = zseq (s_head s) (length hs) /\ s_head s' = s_head s + zlen hs /\
        forall h, In h hs -> alive s' h /\ ~ alive s h /\ var_adj s' h = Ok f0))
  | ErrStop => exists u r, o = OUn u r /\ (u = UAcosh \/ u = UAtanh)
  | Undef IntOverflow => ~ roomy s (op_words o)
  | _ => False
  end.
Proof. exact (call_frame env s o). Qed.
Print Assumptions C02_operations.
Example C02_operations_ex :
  op_ok (st_of libm0 history) (ev_of libm0 history) (@OMatVV (B64 libm0) 2 1 2 [0; 1]%nat [2; 3]%nat) /\
  ends (@exec_op (B64 libm0) (demo _) (ev_of libm0 history) (OMatVV 2 1 2 [0; 1]%nat [2; 3]%nat)
          (st_of libm0 history)) = Returns.
Proof. split; [apply op_okb_ok; [exact Logic.I|vm_compute; reflexivity]|vm_compute; reflexivity]. Qed.

(* ---- C03 ---- *)
Theorem C03_enlarging {N : Num} {C : Cfg N} s n s1 m t :
  0 <= init_len -> 0 <= s_n s -> 0 <= t_size (s_tape s) ->
  alloc_vari_stack_n s n = Ok s1 -> alloc_storage (s_tape s1) m = Ok t ->
  let s' := set_tape s1 t in
  s_head s' = s_head s /\ t_head (s_tape s') = t_head (s_tape s) /\
  (forall h v, vget s h = Ok v -> vget s' h = Ok v) /\
  (forall h x, var_val s h = Ok x -> var_val s' h = Ok x) /\
  (forall h x, var_adj s h = Ok x -> var_adj s' h = Ok x) /\
  (forall h l, var_operands s h = Ok l -> var_operands s' h = Ok l) /\
  (forall h l, var_data s h = Ok l -> var_data s' h = Ok l) /\
  (forall j, t_size (s_tape s) < j <= t_size (s_tape s') -> t_mem (s_tape s') j = w0) /\
  (forall j, s_n s < j <= s_n s' -> s_varis s' j = vari0).
Proof. exact (enlarge_invisible s n s1 m t). Qed.
Print Assumptions C03_enlarging.
(* both are doubled several times: 4 variables and 34 words in use, 100 and 1000 asked for *)
Example C03_enlarging_ex :
  match @alloc_vari_stack_n (B64 libm0) (demo _) (st_of libm0 history) 100 with
  | Ok s1 => match @alloc_storage (B64 libm0) (demo _) (s_tape s1) 1000 with
             | Ok t => (s_n (st_of libm0 history), s_n s1, t_size (s_tape (st_of libm0 history)), t_size t)
             | _ => (0, 0, 0, 0) end
  | _ => (0, 0, 0, 0) end = (4, 128, 48, 1536).
Proof. vm_compute. reflexivity. Qed.

(* ---- C04 ---- *)
Theorem C04_initial_size {N : Num} {RL : RepLaws N} (C1 C2 : Cfg N) p :
  @practical N C1 -> @practical N C2 ->
  @client_ok N C1 p [] st_init -> @client_ok N C2 p [] st_init ->
  same_outcome (@run N C1 p [] st_init) (@run N C2 p [] st_init).
Proof. exact (twin_start C1 C2 p). Qed.
Print Assumptions C04_initial_size.
(* two builds, 1 and 1000; one run reallocates, the other does not *)
Definition big (N : Num) : Cfg N := {| init_len := 1000; junk := Some (fun _ => f1, fun _ => 7) |}.
Example C04_initial_size_ex :
  @client_ok (B64 libm0) (demo _) (script history) [] st_init /\
  @client_ok (B64 libm0) (big _) (script history) [] st_init /\
  @practical (B64 libm0) (big _) /\
  t_size (s_tape (@state_of (B64 libm0) (demo _) history)) = 48 /\
  t_size (s_tape (@state_of (B64 libm0) (big _) history)) = 12000.
Proof.
  split; [apply script_okb_ok; [repeat constructor|vm_compute; reflexivity]|].
  split; [apply script_okb_ok; [repeat constructor|vm_compute; reflexivity]|].
  split; [split; [split; vm_compute; discriminate|simpl; eauto]|].
  split; vm_compute; reflexivity.
Qed.

(* ---- C05 ---- *)
(* outcomes other than these (out of bounds, nonconforming arrays, an endless
   loop) do not occur *)
Theorem C05_no_out_of_bounds {N : Num} {RL : RepLaws N} {C : Cfg N} p :
  practical -> client_ok p [] st_init ->
  match run p [] st_init with
  | Ok _ => True | ErrStop => True | Undef IntOverflow => True | _ => False
  end.
Proof. exact (no_oob p). Qed.
Print Assumptions C05_no_out_of_bounds.
Definition busy : list (@cmd (B64 libm0)) :=
  history ++ [CBegin; COp (OSum [0; 1; 2]%nat); CGradNested 4; CZeroNested; CEnd; CZeroAll;
              COp (OMatVV 2 1 2 [0; 1]%nat [2; 3]%nat); CGrad 5; CAdj 0].
Example C05_ex : @client_ok (B64 libm0) (demo _) (script busy) [] st_init /\
  ends (@run (B64 libm0) (demo _) (script busy) [] st_init) = Returns.
Proof. split; [apply script_okb_ok; [repeat constructor|vm_compute; reflexivity]|vm_compute; reflexivity]. Qed.

(* ---- C06 ---- *)
(* cap = 2^30.  Growth loops carry fuel; OutOfFuel (an endless loop) is excluded. *)
Theorem C06_tape {N : Num} {C : Cfg N} t n :
  cfg_ok C -> 1 <= t_head t -> 0 <= t_size t <= max_int ->
  match alloc_storage t n with
  | Ok t' => t_head t' = t_head t /\ t_size t' <= max_int /\ t_head t + n <= t_size t' + 1
  | Undef IntOverflow => 1073741824 < t_head t + n - 1
  | _ => False
  end.
Proof. exact (alloc_storage_ends t n). Qed.
Print Assumptions C06_tape.
Theorem C06_table {N : Num} {C : Cfg N} s n :
  cfg_ok C -> 1 <= s_head s -> 0 <= s_n s <= max_int ->
  match alloc_vari_stack_n s n with
  | Ok s' => s_head s' = s_head s /\ s_n s' <= max_int /\ s_head s + n <= s_n s' + 1
  | Undef IntOverflow => 1073741824 < s_head s + n - 1
  | _ => False
  end.
Proof. exact (alloc_varis_ends s n). Qed.
Print Assumptions C06_table.
Example C06_ex :
  ends (@alloc_storage (B64 libm0) (demo _) (s_tape (st_of libm0 history)) 1000000) = Returns /\
  ends (@alloc_storage (B64 libm0) (demo _) (s_tape (st_of libm0 history)) 2000000000) = Undefined IntOverflow.
Proof. split; vm_compute; reflexivity. Qed.
(* a build with an initial length of 0 (outside the claim) doubles 0 for ever *)
Theorem C06_zero_length {N : Num} {C : Cfg N} fuel t n :
  t_size t = 0 -> 1 <= t_head t -> 1 <= n -> grow_storage fuel t n = OutOfFuel.
Proof. exact (grow_from_zero fuel t n). Qed.
Print Assumptions C06_zero_length.

(* ---- C24 ---- *)
(* [twf t]: the head is inside the storage and the words from the head on are
   zero; every reachable tape is so (C24_tapes). *)
Theorem C24_tapes {N : Num} {RL : RepLaws N} {C : Cfg N} env s :
  practical -> reachable env s -> twf (s_tape s).
Proof. exact (reach_twf env s). Qed.
Print Assumptions C24_tapes.

Theorem C24_var_matrix {N : Num} {RL : RepLaws N} {C : Cfg N} t m n ids :
  cfg_ok C -> twf t -> int32s ids ->
  length ids = (m * n)%nat -> Z.of_nat m <= max_int -> Z.of_nat n <= max_int ->
  match ait_push_var_2d t (Z.of_nat m) (Z.of_nat n) ids with
  | Ok (loc, t') => loc = t_head t /\ t_head t' = loc + 2 + zlen ids /\ twf t' /\
      var_matrix_at t' loc m n ids
  | Undef IntOverflow => 1073741824 < t_head t + 1 + zlen ids
  | _ => False
  end.
Proof. exact (var_matrix_back t m n ids). Qed.
Print Assumptions C24_var_matrix.

Theorem C24_data_matrix {N : Num} {RL : RepLaws N} {C : Cfg N} t m n ds :
  cfg_ok C -> twf t ->
  length ds = (m * n)%nat -> Z.of_nat m <= max_int -> Z.of_nat n <= max_int ->
  match ait_push_data_2d t (Z.of_nat m) (Z.of_nat n) ds with
  | Ok (loc, t') => loc = t_head t /\ t_head t' = loc + 2 + 2 * zlen ds /\ twf t' /\
      data_matrix_at t' loc m n ds
  | Undef IntOverflow => 1073741824 < t_head t + 1 + 2 * zlen ds
  | _ => False
  end.
Proof. exact (data_matrix_back t m n ds). Qed.
Print Assumptions C24_data_matrix.

Theorem C24_var_array {N : Num} {RL : RepLaws N} {C : Cfg N} t ids :
  cfg_ok C -> twf t -> int32s ids -> zlen ids <= max_int ->
  match ait_push_var_1d t ids with
  | Ok (loc, t') => loc = t_head t /\ t_head t' = loc + 1 + zlen ids /\ twf t' /\
      tget_int t' loc = Ok (zlen ids) /\ tget_ints t' (loc + 1) (length ids) = Ok ids
  | Undef IntOverflow => 1073741824 < t_head t + zlen ids
  | _ => False
  end.
Proof. exact (var_array_back t ids). Qed.
Print Assumptions C24_var_array.
Example C24_ex :
  (match @ait_push_var_2d (B64 libm0) (demo _) (s_tape (st_of libm0 history)) 2 3 [11; 21; 12; 22; 13; 23] with
   | Ok (loc, t) => [@ait_row _ (demo _) t loc 1; @ait_row _ (demo _) t loc 2; @ait_col _ (demo _) t loc 3]
   | _ => [] end) = [Ok [11; 12; 13]; Ok [21; 22; 23]; Ok [13; 23]].
Proof. vm_compute. reflexivity. Qed.

(* a stored 1-d real array: the word where its length 2 belongs reads 0 *)
Theorem C24_real_array_refuted (L : Libm) : exists a, length a = 2%nat /\ data_1d_size L a = Ok 0.
Proof. exact (ex_intro _ [c3; c4] (conj eq_refl (data_1d_wrong L))). Qed.
Print Assumptions C24_real_array_refuted.

(* ---- C45 ---- *)
Theorem C45_is_nan (L : Libm) (x : binary64) : @is_nan_d (B64 L) x = Binary.is_nan 53 1024 x.
Proof. exact (is_nan_exact L x). Qed.
Print Assumptions C45_is_nan.
Theorem C45_is_inf (L : Libm) (x : binary64) : @is_inf (B64 L) x = true <-> x = Binary.B754_infinity 53 1024 false.
Proof. exact (is_inf_exact L x). Qed.
Print Assumptions C45_is_inf.
Theorem C45_is_neg_inf (L : Libm) (x : binary64) :
  @is_neg_inf (B64 L) x = true <-> x = Binary.B754_infinity 53 1024 true.
Proof. exact (is_neg_inf_exact L x). Qed.
Print Assumptions C45_is_neg_inf.
(* NaN, +inf, -inf, huge, -huge, 0 *)
Definition specials : list binary64 :=
  [cnan; Binary.B754_infinity 53 1024 false; Binary.B754_infinity 53 1024 true; cmax; b64_opp cmax; c0].
Example C45_ex :
  map (@is_nan_d (B64 libm0)) specials = [true; false; false; false; false; false] /\
  map (@is_inf (B64 libm0)) specials = [false; true; false; false; false; false] /\
  map (@is_neg_inf (B64 libm0)) specials = [false; false; true; false; false; false].
Proof. repeat split; vm_compute; reflexivity. Qed.

(* ---- C49 ---- *)
Theorem C49_record {N : Num} {RL : RepLaws N} {C : Cfg N} t v op dop :
  cfg_ok C -> twf t -> int32s op ->
  match push_val_op_dop t v op dop with
  | Ok (i, t') => twf t' /\ reads_back t t' i v op dop
  | Undef IntOverflow => 1073741824 < t_head t + 5 + zlen op + 2 * zlen dop
  | _ => False
  end.
Proof. exact (record_read_back t v op dop). Qed.
Print Assumptions C49_record.
Theorem C49_record_op {N : Num} {RL : RepLaws N} {C : Cfg N} t v op :
  cfg_ok C -> twf t -> int32s op ->
  match push_val_op t v op with
  | Ok (i, t') => twf t' /\ reads_back t t' i v op []
  | Undef IntOverflow => 1073741824 < t_head t + 5 + zlen op
  | _ => False
  end.
Proof. exact (record_read_back_op t v op). Qed.
Print Assumptions C49_record_op.
Theorem C49_record_dop {N : Num} {RL : RepLaws N} {C : Cfg N} t v dop :
  cfg_ok C -> twf t ->
  match push_val_dop t v dop with
  | Ok (i, t') => twf t' /\ reads_back t t' i v [] dop
  | Undef IntOverflow => 1073741824 < t_head t + 5 + 2 * zlen dop
  | _ => False
  end.
Proof. exact (record_read_back_dop t v dop). Qed.
Print Assumptions C49_record_dop.
Theorem C49_record_leaf {N : Num} {RL : RepLaws N} {C : Cfg N} t v :
  cfg_ok C -> twf t ->
  match push_val t v with
  | Ok (i, t') => twf t' /\ reads_back t t' i v [] []
  | Undef IntOverflow => 1073741824 < t_head t + 5
  | _ => False
  end.
Proof. exact (record_read_back_leaf t v). Qed.
Print Assumptions C49_record_leaf.
Example C49_ex :
  twf (s_tape (st_of libm0 history)) /\
  match @push_val_op_dop (B64 libm0) (demo _) (s_tape (st_of libm0 history)) c3 [1; 7; 1] [c4; c5] with
  | Ok (i, t) => (operand_index t i, match data_operand t i with Ok l => map bits_of_b64 l | _ => [] end)
  | _ => (ErrStop, []) end = (Ok [1; 7; 1], map bits_of_b64 [c4; c5]).
Proof.
  split; [exact (reach_twf _ _ (demo_practical _) history_reachable)|vm_compute; reflexivity].
Qed.

(* a product's record takes words 13 to 20, record_len says 10 *)
Theorem C49_record_len_refuted (L : Libm) : exists env s, @reachable (B64 L) (demo _) env s /\
  var_operands s 3 = Ok [1; 7] /\ t_head (s_tape s) = 21 /\ record_len (s_tape s) 13 = Ok 10.
Proof. exact (record_len_wrong L). Qed.
Print Assumptions C49_record_len_refuted.
(* set_val_curr(3); set_adj_curr(4); adj_curr() gives 3 *)
Theorem C49_adj_curr_refuted (L : Libm) :
  rbits (t1 <- @alloc_storage (B64 L) (demo _) (s_tape (st_of L (onevar L))) 6 ;; t2 <- set_val_curr t1 c3 ;;
         t3 <- set_adj_curr t2 c4 ;; adj_curr t3) = Some (bits_of_b64 c3).
Proof. exact (adj_curr_wrong L). Qed.
Print Assumptions C49_adj_curr_refuted.
