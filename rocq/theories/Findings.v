(* Concrete runs, in IEEE binary64 and for every math library, on which a
   claimed property fails. *)
From Coq Require Import ZifyBool ZifyNat.
From Flocq Require Import IEEE754.BinarySingleNaN IEEE754.Binary IEEE754.Bits.
From Verif Require Import TapeFacts.
From Verif Require Export Claims_session.

(* the build used by the examples: one variable's worth of storage at first *)
Definition demo (N : Num) : Cfg N :=
  {| init_len := 1; junk := Some (fun _ => f0, fun _ => 0) |}.
(* the same build where nonconforming arrays are undefined, as the standard says *)
Definition demo_std (N : Num) : Cfg N := {| init_len := 1; junk := None |}.

Lemma demo_practical (N : Num) : @practical N (demo N).
Proof. split; [|simpl; eauto]. unfold cfg_ok, init_tape_size. simpl. unfold min_rec_size, max_int. lia. Qed.

(* more bit patterns *)
Definition c3 : binary64 := b64_of_bits 4613937818241073152.
Definition c4 : binary64 := b64_of_bits 4616189618054758400.
Definition c5 : binary64 := b64_of_bits 4617315517961601024.
Definition c6 : binary64 := b64_of_bits 4618441417868443648.
Definition c12 : binary64 := b64_of_bits 4622945017495814144.
Definition cquarter : binary64 := b64_of_bits 4598175219545276416.
Definition cm3 : binary64 := b64_of_bits 13837309855095848960.

Lemma bits_eq (x y : binary64) : bits_of_b64 x = bits_of_b64 y -> x = y.
Proof. apply bits_inj. Qed.

(* the way a call ends *)
Inductive ending := Returns | Stops | Undefined (u : ub) | Runs_on.
Definition ends {A} (r : res A) : ending :=
  match r with Ok _ => Returns | ErrStop => Stops | Undef u => Undefined u | OutOfFuel => Runs_on end.
Lemma ends_undef {A} (r : res A) u : ends r = Undefined u -> r = Undef u.
Proof. destruct r; simpl; congruence. Qed.
Lemma ends_stop {A} (r : res A) : ends r = Stops -> r = ErrStop.
Proof. destruct r; simpl; congruence. Qed.

(* a real read in a state, as bits *)
Definition rbits (r : res binary64) : option Z := match r with Ok x => Some (bits_of_b64 x) | _ => None end.
Lemma rbits_ok r x : rbits r = Some (bits_of_b64 x) -> r = Ok x.
Proof. destruct r; simpl; try discriminate. intros H. f_equal. apply bits_eq. congruence. Qed.

(* the observations of a script, as bits *)
Definition obits {L : Libm} (o : @obs (B64 L)) : Z + bool :=
  match o with OF x => inl (bits_of_b64 x) | OB b => inr b end.
Definition seen (L : Libm) (l : list (@cmd (B64 L))) : list (Z + bool) := map obits (@obs_of (B64 L) (demo _) l).
Definition num (x : binary64) : Z + bool := inl (bits_of_b64 x).

(* a script as the body of a block: decision procedure for block_call_ok *)
Section BlockCheck.
Context {N : Num} {C : Cfg N}.
Fixpoint block_bodyb (l outer : Z) (p : list cmd) (env : list Z) (s : st) : bool :=
  match p with
  | [] => s_lvl s =? l
  | c :: t => cmd_okb s env c &&
      match c with
      | CEnd => l <? s_lvl s
      | CSet r _ => match nth_error env r with Some h => outer <=? h | None => true end
      | _ => true
      end &&
      match exec_cmd env c s with
      | Ok ((hs, _), s') => block_bodyb l outer t (env ++ hs) s'
      | _ => true
      end
  end.
Definition block_callb (p : list cmd) (env : list Z) (s : st) : bool :=
  (s_lvl s <? 10) &&
  match begin_nested s with
  | Ok (_, s1) => block_bodyb (s_lvl s1) (s_head s) p env s1 &&
      match run (script p) env s1 with
      | Ok (_, s2) => t_head (s_tape s2) <=? t_size (s_tape s2)
      | _ => true
      end
  | _ => true
  end.

Lemma block_bodyb_ok l outer p : Forall cpart_ok p -> forall env s,
  block_bodyb l outer p env s = true -> block_ok l outer (script p) env s.
Proof.
  induction 1 as [|c p Hc Hp IH]; intros env s; cbn [block_bodyb script block_ok].
  - lia.
  - rewrite !andb_true_iff. intros [[H1 H2] H3]. split; [apply cmd_okb_ok; auto|].
    split; [intros ->; lia|]. split.
    + intros r d -> h E. rewrite E in H2. lia.
    + intros hs os s' E. rewrite E in H3. apply IH. exact H3.
Qed.

Lemma block_okb_ok p env s : Forall cpart_ok p -> block_callb p env s = true -> block_call_ok (script p) env s.
Proof.
  intros HP. unfold block_callb, block_call_ok. rewrite andb_true_iff. intros [H1 H2].
  split; [lia|]. split.
  - intros s1 E. rewrite E in H2. rewrite andb_true_iff in H2. apply block_bodyb_ok; tauto.
  - intros s1 r s2 E1 E2. rewrite E1, andb_true_iff in H2. rewrite E2 in H2. lia.
Qed.
End BlockCheck.

Definition aliveb {N : Num} (s : st) (h : Z) : bool := (1 <=? h) && (h <? s_head s).
Lemma aliveb_ok {N : Num} s h : aliveb s h = true -> alive s h.
Proof. unfold aliveb, alive. lia. Qed.

Section Runs.
Variable L : Libm.
Notation N := (B64 L).
Notation D := (demo (B64 L)).

Definition st_of (l : list (@cmd N)) : st := @state_of N D l.
Definition ev_of (l : list (@cmd N)) : list Z := @env_of N D l.
Lemma reach_of l : Forall cpart_ok l -> @runs N D l = true -> @reachable N D (ev_of l) (st_of l).
Proof. intros. apply runs_reach; auto. Qed.

(* C16: y = sqrt(x) at 4 has derivative 1/4; y + 0.d0 gives 1 *)
Lemma neutral_wrong :
  seen L [COp (@OVar N c4); COp (OUn USqrt 0); CGrad 1; CAdj 0] = [num cquarter] /\
  seen L [COp (@OVar N c4); COp (OUn USqrt 0); COp (@OVD N BAdd 1 c0); CGrad 2; CAdj 0] = [num c1] /\
  seen L [COp (@OVar N c4); COp (OUn USqrt 0); COp (@ODV N BAdd c0 1); CGrad 2; CAdj 0] = [num c1] /\
  seen L [COp (@OVar N c4); COp (OUn USqrt 0); COp (@OVD N BSub 1 c0); CGrad 2; CAdj 0] = [num c1].
Proof. repeat split; vm_compute; reflexivity. Qed.

(* 4*x with * 1: the product's rule reads data the record does not hold *)
Lemma neutral_wrong_mul :
  seen L [COp (@OVar N c4); COp (OUn UNeg 0); CGrad 1; CAdj 0] = [num (b64_opp c1)] /\
  seen L [COp (@OVar N c4); COp (OUn UNeg 0); COp (@OVD N BAdd 1 c0); CGrad 2; CAdj 0] = [num c1].
Proof. repeat split; vm_compute; reflexivity. Qed.

(* x*y + 0: the record has two operands, the one-operand rule replaced its own *)
Definition two_then_neutral (o : op) : list (@cmd N) :=
  [COp (@OVar N c4); COp (@OVar N c3); COp (OVV BMul 0 1); COp o; CGrad 3].
Lemma neutral_shape :
  ends (@run N (demo_std N) (script (two_then_neutral (@OVD N BAdd 2 c0))) [] st_init) = Undefined ShapeMismatch /\
  ends (@run N (demo_std N) (script (two_then_neutral (@OVD N BMul 2 c1))) [] st_init) = Undefined ShapeMismatch /\
  ends (@run N (demo_std N) (script (two_then_neutral (@OVD N BDiv 2 c1))) [] st_init) = Undefined ShapeMismatch.
Proof. repeat split; vm_compute; reflexivity. Qed.

(* C19, C07: inv_square(2) is 1, not 1/4; so is 2**(-2) *)
Lemma inv_square_wrong :
  seen L [COp (@OVar N c2); COp (OUn UInvSquare 0); CVal 1] = [num c1] /\
  seen L [COp (@OVar N c2); COp (@OVD N BPow 0 (b64_opp c2)); CVal 1] = [num c1] /\
  num (b64_div rne c1 (b64_mult rne c2 c2)) = num cquarter.
Proof. split; [|split]; vm_compute; reflexivity. Qed.

(* C18: hypot(0, -3) is -3 *)
Lemma hypot_wrong :
  seen L [COp (@OVar N cm3); COp (@ODV N BHypot c0 0); CVal 1] = [num cm3].
Proof. vm_compute. reflexivity. Qed.

(* C25: with x = 2, 1 < x is false and 1 > x is true *)
Lemma rel_dv_wrong :
  seen L [COp (@OVar N c2); @CRelDV N RLt c1 0; @CRelDV N RGt c1 0; @CRelDV N RLe c1 0; @CRelDV N RGe c1 0]
  = [inr false; inr true; inr false; inr true] /\
  @frel N RLt c1 c2 = true /\ @frel N RGt c1 c2 = false.
Proof. split; [|split]; vm_compute; reflexivity. Qed.

(* C34: the eleventh level *)
Definition ten : list (@cmd N) := [CBegin; CBegin; CBegin; CBegin; CBegin; CBegin; CBegin; CBegin; CBegin; CBegin].
Lemma eleven : exists env s, @reachable N D env s /\ s_lvl s = 10 /\ begin_nested s = Undef OutOfBounds.
Proof.
  exists (ev_of ten), (st_of ten). split.
  - apply reach_of; [repeat constructor|vm_compute; reflexivity].
  - split; [vm_compute; reflexivity|]. apply ends_undef. vm_compute. reflexivity.
Qed.

(* C35: a full tape, and an unallocated one *)
Definition full : list (@cmd N) := [COp (@OVar N c1); CBegin; COp (@OVar N c2)].
Lemma end_full_tape : exists env s, @reachable N D env s /\ s_lvl s = 1 /\
  t_head (s_tape s) = t_size (s_tape s) + 1 /\ end_nested s = Undef OutOfBounds.
Proof.
  exists (ev_of full), (st_of full). split.
  - apply reach_of; [repeat constructor|vm_compute; reflexivity].
  - split; [vm_compute; reflexivity|]. split; [vm_compute; reflexivity|].
    apply ends_undef. vm_compute. reflexivity.
Qed.
Lemma end_empty_tape : exists env s, @reachable N D env s /\ s_lvl s = 1 /\
  t_size (s_tape s) = 0 /\ end_nested s = Undef OutOfBounds.
Proof.
  exists (ev_of [CBegin]), (st_of [CBegin]). split.
  - apply reach_of; [repeat constructor|vm_compute; reflexivity].
  - split; [vm_compute; reflexivity|]. split; [vm_compute; reflexivity|].
    apply ends_undef. vm_compute. reflexivity.
Qed.

(* C36: outside every block *)
Definition onevar : list (@cmd N) := [COp (@OVar N c1)].
Lemma nested_outside : exists env s, @reachable N D env s /\ s_lvl s = 0 /\ alive s 1 /\
  set_zero_nested_adj s = Undef OutOfBounds /\ @grad_nested N D 1 s = Undef OutOfBounds.
Proof.
  exists (ev_of onevar), (st_of onevar). split.
  - apply reach_of; [repeat constructor|vm_compute; reflexivity].
  - split; [vm_compute; reflexivity|]. split; [apply aliveb_ok; vm_compute; reflexivity|].
    split; apply ends_undef; vm_compute; reflexivity.
Qed.

(* C38: x = 3, y = x*x, y%grad() leaves 6 in x%adj(); a call of gradient on an
   unrelated function turns it into 12 *)
Definition outer : list (@cmd N) := [COp (@OVar N c3); COp (OVV BMul 0 0); CGrad 1].
Definition sqrt_of_first (xv : list Z) : @M N Z := match xv with [x] => @sqrt_v N D x | _ => mlift ErrStop end.
Definition after {A} (r : res (A * @st N)) : st := match r with Ok (_, s) => s | _ => st_init end.
Definition result {A} (d : A) (r : res (A * @st N)) : A := match r with Ok (a, _) => a | _ => d end.
Lemma returns_ok {A} (d : A) (r : res (A * @st N)) : ends r = Returns -> r = Ok (result d r, after r).
Proof. destruct r as [[a s]| | |]; simpl; congruence. Qed.

Lemma gradient_disturbs : exists env (s : @st N) v s', @reachable N D env s /\ s_lvl s = 0 /\
  @gradient N D sqrt_of_first [c4] s = Ok (v, s') /\
  alive s 1 /\ var_adj s 1 = Ok c6 /\ var_adj s' 1 = Ok c12.
Proof.
  exists (ev_of outer), (st_of outer), (result [] (@gradient N D sqrt_of_first [c4] (st_of outer))),
    (after (@gradient N D sqrt_of_first [c4] (st_of outer))).
  split; [apply reach_of; [repeat constructor|vm_compute; reflexivity]|].
  split; [vm_compute; reflexivity|]. split; [apply returns_ok; vm_compute; reflexivity|].
  split; [apply aliveb_ok; vm_compute; reflexivity|].
  split; apply rbits_ok; vm_compute; reflexivity.
Qed.

Lemma jacobian_disturbs : exists env (s : @st N) v s', @reachable N D env s /\ s_lvl s = 0 /\
  @jacobian N D (fun xv => y <~ sqrt_of_first xv ;; mret [y]) [c4] s = Ok (v, s') /\
  alive s 1 /\ var_adj s 1 = Ok c6 /\ var_adj s' 1 = Ok c12.
Proof.
  pose (f := fun xv => y <~ sqrt_of_first xv ;; mret [y]).
  exists (ev_of outer), (st_of outer), (result [] (@jacobian N D f [c4] (st_of outer))),
    (after (@jacobian N D f [c4] (st_of outer))).
  split; [apply reach_of; [repeat constructor|vm_compute; reflexivity]|].
  split; [vm_compute; reflexivity|]. split; [apply returns_ok; vm_compute; reflexivity|].
  split; [apply aliveb_ok; vm_compute; reflexivity|].
  split; apply rbits_ok; vm_compute; reflexivity.
Qed.

(* C41: a slot that held a matrix product inside a block; the variable created
   there later is an independent variable *)
Definition mat_block (inside : list (@cmd N)) : list (@cmd N) :=
  [COp (@OVar N c3); COp (@OVar N c4); COp (@OVar N c5)] ++ inside ++ [COp (@OVar N c2)].
Definition matmul_inside : list (@cmd N) := [CBegin; COp (OMatVV 1 1 1 [0%nat] [1%nat]); CEnd].
Lemma recycled_matmul :
  ends (@run N (demo_std N) (script (mat_block matmul_inside)) [] st_init) = Returns /\
  ends (@run N (demo_std N) (script (mat_block matmul_inside ++ [CGrad 4])) [] st_init) = Undefined ShapeMismatch /\
  ends (@run N (demo_std N) (script (mat_block [] ++ [CGrad 3])) [] st_init) = Returns.
Proof. repeat split; vm_compute; reflexivity. Qed.

(* C44: x = 0; sqrt(x) unused; y = x + 1 *)
Definition all_nan (l : list (Z + bool)) : bool :=
  forallb (fun o => match o with inl z => is_nan 53 1024 (b64_of_bits z) | inr _ => false end) l.
Lemma contaminated :
  seen L [COp (@OVar N c0); COp (@OVD N BAdd 0 c1); CGrad 1; CAdj 0] = [num c1] /\
  length (seen L [COp (@OVar N c0); COp (OUn USqrt 0); COp (@OVD N BAdd 0 c1); CGrad 2; CAdj 0]) = 1%nat /\
  all_nan (seen L [COp (@OVar N c0); COp (OUn USqrt 0); COp (@OVD N BAdd 0 c1); CGrad 2; CAdj 0]) = true.
Proof. repeat split; vm_compute; reflexivity. Qed.

(* C24: the size of a stored one-dimensional real array is not stored *)
Definition data_1d_size (a : list (@F N)) : res Z :=
  match @ait_push_data_1d N D (s_tape (st_of onevar)) a with
  | Ok (loc, t) => tget_int t loc
  | _ => ErrStop
  end.
Lemma data_1d_wrong : data_1d_size [c3; c4] = Ok 0.
Proof. vm_compute. reflexivity. Qed.

(* C49: record_len and adj_curr *)
Definition mul_rec : list (@cmd N) := [COp (@OVar N c3); COp (@OVar N c4); COp (OVV BMul 0 1)].
Lemma record_len_wrong : exists env s, @reachable N D env s /\
  var_operands s 3 = Ok [1; 7] /\ t_head (s_tape s) = 21 /\ record_len (s_tape s) 13 = Ok 10.
Proof.
  exists (ev_of mul_rec), (st_of mul_rec).
  split; [apply reach_of; [repeat constructor|vm_compute; reflexivity]|].
  repeat split; vm_compute; reflexivity.
Qed.

(* set_val_curr(3); set_adj_curr(4); adj_curr() is 3 *)
Lemma adj_curr_wrong :
  rbits (t1 <- @alloc_storage N D (s_tape (st_of onevar)) 6 ;; t2 <- set_val_curr t1 c3 ;;
         t3 <- set_adj_curr t2 c4 ;; adj_curr t3) = Some (bits_of_b64 c3).
Proof. vm_compute. reflexivity. Qed.

End Runs.
