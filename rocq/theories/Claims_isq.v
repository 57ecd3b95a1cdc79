(* Lemmas behind C19_derivative_partial: inv_square has a wrong value and the right derivative. *)
From Coq Require Import ZifyBool ZifyNat.
From Verif Require Import TapeFacts.
From Verif Require Export Claims_exact Claims_real.
Local Open Scope R_scope.

Section Isq.
Context {lg : R -> R} {C : Cfg (RNum lg)}.
Notation N := (RNum lg).

Lemma new_frame (s s' : @st N) x h o : @practical N C -> valid s ->
  alive s x -> op_regs o = [O] -> op_shape o -> neutral o = false -> is_matmul o = false ->
  exec_op [x] o s = Ok ([h], s') -> ~ alive s h -> valid s' /\ alive s' h /\ forall z, alive s z -> alive s' z.
Proof.
  intros HP HV HA HR HS HN HM E HL.
  pose proof (op_frame_concrete s [x] o HP HV) as HF.
  assert (HH : handles [x]) by (constructor; [unfold alive in HA; lia|constructor]). specialize (HF HH).
  assert (HO : op_ok s [x] o).
  { split; [rewrite HR; constructor; [|constructor]; exists x; split; [reflexivity|exact HA]|].
    split; auto. split; auto. rewrite HM. discriminate. }
  specialize (HF HO). rewrite E in HF. destruct HF as (V & _ & U & [(_ & (h1 & E1 & A1) & _)|(_ & _ & Q)]).
  - injection E1 as <-. tauto.
  - split; auto. split; [apply Q; left; reflexivity|]. intros z Hz. apply (U z Hz).
Qed.

Lemma records_passes (s s' : @st N) h x (v d : R) (l : @F N -> list (Z * @F N)) : valid s' ->
  alive s x -> alive s' h -> alive s' x -> records s s' h (v : @F N) l -> (forall a b : R, fold_left fadd (due x (l a)) b = b + a * d :> R) -> passes s s' h x d.
Proof.
  intros (g & R0 & _) HX HH HX' (HL & _ & Q) HD. right. split; auto. intros a s1 b E1 E2.
  destruct (alive_node s' g h R0 HH) as (k & -> & Hk). destruct (rel_set_var_adj s' g k (a : @F N) R0 Hk) as (s1' & E3 & R1).
  rewrite E3 in E1. injection E1 as ->.
  destruct (Q [(hd k, a : @F N)] a s1) as (s2 & F1 & F2 & F3).
  - constructor; auto.
  - unfold set_adjoints. cbn [foldM fst snd]. rewrite E3. reflexivity.
  - rewrite (rel_var_adj s1 _ R1 k Hk). f_equal. cbn [set_gadj g_adj]. unfold nupd. rewrite Nat.eqb_refl. reflexivity.
  - exists s2. split; [exact F1|]. split; [|exact F2].
    etransitivity; [exact (F3 x b HX' E2)|]. f_equal. exact (HD a b).
Qed.

Lemma d_isq (v : R) : v <> 0 -> is_derive (fun t => 1 / (t * t)) v (- (2 / (v * v * v))).
Proof. intros H. auto_derive; [apply Rmult_integral_contrapositive; auto|]. field. auto. Qed.

Lemma isq_step (v a : R) : v <> 0 -> @un_step N UInvSquare v (@un_value N UInvSquare v) a = a * - (2 / (v * v * v)) :> R.
Proof. intros H. cbn [un_step]. change (@f2 N) with 2. change (- (a * 2 / (v * v * v)) = a * - (2 / (v * v * v))). field. auto. Qed.
Lemma isq_value (v : R) : v <> 0 -> @un_value N UInvSquare v = 1 :> R.
Proof. intros H. change (1 / v * v = 1). field. auto. Qed.

Lemma due_one (x z : Z) (a : @F N) : due z [(x, a)] = if Z.eqb x z then [a] else [].
Proof. unfold due. cbn [filter fst]. destruct (Z.eqb x z); reflexivity. Qed.

Lemma isq_passes (s s' : @st N) x h (v : R) l o : @practical N C -> valid s -> alive s x -> v <> 0 ->
  op_regs o = [O] -> op_shape o -> neutral o = false -> is_matmul o = false -> exec_op [x] o s = Ok ([h], s') ->
  records s s' h (@un_value N UInvSquare v) l -> (forall a, l a = [(x, @un_step N UInvSquare v (@un_value N UInvSquare v) a)]) ->
  @var_val N s' h = Ok (1 : @F N) /\ passes s s' h x (- (2 / (v * v * v))) /\ forall z, alive s z -> z <> x -> passes s s' h z 0.
Proof.
  intros HP HV HA HX HR HS HN HM E Q HL. pose proof (proj1 Q) as Hh. destruct (new_frame s s' x h o HP HV HA HR HS HN HM E Hh) as (V & A & AZ).
  split; [etransitivity; [exact (proj1 (proj2 Q))|f_equal; exact (isq_value v HX)]|]. split.
  - refine (records_passes s s' h x _ _ l V HA A (AZ x HA) Q _). intros a b. rewrite HL, due_one, Z.eqb_refl.
    cbn [fold_left]. change (b + @un_step N UInvSquare v (@un_value N UInvSquare v) a = b + a * - (2 / (v * v * v))).
    f_equal. exact (isq_step v a HX).
  - intros z Hz Hne. refine (records_passes s s' h z _ _ l V Hz A (AZ z Hz) Q _). intros a b. rewrite HL, due_one.
    destruct (Z.eqb_spec x z); [congruence|]. cbn [fold_left]. ring.
Qed.

Theorem isq_un env0 (s : @st N) x (v : R) : @practical N C -> reachable env0 s -> alive s x -> var_val s x = Ok v -> v <> 0 -> roomy s 7 ->
  exists h s' d, un_v UInvSquare x s = Ok (h, s') /\ @var_val N s' h = Ok (1 : @F N) /\
    is_derive (fun t => 1 / (t * t)) v d /\ passes s s' h x d /\ forall z, alive s z -> z <> x -> passes s s' h z 0.
Proof.
  intros HP HR HA HX HV HM. destruct (un_exact env0 s UInvSquare x (v : @F N) HP HR HA HX eq_refl HM) as (h & s' & E & Q).
  exists h, s', (- (2 / (v * v * v))). split; [exact E|].
  destruct (isq_passes s s' x h v (fun a => [(x, @un_step N UInvSquare v (@un_value N UInvSquare v) a)]) (OUn UInvSquare 0) HP (proj1 (reach_valid env0 s HP HR)) HA HV eq_refl Logic.I eq_refl eq_refl) as (V1 & V2 & V3);
    [|exact Q|reflexivity|].
  - cbn [exec_op]. rewrite (reg_bind [x] 0 x) by reflexivity. unfold one, mbind, mret. rewrite E. reflexivity.
  - split; [exact V1|]. split; [exact (d_isq v HV)|]. split; auto.
Qed.

Lemma pow_as_m2 : @pow_as N (- (2)) = Some UInvSquare.
Proof.
  unfold pow_as. change (@feq N) with req. change (@fhalf N) with (/ 2). change (@f1 N) with 1. change (@f2 N) with 2. change (@fneg N) with Ropp.
  unfold req. repeat (match goal with |- context [Req_EM_T ?a ?b] => destruct (Req_EM_T a b); try lra end). reflexivity.
Qed.

Theorem isq_pow env0 (s : @st N) x (v : R) : @practical N C -> reachable env0 s -> alive s x -> var_val s x = Ok v -> v <> 0 -> roomy s 9 ->
  exists h s' d, bin_vd BPow x (- (2) : @F N) s = Ok (h, s') /\ @var_val N s' h = Ok (1 : @F N) /\
    is_derive (fun t => 1 / (t * t)) v d /\ passes s s' h x d /\ forall z, alive s z -> z <> x -> passes s s' h z 0.
Proof.
  intros HP HR HA HX HV HM. destruct (vd_exact env0 s BPow x (- (2) : @F N) (v : @F N) HP HR HA HX) as (h & s' & E & Q); auto.
  { unfold vd_records. rewrite pow_as_m2. reflexivity. }
  exists h, s', (- (2 / (v * v * v))). split; [exact E|]. unfold vd_value, vd_step in Q. rewrite pow_as_m2 in Q.
  destruct (isq_passes s s' x h v (fun a => [(x, @un_step N UInvSquare v (@un_value N UInvSquare v) a)]) (@OVD N BPow 0 (- (2))) HP (proj1 (reach_valid env0 s HP HR)) HA HV eq_refl Logic.I eq_refl eq_refl) as (V1 & V2 & V3);
    [|exact Q|reflexivity|].
  - cbn [exec_op]. rewrite (reg_bind [x] 0 x) by reflexivity. unfold one, mbind, mret. rewrite E. reflexivity.
  - split; [exact V1|]. split; [exact (d_isq v HV)|]. split; auto.
Qed.
End Isq.
