(* A call on some of the client's variables is a call of the client: register
   renaming, and what it means for reachable states. *)
From Coq Require Import ZifyBool ZifyNat.
From Verif Require Import TapeFacts.
From Verif Require Export Reach.
Local Open Scope nat_scope.

Section Rename.
Context {N : Num} {C : Cfg N}.

Definition ren (rho : nat -> nat) (o : op) : op :=
  match o with
  | OVar d => OVar d
  | OVar0 => OVar0
  | OUn u a => OUn u (rho a)
  | OVV b x y => OVV b (rho x) (rho y)
  | OVD b x d => OVD b (rho x) d
  | ODV b d x => ODV b d (rho x)
  | OSum l => OSum (map rho l)
  | ONorm2 l => ONorm2 (map rho l)
  | OLse l => OLse (map rho l)
  | ODotVV l m => ODotVV (map rho l) (map rho m)
  | ODotVD l d => ODotVD (map rho l) d
  | ODotDV d l => ODotDV d (map rho l)
  | OMatVV m k n a b => OMatVV m k n (map rho a) (map rho b)
  | OMatVD m k n a b => OMatVD m k n (map rho a) b
  | OMatDV m k n a b => OMatDV m k n a (map rho b)
  | OPart v p l => OPart v p (map rho l)
  end.

Lemma ren_regs rho o : op_regs (ren rho o) = map rho (op_regs o).
Proof. destruct o; cbn [ren op_regs map]; rewrite ?map_app; reflexivity. Qed.

Lemma ren_shape rho o : op_shape o -> op_shape (ren rho o).
Proof. destruct o; cbn [ren op_shape]; rewrite ?map_length; auto. Qed.

Lemma ren_neutral rho o : neutral (ren rho o) = neutral o.
Proof. destruct o; try destruct b; reflexivity. Qed.

Lemma ren_matmul rho o : is_matmul (ren rho o) = is_matmul o.
Proof. destruct o; reflexivity. Qed.

Lemma ren_reg rho e env r : nth_error e (rho r) = nth_error env r -> reg e (rho r) = reg env r.
Proof. unfold reg. intros ->. reflexivity. Qed.

Lemma ren_rs rho e env l : Forall (fun r => nth_error e (rho r) = nth_error env r) l -> regs e (map rho l) = regs env l.
Proof.
  unfold regs. induction 1 as [|r l H _ IH]; [reflexivity|]. cbn [map mmap]. rewrite (ren_reg _ _ _ _ H), IH. reflexivity.
Qed.

Lemma ren_exec rho e env o : Forall (fun r => nth_error e (rho r) = nth_error env r) (op_regs o) ->
  exec_op e (ren rho o) = exec_op env o.
Proof.
  destruct o; cbn [op_regs ren exec_op]; intros H; auto;
    try (apply Forall_app in H; destruct H as [H1 H2]; rewrite (ren_rs _ _ _ _ H1), (ren_rs _ _ _ _ H2); reflexivity);
    try (rewrite (ren_rs _ _ _ _ H); reflexivity).
  - rewrite (ren_reg _ _ _ _ (Forall_inv H)). reflexivity.
  - rewrite (ren_reg _ _ _ _ (Forall_inv H)), (ren_reg _ _ _ _ (Forall_inv (Forall_inv_tail H))). reflexivity.
  - rewrite (ren_reg _ _ _ _ (Forall_inv H)). reflexivity.
  - rewrite (ren_reg _ _ _ _ (Forall_inv H)). reflexivity.
Qed.

Lemma incl_names (env e : list Z) : incl env e ->
  exists rho, forall r, r < length env -> nth_error e (rho r) = nth_error env r.
Proof.
  induction env as [|h env IH]; intros H.
  - exists (fun _ => 0). cbn [length]. intros; lia.
  - destruct IH as [rho Q]; [intros x Hx; apply H; right; exact Hx|].
    destruct (In_nth_error e h (H h (or_introl eq_refl))) as [i Ei].
    exists (fun r => match r with O => i | S r' => rho r' end). intros [|r] Hr; cbn [nth_error length] in *; auto. apply Q. lia.
Qed.

Lemma reach_cmd e s c hs os s' : reachable e s -> cmd_ok s e c -> exec_cmd e c s = Ok ((hs, os), s') -> reachable (e ++ hs) s'.
Proof.
  intros HR HO HX. apply (reach_run e s (Do c (fun _ => Done)) (e ++ hs) (os ++ []) s' HR).
  - cbn [client_ok]. split; auto.
  - cbn [run]. unfold mbind. rewrite HX. reflexivity.
Qed.

Lemma reach_op e env o s hs s' : reachable e s -> incl env e -> Forall (alive s) env ->
  Forall (fun r => r < length env) (op_regs o) -> op_shape o -> neutral o = false -> is_matmul o = false ->
  exec_op env o s = Ok (hs, s') -> reachable (e ++ hs) s'.
Proof.
  intros HR HI HA HB HS HN HM HX. destruct (incl_names env e HI) as [rho Q].
  assert (HB' : Forall (fun r => nth_error e (rho r) = nth_error env r) (op_regs o)).
  { eapply Forall_impl; [|exact HB]. cbv beta. auto. }
  apply (reach_cmd e s (COp (ren rho o)) hs [] s' HR).
  - cbn [cmd_ok]. unfold op_ok. rewrite ren_regs, ren_neutral, ren_matmul. split.
    + apply Forall_map. rewrite Forall_forall in *. intros r Hr. specialize (HB r Hr). destruct (lt_nth_error _ _ HB) as [h E].
      exists h. rewrite (Q r HB). split; auto. apply HA. eapply nth_error_In; eauto.
    + split; [apply ren_shape; auto|]. split; auto. congruence.
  - cbn [exec_cmd]. rewrite (ren_exec rho e env o HB'). unfold mbind. rewrite HX. reflexivity.
Qed.

Lemma in_has_reg e s h : In h e -> alive s h -> exists r, nth_error e r = Some h /\ has_reg s e r.
Proof. intros HI HA. destruct (In_nth_error _ _ HI) as [r E]. exists r. split; auto. exists h. auto. Qed.

Lemma reach_grad e s h s' : reachable e s -> In h e -> alive s h -> grad h s = Ok (tt, s') -> reachable e s'.
Proof.
  intros HR HI HA HX. destruct (in_has_reg e s h HI HA) as (r & E & HH). rewrite <- (app_nil_r e).
  apply (reach_cmd e s (CGrad r) [] [] s' HR HH). cbn [exec_cmd]. unfold reg. rewrite E. unfold quiet, mbind, mret. cbn [bind]. rewrite HX. reflexivity.
Qed.

Lemma reach_begin e s s' : reachable e s -> (s_lvl s < 10)%Z -> begin_nested s = Ok (tt, s') -> reachable e s'.
Proof.
  intros HR HL HX. rewrite <- (app_nil_r e). apply (reach_cmd e s CBegin [] [] s' HR HL). cbn [exec_cmd]. unfold quiet, mbind. rewrite HX. reflexivity.
Qed.

Lemma reach_end e s s' : reachable e s -> (t_head (s_tape s) <= t_size (s_tape s))%Z -> end_nested s = Ok (tt, s') -> reachable e s'.
Proof.
  intros HR HL HX. rewrite <- (app_nil_r e). apply (reach_cmd e s CEnd [] [] s' HR (or_intror HL)). cbn [exec_cmd]. unfold quiet, mbind. rewrite HX. reflexivity.
Qed.

Lemma reach_zero_nested e s s' : reachable e s -> (1 <= s_lvl s)%Z -> set_zero_nested_adj s = Ok (tt, s') -> reachable e s'.
Proof.
  intros HR HL HX. rewrite <- (app_nil_r e). apply (reach_cmd e s CZeroNested [] [] s' HR HL). cbn [exec_cmd]. unfold quiet, mbind. rewrite HX. reflexivity.
Qed.
End Rename.
