(* Reachable states, and a checker that a concrete script meets every
   precondition (used by the examples beside the theorems). *)
From Coq Require Import ZifyBool ZifyNat.
From Verif Require Import TapeFacts.
From Verif Require Export Blocks Storage.

Section Reach.
Context {N : Num} {C : Cfg N}.

(* s is a state some client reaches from the start of the program with every
   call meeting its precondition; env lists the variables it holds *)
Definition reachable (env : list Z) (s : st) : Prop :=
  exists p os, client_ok p [] st_init /\ run p [] st_init = Ok ((env, os), s).

(* ---- decision procedures for the preconditions ---- *)

Definition has_regb (s : st) (env : list Z) (r : nat) : bool :=
  match nth_error env r with Some h => (1 <=? h) && (h <? s_head s) | None => false end.

Definition dim3 (m k n : nat) : bool :=
  (Z.of_nat m <=? max_int) && (Z.of_nat k <=? max_int) && (Z.of_nat n <=? max_int).

(* the partials of OPart are a function: their size is a separate hypothesis *)
Definition op_shapeb (o : op) : bool :=
  match o with
  | ODotVV l1 l2 => Nat.eqb (length l1) (length l2)
  | ODotVD l d => Nat.eqb (length l) (length d)
  | ODotDV d l => Nat.eqb (length d) (length l)
  | OMatVV m k n a b =>
      Nat.eqb (length a) (m * k) && Nat.eqb (length b) (k * n) && dim3 m k n
  | OMatVD m k n a b =>
      Nat.eqb (length a) (m * k) && Nat.eqb (length b) (k * n) && dim3 m k n
  | OMatDV m k n a b =>
      Nat.eqb (length a) (m * k) && Nat.eqb (length b) (k * n) && dim3 m k n
  | _ => true
  end.

Definition part_ok (o : op) : Prop :=
  match o with
  | OPart v p l => forall xs, length xs = length l -> length (p xs) = length l
  | _ => True
  end.
Definition cpart_ok (c : cmd) : Prop := match c with COp o => part_ok o | _ => True end.

Definition op_okb (s : st) (env : list Z) (o : op) : bool :=
  forallb (has_regb s env) (op_regs o) && op_shapeb o && negb (neutral o) &&
  (negb (is_matmul o) || (s_lvl s =? 0)).

Definition cmd_okb (s : st) (env : list Z) (c : cmd) : bool :=
  match c with
  | COp o => op_okb s env o
  | CSet r _ | CGrad r | CVal r | CAdj r | CRelVD _ r _ | CRelDV _ _ r => has_regb s env r
  | CRelVV _ a b => has_regb s env a && has_regb s env b
  | CGradNested r => has_regb s env r && (1 <=? s_lvl s)
  | CZeroAll => true
  | CZeroNested => 1 <=? s_lvl s
  | CBegin => s_lvl s <? 10
  | CEnd => (s_lvl s =? 0) || (t_head (s_tape s) <=? t_size (s_tape s))
  end.

Fixpoint script_okb (l : list cmd) (env : list Z) (s : st) : bool :=
  match l with
  | [] => true
  | c :: t => cmd_okb s env c &&
      match exec_cmd env c s with
      | Ok ((hs, _), s') => script_okb t (env ++ hs) s'
      | _ => true
      end
  end.

Lemma has_regb_ok s env r : has_regb s env r = true -> has_reg s env r.
Proof.
  unfold has_regb, has_reg, alive. destruct (nth_error env r) as [h|]; [|discriminate].
  intros. exists h. split; auto. lia.
Qed.

Lemma has_regsb_ok s env l : forallb (has_regb s env) l = true -> Forall (has_reg s env) l.
Proof.
  intros H. rewrite forallb_forall in H. apply Forall_forall. intros r Hr. apply has_regb_ok; auto.
Qed.

Lemma op_shapeb_ok o : part_ok o -> op_shapeb o = true -> op_shape o.
Proof.
  unfold op_shapeb, op_shape, part_ok, dim3. destruct o; auto; intros _ H;
    rewrite ?andb_true_iff in H; rewrite ?Nat.eqb_eq in H; auto; repeat split; lia.
Qed.

Lemma op_okb_ok s env o : part_ok o -> op_okb s env o = true -> op_ok s env o.
Proof.
  unfold op_okb, op_ok. intros HP H. rewrite !andb_true_iff, negb_true_iff in H.
  destruct H as [[[H1 H2] H3] H4]. split; [apply has_regsb_ok; auto|].
  split; [apply op_shapeb_ok; auto|]. split; auto.
  intros E. rewrite E in H4. simpl in H4. lia.
Qed.

Lemma cmd_okb_ok s env c : cpart_ok c -> cmd_okb s env c = true -> cmd_ok s env c.
Proof.
  destruct c; cbn [cmd_okb cmd_ok cpart_ok]; intros HP H; auto;
    rewrite ?andb_true_iff in H; auto using op_okb_ok, has_regb_ok; try lia.
  - destruct H. split; auto using has_regb_ok. lia.
  - destruct H. split; auto using has_regb_ok.
Qed.

Lemma script_okb_ok l : Forall cpart_ok l -> forall env s,
  script_okb l env s = true -> client_ok (script l) env s.
Proof.
  induction 1 as [|c l Hc Hl IH]; intros env s; cbn [script_okb script client_ok]; auto.
  rewrite andb_true_iff. intros [H1 H2]. split; [apply cmd_okb_ok; auto|].
  intros hs os s' E. rewrite E in H2. apply IH. exact H2.
Qed.

(* registers and state after a script from the start of the program *)
Definition env_of (l : list cmd) : list Z :=
  match run (script l) [] st_init with Ok ((env, _), _) => env | _ => [] end.
Definition obs_of (l : list cmd) : list obs :=
  match run (script l) [] st_init with Ok ((_, os), _) => os | _ => [] end.
Definition state_of (l : list cmd) : st :=
  match run (script l) [] st_init with Ok (_, s) => s | _ => st_init end.
Definition runs (l : list cmd) : bool :=
  script_okb l [] st_init && match run (script l) [] st_init with Ok _ => true | _ => false end.

Lemma runs_reach l : Forall cpart_ok l -> runs l = true -> reachable (env_of l) (state_of l).
Proof.
  unfold runs. rewrite andb_true_iff. intros HP [H1 H2]. exists (script l), (obs_of l).
  split; [apply script_okb_ok; auto|]. unfold env_of, obs_of, state_of.
  destruct (run (script l) [] st_init) as [[[env os] s]| | |]; try discriminate. reflexivity.
Qed.

End Reach.

Section ReachValid.
Context {N : Num} {RL : RepLaws N} {C : Cfg N}.

Lemma reach_valid env s : practical -> reachable env s -> valid s /\ handles env.
Proof.
  intros HP (p & os & HC & HR).
  pose proof (client_valid p HP [] st_init valid_init (Forall_nil _) HC) as H.
  rewrite HR in H. exact H.
Qed.

Lemma reach_init : reachable [] st_init.
Proof. exists Done, []. split; [exact Logic.I|reflexivity]. Qed.

(* a client goes on from a reachable state *)
Fixpoint then_do (p : client) (q : client) : client :=
  match p with Done => q | Do c k => Do c (fun os => then_do (k os) q) end.

Lemma then_do_ok p q : forall env s, client_ok p env s ->
  (forall env' os s', run p env s = Ok ((env', os), s') -> client_ok q env' s') ->
  client_ok (then_do p q) env s.
Proof.
  induction p as [|c k IH]; intros env s H HQ; cbn [then_do client_ok] in *.
  - apply (HQ env [] s). reflexivity.
  - destruct H as [H1 H2]. split; auto. intros hs os s' E. apply IH; auto.
    intros env' os' s'' E2. apply (HQ env' (os ++ os') s''). cbn [run]. unfold mbind at 1. rewrite E.
    cbn [bind fst snd]. unfold mbind. rewrite E2. reflexivity.
Qed.

Lemma then_do_run p q : forall env s env1 os1 s1 env2 os2 s2,
  run p env s = Ok ((env1, os1), s1) -> run q env1 s1 = Ok ((env2, os2), s2) ->
  run (then_do p q) env s = Ok ((env2, os1 ++ os2), s2).
Proof.
  induction p as [|c k IH]; intros env s env1 os1 s1 env2 os2 s2 H1 H2; cbn [then_do run] in *.
  - inversion H1; subst. exact H2.
  - unfold mbind at 1. unfold mbind at 1 in H1.
    destruct (exec_cmd env c s) as [[[hs os] s']| | |]; cbn [bind fst snd] in *; try discriminate.
    unfold mbind in H1. destruct (run (k os) (env ++ hs) s') as [[[e o] s'']| | |] eqn:E;
      cbn [bind fst snd mret] in H1; try discriminate.
    inversion H1; subst. unfold mbind. rewrite (IH os _ _ _ _ _ _ _ _ E H2). cbn [bind mret fst snd].
    rewrite app_assoc. reflexivity.
Qed.

Lemma reach_run env s p env' os s' : reachable env s -> client_ok p env s ->
  run p env s = Ok ((env', os), s') -> reachable env' s'.
Proof.
  intros (q & os0 & Q1 & Q2) HO HR. exists (then_do q p), (os0 ++ os). split.
  - apply then_do_ok; auto. intros e o s0 E. rewrite Q2 in E. inversion E; subst. exact HO.
  - eapply then_do_run; eauto.
Qed.

End ReachValid.
