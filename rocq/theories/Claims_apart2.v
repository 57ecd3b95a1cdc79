(* Calls of gradient and jacobian after a history with matmul inside blocks. *)
From Verif Require Import TapeFacts.
From Coq Require Import ZifyBool ZifyNat.
From Verif Require Import Claims_again.
From Verif Require Export Claims_apart.
Local Open Scope nat_scope.
Local Notation hd := Refine.hd.

Section Session.
Context {N : Num} {RL : RepLaws N} {C : Cfg N}.

(* the places marked by Q, counted from the next variable, are slots marked by P *)
Lemma tidy_agree P (Q : nat -> bool) s g : Rel s g -> neat P g -> (forall i, Q i = true -> P (s_head s + Z.of_nat i)%Z = true) ->
  Steady.agree (slots (gsize g) Q) s s.
Proof.
  intros R HG HQ. constructor; auto. intros j Hj Hn. unfold slots in Hj. apply andb_true_iff in Hj. destruct Hj as [H1 H2].
  pose proof (r_ch _ _ R (Z.to_nat (j - 1))) as E. replace (Z.of_nat (Z.to_nat (j - 1)) + 1)%Z with j in E by lia. rewrite E by lia.
  apply (nt_stale P g HG); [unfold hd in H1; lia|]. specialize (HQ _ H2). rewrite (r_head _ _ R) in HQ.
  replace (hd (Z.to_nat (j - 1))) with (Z.of_nat (gsize g) + 1 + Z.of_nat (Z.to_nat (j - hd (gsize g))))%Z; [exact HQ|]. unfold hd in *. lia.
Qed.

Theorem apart_session P Q limit e s env (ws : list F) c fin : practical -> reachable_apart P e s -> (s_lvl s < 10)%Z ->
  (forall i, Q i = true -> P (s_head s + Z.of_nat i)%Z = true) ->
  Forall (alive s) env -> mapM (var_val s) env = Ok ws -> (0 <= limit)%Z -> roomy s limit ->
  ends_with (in_place Q ws) ws (t_head (s_tape s)) limit c (t_size (s_tape s)) fin ->
  match fin with
  | Answered l => exists s', asks c env s = Ok (l, s') /\ undisturbed s s'
  | Stopped => asks c env s = ErrStop
  | Overrun => asks c env s = Undef OutOfBounds
  end.
Proof.
  intros HP HR HL HQ HA HW H0 HM HE. destruct (reach_tidy P e s HP HR) as [(g & R0 & HG) _].
  destruct (roomy_peak s g limit R0 H0 HM) as [P1 P2]. pose proof (tidy_agree P Q s g R0 HG HQ) as AG.
  apply (asks_on Q limit env ws _ c _ fin HP HE g s (wipe (slots (gsize g) Q) s) (gwipe (slots (gsize g) Q) g)); auto.
  - apply agree_wipe, AG.
  - apply rel_wipe, R0.
  - apply (sound_wipe _ s s g AG R0). exact (nt_fit P g HG).
  - repeat split. intros k Hk. cbn [gwipe g_ch]. replace (gsize g <=? k) with false by lia. reflexivity.
Qed.
End Session.
