(* C54 after a history with matmul inside nested blocks.
   Vocabulary: that of Properties_effect (asks, ends_with, in_place, undisturbed) and of
   Properties_apart (reachable_apart).  P marks slots of the table of variables, Q places
   counted from the next free slot. *)
From Coq Require Import ZifyBool ZifyNat.
From Flocq Require Import IEEE754.BinarySingleNaN IEEE754.Binary IEEE754.Bits.
From Verif Require Import TapeFacts.
From Verif Require Export Claims_apart2 Properties_apart Properties_effect.
Local Open Scope nat_scope.

(* ---- C54 ---- *)
Theorem C54_history {N : Num} {RL : RepLaws N} {C : Cfg N} P Q limit env0 s env (ws : list F) c fin :
  practical -> reachable_apart P env0 s -> (s_lvl s < 10)%Z ->
  (forall i, Q i = true -> P (s_head s + Z.of_nat i)%Z = true) ->
  Forall (alive s) env -> mapM (var_val s) env = Ok ws -> (0 <= limit)%Z -> roomy s limit ->
  ends_with (in_place Q ws) ws (t_head (s_tape s)) limit c (t_size (s_tape s)) fin ->
  match fin with
  | Answered l => exists s', asks c env s = Ok (l, s') /\ undisturbed s s'
  | Stopped => asks c env s = ErrStop
  | Overrun => asks c env s = Undef OutOfBounds
  end.
Proof. exact (apart_session P Q limit env0 s env ws c fin). Qed.
Print Assumptions C54_history.

(* ---- a case ---- *)
(* two variables; a block with an independent variable in slot 3 and a product by matmul in
   slot 4, which keeps the step of that product; then the calls of C54_session_ex *)
Section Cases.
Local Notation BN := (B64 libm0).
Local Notation BM := (demo BN).
Definition not4 (h : Z) : bool := negb (h =? 4)%Z.
Definition hist : list (@cmd BN) :=
  bwork52 libm0 ++ [CBegin; COp (@OVar BN c5); COp (OMatVV 1 1 1 (0 :: nil) (2 :: nil)); CGradNested 3; CEnd].
Local Notation hs := (@state_of BN BM hist).
Lemma exh_reach : @reachable_apart BN BM not4 (@env_of BN BM hist) hs.
Proof. apply script_reach_apart; [repeat constructor|vm_compute; reflexivity|vm_compute; exact I]. Qed.
Lemma exh_state : s_head hs = 3%Z /\ s_lvl hs = 0%Z /\ t_head (s_tape hs) = 13%Z /\ t_size (s_tape hs) = 48%Z /\
  mapM (@var_val BN hs) [1; 2]%Z = Ok [c3; cm3] /\ v_chain (s_varis hs 4%Z) = ChMatVV.
Proof. vm_compute. repeat split; reflexivity. Qed.
Lemma exh_ends : @ends_with BN BM (@in_place BN (fun k => k =? 0) [c3; cm3]) [c3; cm3] 13 30 (c56 libm0) 48
  (Answered [answer (t56 libm0) 2 1 (3 :: 4 :: nil); answer (t53 libm0) 2 1 (4 :: nil)]).
Proof.
  assert (ST1 : @storage BN BM 48 43 48) by (split; [auto|lia]).
  assert (ST2 : @storage BN BM 48 35 48) by (split; [auto|lia]).
  pose proof (ex56_words libm0) as W1. pose proof (ex53_words libm0) as W2.
  change (Answered [answer (t56 libm0) 2 1 (3 :: 4 :: nil); answer (t53 libm0) 2 1 (4 :: nil)]) with
    (then_ends (answer (t56 libm0) 2 1 (3 :: 4 :: nil)) (then_ends (answer (t53 libm0) 2 1 (4 :: nil)) (@Answered BN []))).
  eapply (@ends_ask BN BM (@in_place BN (fun k => k =? 0) [c3; cm3]) [c3; cm3] 13 30 true (f56 libm0) (c3 :: nil) _ 48 3 (4 :: nil) (t56 libm0) 48).
  - exact (ex56_wf libm0).
  - exact (proj1 (ex56_place libm0)).
  - exact (Z.eq_le_incl _ _ W1).
  - exact (ex56_trace libm0).
  - exact (@eq_ind_r Z 30%Z (fun w => @storage BN BM 48 (13 + w) 48) ST1 _ W1).
  - refine (@eq_ind_r Z 30%Z (fun w => 48 <> 13 + w - 1)%Z _ _ W1). lia.
  - change (length [c3; cm3]) with 2. change (length (c3 :: nil)) with 1. rewrite (ex56_next libm0).
    eapply (@ends_ask BN BM (@in_place BN (fun k => k =? 0) [c3; cm3]) [c3; cm3] 13 30 false (f53 libm0) (c3 :: nil) _ 48 4 [] (t53 libm0) 48).
    + exact (ex53_wf libm0).
    + exact (proj2 (ex56_place libm0)).
    + refine (@eq_ind_r Z 22%Z (fun w => w <= 30)%Z _ _ W2). lia.
    + exact (ex53_trace libm0).
    + exact (@eq_ind_r Z 22%Z (fun w => @storage BN BM 48 (13 + w) 48) ST2 _ W2).
    + refine (@eq_ind_r Z 22%Z (fun w => 48 <> 13 + w - 1)%Z _ _ W2). lia.
    + constructor.
Qed.
Example C54_history_ex : v_chain (s_varis hs 4%Z) = ChMatVV /\ exists l s', @asks BN BM (c56 libm0) [1; 2]%Z hs = Ok (l, s') /\
  map (map (map bits_of_b64)) (map (map (@tl _)) l) = map (map (map bits_of_b64)) [[c3 :: nil; c4 :: nil]; (c4 :: nil) :: nil].
Proof.
  destruct exh_state as (H1 & H2 & H3 & H4 & H5 & H6). split; [exact H6|].
  pose proof exh_ends as HE. rewrite <- H3, <- H4 in HE.
  assert (HA : Forall (@alive BN hs) [1; 2]%Z) by (apply Forall_cons; [|apply Forall_cons; [|apply Forall_nil]]; apply aliveb_ok; vm_compute; reflexivity).
  assert (HM : @roomy BN hs 30) by (unfold roomy; rewrite H3, H4; lia).
  assert (HQ : forall i, (i =? 0) = true -> not4 (s_head hs + Z.of_nat i)%Z = true) by (intros i Hi; rewrite H1; unfold not4; lia).
  destruct (@C54_history BN _ BM not4 (fun k => k =? 0) 30 _ hs [1; 2]%Z [c3; cm3] (c56 libm0) _ (demo_practical BN) exh_reach
    ltac:(lia) HQ HA H5 ltac:(lia) HM HE) as (s' & E & _).
  eexists. exists s'. split; [exact E|]. vm_compute. reflexivity.
Qed.
End Cases.
