(* C38, C54, C56.
   Vocabulary: that of Properties_repeat and Properties_reverse.
   [same_val s s' h], [same_adj s s' h]: variable h has the same value, adjoint in both
   states.  [mmap]: one call after the other.  [reg hs i]: the i-th of the variables hs. *)
From Coq Require Import ZifyBool ZifyNat.
From Flocq Require Import IEEE754.BinarySingleNaN IEEE754.Binary IEEE754.Bits.
From Verif Require Import TapeFacts.
From Verif Require Export Claims_again Properties_repeat.
Local Open Scope nat_scope.

(* ---- C38 ---- *)
(* what is true: gradient returns the numbers, and leaves the caller's variables the
   values and adjoints, of declaring the arguments, calling f and sweeping with grad *)
Theorem C38_effect {N : Num} {RL : RepLaws N} {C : Cfg N} env0 s env (ws xs : list F) (f : fn) y ys t :
  practical -> reachable env0 s -> (s_lvl s < 10)%Z -> Forall (alive s) env -> mapM (var_val s) env = Ok ws ->
  let t0 := map given (ws ++ xs) in let rs := seq 0 (length ws + length xs) in let w := (6 * zlen xs + cost f rs t0)%Z in
  well_formed f rs t0 -> roomy s w -> ~ exactly_full s w -> trace f rs t0 = Some (y :: ys, t) ->
  exists v d s' xv h s1 s2 s3, gradient (fun xv => call_fn1 f (env ++ xv)) xs s = Ok (v :: d, s') /\
    new_var_vals xs s = Ok (xv, s1) /\ call_fn1 f (env ++ xv) s1 = Ok (h, s2) /\ grad h s2 = Ok (tt, s3) /\
    var_val s3 h = Ok v /\ mapM (var_adj s3) xv = Ok d /\
    forall h, alive s h -> same_val s3 s' h /\ same_adj s3 s' h.
Proof. exact (fun HP HR => gradient_effect s env ws xs f y ys t HP (reach_snd env0 s HP HR)). Qed.
Print Assumptions C38_effect.

(* ---- C54 ---- *)
(* matrix products allowed: they must stay clear of the places of variables without an operation *)
Theorem C54_session {N : Num} {RL : RepLaws N} {C : Cfg N} P limit env0 s env (ws : list F) c fin :
  practical -> reachable env0 s -> (s_lvl s < 10)%Z ->
  Forall (alive s) env -> mapM (var_val s) env = Ok ws -> (0 <= limit)%Z -> roomy s limit ->
  ends_with (in_place P ws) ws (t_head (s_tape s)) limit c (t_size (s_tape s)) fin ->
  match fin with
  | Answered l => exists s', asks c env s = Ok (l, s') /\ undisturbed s s'
  | Stopped => asks c env s = ErrStop
  | Overrun => asks c env s = Undef OutOfBounds
  end.
Proof. exact (session_end P limit env0 s env ws c fin). Qed.
Print Assumptions C54_session.

(* ---- C56 ---- *)
(* a jacobian is the gradients of the components, one after the other: the same numbers,
   and the same values and adjoints of the caller's variables afterwards *)
Theorem C56_jacobian {N : Num} {RL : RepLaws N} {C : Cfg N} env0 s env (ws xs : list F) (f : fn) ys t :
  practical -> reachable env0 s -> (s_lvl s < 10)%Z -> Forall (alive s) env -> mapM (var_val s) env = Ok ws ->
  let t0 := map given (ws ++ xs) in let rs := seq 0 (length ws + length xs) in let w := (6 * zlen xs + cost f rs t0)%Z in
  well_formed f rs t0 -> roomy s w -> ~ exactly_full s w -> trace f rs t0 = Some (ys, t) -> ys <> [] ->
  exists l s' s'', jacobian (fun xv => call_fn f (env ++ xv)) xs s = Ok (l, s') /\
    mmap (fun i => gradient (fun xv => mbind (call_fn f (env ++ xv)) (fun hs => reg hs i)) xs) (seq 0 (length ys)) s = Ok (l, s'') /\
    length l = length ys /\ s_head s'' = s_head s' /\ s_lvl s'' = s_lvl s' /\ t_head (s_tape s'') = t_head (s_tape s') /\
    forall h, alive s h -> same_val s' s'' h /\ same_adj s' s'' h.
Proof. exact (jacobian_components env0 s env ws xs f ys t). Qed.
Print Assumptions C56_jacobian.

Section Ex56.
Context (L : Libm).
Local Notation BN := (B64 L).
Local Notation BM := (demo (B64 L)).
Local Notation bs := (@state_of BN BM (bwork52 L)).
Example C38_effect_ex : exists v d s' xv h s1 s2 s3, @gradient BN BM (fun xv => @call_fn1 BN BM (f53 L) ([1; 2]%Z ++ xv)) (c3 :: nil) bs = Ok (v :: d, s') /\
    @new_var_vals BN BM (c3 :: nil) bs = Ok (xv, s1) /\ @call_fn1 BN BM (f53 L) ([1; 2]%Z ++ xv) s1 = Ok (h, s2) /\ @grad BN BM h s2 = Ok (tt, s3) /\
    @var_val BN s3 h = Ok v /\ mapM (@var_adj BN s3) xv = Ok d /\
    forall h, @alive BN bs h -> @same_val BN s3 s' h /\ @same_adj BN s3 s' h.
Proof.
  pose proof (ex53_room L) as [H1 H2]. rewrite <- (ex53_words L) in H1, H2.
  exact (@C38_effect BN _ BM [1; 2]%Z bs [1; 2]%Z [c3; cm3] (c3 :: nil) (f53 L) 4 [] (t53 L) (demo_practical BN) (ex53_reach L)
    ltac:(vm_compute; reflexivity) (ex53_alive L) (ex53_vals L) (ex53_wf L) H1 H2 (ex53_trace L)).
Qed.
(* f(x) = (p, p + x) where p is the product of the matrices (u) and (x) *)
Definition f56 : @fn BN := FCall (OMatVV 1 1 1 (0 :: nil) (2 :: nil)) (FCall (OVV BAdd 3 2) (FRet (3 :: 4 :: nil))).
Definition t56 : list (@line BN) :=
  match @trace BN f56 (seq 0 3) (map (@given BN) ([c3; cm3] ++ c3 :: nil)) with Some (_, t) => t | None => [] end.
Lemma ex56_trace : @trace BN f56 (seq 0 3) (map (@given BN) ([c3; cm3] ++ c3 :: nil)) = Some (3 :: 4 :: nil, t56).
Proof.
  assert (E : option_map fst (@trace BN f56 (seq 0 3) (map (@given BN) ([c3; cm3] ++ c3 :: nil))) = Some (3 :: 4 :: nil)) by (vm_compute; reflexivity).
  unfold t56. destruct (@trace BN f56 (seq 0 3) (map (@given BN) ([c3; cm3] ++ c3 :: nil))) as [[ys t]|]; [|discriminate E].
  cbn [option_map fst] in E. congruence.
Qed.
Lemma ex56_words : (6 * @zlen (@F BN) (c3 :: nil) + @cost BN f56 (seq 0 3) (map (@given BN) ([c3; cm3] ++ c3 :: nil)) = 30)%Z.
Proof. vm_compute; reflexivity. Qed.
Lemma ex56_wf : @well_formed BN f56 (seq 0 3) (map (@given BN) ([c3; cm3] ++ c3 :: nil)).
Proof. unfold f56. cbn. repeat split; repeat constructor. all: vm_compute; discriminate. Qed.
Lemma ex56_room : @roomy BN bs 30 /\ ~ @exactly_full BN BM bs 30.
Proof.
  assert (H1 : (t_head (s_tape bs) = 13)%Z) by (vm_compute; reflexivity).
  assert (H2 : (t_size (s_tape bs) = 12)%Z) by (vm_compute; reflexivity).
  unfold roomy, exactly_full, storage. rewrite H1, H2. split; [lia|]. intros [_ A].
  destruct (A ltac:(lia)) as (k & Hk & _). change (@init_tape_size BN BM) with 12%Z in Hk. lia.
Qed.
Example C56_ex : exists l s' s'', @jacobian BN BM (fun xv => @call_fn BN BM f56 ([1; 2]%Z ++ xv)) (c3 :: nil) bs = Ok (l, s') /\
  @mmap BN _ _ (fun i => @gradient BN BM (fun xv => mbind (@call_fn BN BM f56 ([1; 2]%Z ++ xv)) (fun hs => reg hs i)) (c3 :: nil)) [0; 1] bs = Ok (l, s'') /\
  map (map bits_of_b64) (map (@tl _) l) = map (map bits_of_b64) [[c3]; [c4]].
Proof.
  pose proof ex56_room as [H1 H2]. rewrite <- ex56_words in H1, H2.
  destruct (@C56_jacobian BN _ BM [1; 2]%Z bs [1; 2]%Z [c3; cm3] (c3 :: nil) f56 (3 :: 4 :: nil) t56 (demo_practical BN) (ex53_reach L)
    ltac:(vm_compute; reflexivity) (ex53_alive L) (ex53_vals L) ex56_wf H1 H2 ex56_trace ltac:(discriminate)) as (l & s' & s'' & E1 & E2 & _).
  exists l, s', s''. split; [exact E1|]. split; [exact E2|].
  destruct (@C53_jacobian BN _ BM [1; 2]%Z bs [1; 2]%Z [c3; cm3] (c3 :: nil) f56 (3 :: 4 :: nil) t56 (demo_practical BN) (ex53_reach L)
    ltac:(vm_compute; reflexivity) (ex53_alive L) (ex53_vals L) ex56_wf H1 H2 ex56_trace ltac:(discriminate)) as (s3 & E3).
  pose proof (eq_trans (eq_sym E1) E3) as E4. injection E4 as -> _. vm_compute. reflexivity.
Qed.

(* the jacobian of f56 at 3 (how matmul rounds is left open; the derivatives are 3, 4), then the gradient of f53 at the first derivative, 3 *)
Definition c56 : @caller BN := Ask true f56 (c3 :: nil) (fun r => Ask false (f53 L) (nth 1 (nth 0 r []) c3 :: nil) (fun _ => Enough)).
Lemma ex56_place : @in_place BN (fun k => k =? 0) [c3; cm3] f56 (c3 :: nil) /\ @in_place BN (fun k => k =? 0) [c3; cm3] (f53 L) (c3 :: nil).
Proof.
  split; (split; [cbn; intros i Hi; replace i with 0 by lia; reflexivity|]).
  - unfold f56. cbn. split; [discriminate|]. split; [intros _ i Hi; reflexivity|]. split; [discriminate|]. split; [discriminate|exact I].
  - unfold f53. cbn [apart Nat.add seq length map app given value l_value nth]. rewrite (ex53_test L). cbn. split; [discriminate|]. split; [discriminate|]. split; [discriminate|]. split; [discriminate|exact I].
Qed.
Lemma ex56_next : nth 1 (nth 0 (answer t56 2 1 (3 :: 4 :: nil)) []) c3 = c3.
Proof.
  apply bits_inj. assert (E : map bits_of_b64 (nth 1 (nth 0 (answer t56 2 1 (3 :: 4 :: nil)) []) c3 :: nil) = map bits_of_b64 (c3 :: nil)) by (vm_compute; reflexivity).
  cbn [map] in E. congruence.
Qed.
Lemma ex56_ends : @ends_with BN BM (@in_place BN (fun k => k =? 0) [c3; cm3]) [c3; cm3] 13 30 c56 12 (Answered [answer t56 2 1 (3 :: 4 :: nil); answer (t53 L) 2 1 (4 :: nil)]).
Proof.
  assert (ST : @storage BN BM 12 43 48).
  { split; [lia|]. intros _. exists 2. split; [reflexivity|]. split; [lia|]. intros _. change (@init_tape_size BN BM) with 12%Z. change (2 ^ (Z.of_nat 2 - 1))%Z with 2%Z. lia. }
  assert (ST2 : @storage BN BM 48 35 48) by (split; [auto|lia]).
  pose proof ex56_words as W1. pose proof (ex53_words L) as W2.
  change (Answered [answer t56 2 1 (3 :: 4 :: nil); answer (t53 L) 2 1 (4 :: nil)]) with
    (then_ends (answer t56 2 1 (3 :: 4 :: nil)) (then_ends (answer (t53 L) 2 1 (4 :: nil)) (@Answered BN []))).
  eapply (@ends_ask BN BM (@in_place BN (fun k => k =? 0) [c3; cm3]) [c3; cm3] 13 30 true f56 (c3 :: nil) _ 12 3 (4 :: nil) t56 48).
  - exact ex56_wf.
  - exact (proj1 ex56_place).
  - exact (Z.eq_le_incl _ _ W1).
  - exact ex56_trace.
  - exact (@eq_ind_r Z 30%Z (fun w => @storage BN BM 12 (13 + w) 48) ST _ W1).
  - refine (@eq_ind_r Z 30%Z (fun w => 48 <> 13 + w - 1)%Z _ _ W1). lia.
  - change (length [c3; cm3]) with 2. change (length (c3 :: nil)) with 1. rewrite ex56_next.
    eapply (@ends_ask BN BM (@in_place BN (fun k => k =? 0) [c3; cm3]) [c3; cm3] 13 30 false (f53 L) (c3 :: nil) _ 48 4 [] (t53 L) 48).
    + exact (ex53_wf L).
    + exact (proj2 ex56_place).
    + refine (@eq_ind_r Z 22%Z (fun w => w <= 30)%Z _ _ W2). lia.
    + exact (ex53_trace L).
    + exact (@eq_ind_r Z 22%Z (fun w => @storage BN BM 48 (13 + w) 48) ST2 _ W2).
    + refine (@eq_ind_r Z 22%Z (fun w => 48 <> 13 + w - 1)%Z _ _ W2). lia.
    + constructor.
Qed.
Example C54_session_ex : exists l s', @asks BN BM c56 [1; 2]%Z bs = Ok (l, s') /\
  map (map (map bits_of_b64)) (map (map (@tl _)) l) = map (map (map bits_of_b64)) [[[c3]; [c4]]; [[c4]]].
Proof.
  destruct (@C54_session BN _ BM (fun k => k =? 0) 30 [1; 2]%Z bs [1; 2]%Z [c3; cm3] c56 _ (demo_practical BN) (ex53_reach L)
    ltac:(vm_compute; reflexivity) (ex53_alive L) (ex53_vals L) ltac:(lia) (proj1 ex56_room) ex56_ends) as (s' & E & _).
  eexists. exists s'. split; [exact E|]. vm_compute. reflexivity.
Qed.
End Ex56.
