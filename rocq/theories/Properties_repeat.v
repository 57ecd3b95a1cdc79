(* C54.
   Vocabulary (beyond that of Properties_reverse).
   RepeatSpec.v: a [caller] asks for gradients and jacobians one after the other, each
   function and point chosen from the answers so far; [asks c env] runs it on the
   library, its functions may use the variables env besides their arguments.
   [ends_with ok ws head limit c size fin]: how it ends on plain numbers, [Answered] with
   these answers, [Stopped] by a call outside its domain, or [Overrun], a call having
   filled the storage to its last word; ok is asked of each function and point.
   [proper ok]: its functions are well formed, satisfy ok and return something.
   [in_place P ws f xs]: arguments and other variables without an operation take places
   marked by P, entries of matrix products places that are not (counted from the first
   argument).  [undisturbed s s']: same variables, values, operations. *)
From Coq Require Import ZifyBool ZifyNat.
From Flocq Require Import IEEE754.BinarySingleNaN IEEE754.Binary IEEE754.Bits.
From Verif Require Import TapeFacts.
From Verif Require Export Claims_repeat Findings_repeat Properties_reverse.
Local Open Scope nat_scope.

(* ---- C54 ---- *)
Theorem C54_session_partial {N : Num} {RL : RepLaws N} {C : Cfg N} limit env0 s env (ws : list F) c fin :
  practical -> reachable env0 s -> incl env env0 -> (s_lvl s < 10)%Z ->
  Forall (alive s) env -> mapM (var_val s) env = Ok ws -> (0 <= limit)%Z -> roomy s limit ->
  ends_with (fun f _ => no_matmul f) ws (t_head (s_tape s)) limit c (t_size (s_tape s)) fin ->
  match fin with
  | Answered l => exists s' env', asks c env s = Ok (l, s') /\ reachable env' s' /\ incl env0 env' /\ undisturbed s s'
  | Stopped => asks c env s = ErrStop
  | Overrun => asks c env s = Undef OutOfBounds
  end.
Proof. exact (asks_end limit env0 s env ws c fin). Qed.
Print Assumptions C54_session_partial.
(* every proper caller is covered *)
Theorem C54_covered {N : Num} {RL : RepLaws N} {C : Cfg N} ok (ws : list F) head limit c :
  practical -> proper ok ws limit c -> forall size, exists fin, ends_with ok ws head limit c size fin.
Proof. exact (proper_ends ok ws head limit c). Qed.
Print Assumptions C54_covered.
(* after one call the program may go on: everything proved of reachable states holds again *)
Theorem C54_gradient_partial {N : Num} {RL : RepLaws N} {C : Cfg N} env0 s env (ws xs : list F) (f : fn) r s' :
  practical -> reachable env0 s -> incl env env0 -> (s_lvl s < 10)%Z -> Forall (alive s) env -> mapM (var_val s) env = Ok ws ->
  let t0 := map given (ws ++ xs) in let rs := seq 0 (length ws + length xs) in
  well_formed f rs t0 -> no_matmul f -> roomy s (6 * zlen xs + cost f rs t0) ->
  gradient (fun xv => call_fn1 f (env ++ xv)) xs s = Ok (r, s') -> option_map fst (trace f rs t0) <> Some [] ->
  exists env', reachable env' s' /\ incl env0 env' /\ undisturbed s s'.
Proof. exact (gradient_again env0 s env ws xs f r s'). Qed.
Print Assumptions C54_gradient_partial.
Theorem C54_jacobian_partial {N : Num} {RL : RepLaws N} {C : Cfg N} env0 s env (ws xs : list F) (f : fn) r s' :
  practical -> reachable env0 s -> incl env env0 -> (s_lvl s < 10)%Z -> Forall (alive s) env -> mapM (var_val s) env = Ok ws ->
  let t0 := map given (ws ++ xs) in let rs := seq 0 (length ws + length xs) in
  well_formed f rs t0 -> no_matmul f -> roomy s (6 * zlen xs + cost f rs t0) ->
  jacobian (fun xv => call_fn f (env ++ xv)) xs s = Ok (r, s') -> option_map fst (trace f rs t0) <> Some [] ->
  exists env', reachable env' s' /\ incl env0 env' /\ undisturbed s s'.
Proof. exact (jacobian_again env0 s env ws xs f r s'). Qed.
Print Assumptions C54_jacobian_partial.

Section Ex54.
Context (L : Libm).
Local Notation BN := (B64 L).
Local Notation BM := (demo (B64 L)).
Local Notation bs := (@state_of BN BM (bwork52 L)).
(* the gradient of f53 at 3 and then at its derivative there, 4 *)
Definition c54 : @caller BN := Ask false (f53 L) (c3 :: nil) (fun r => Ask false (f53 L) (nth 1 (nth 0 r []) c3 :: nil) (fun _ => Enough)).
Definition t54 (x : binary64) : list (@line BN) :=
  match @trace BN (f53 L) (seq 0 3) (map (@given BN) ([c3; cm3] ++ x :: nil)) with Some (_, t) => t | None => [] end.
Lemma ex54_trace x : option_map fst (@trace BN (f53 L) (seq 0 3) (map (@given BN) ([c3; cm3] ++ x :: nil))) = Some (4 :: nil) ->
  @trace BN (f53 L) (seq 0 3) (map (@given BN) ([c3; cm3] ++ x :: nil)) = Some (4 :: nil, t54 x).
Proof.
  unfold t54. destruct (@trace BN (f53 L) (seq 0 3) (map (@given BN) ([c3; cm3] ++ x :: nil))) as [[ys t]|]; [|discriminate].
  cbn [option_map fst]. congruence.
Qed.
Lemma ex54_wf x : @written BN RGt x cm3 = true -> @well_formed BN (f53 L) (seq 0 3) (map (@given BN) ([c3; cm3] ++ x :: nil)).
Proof.
  intros E. unfold f53. cbn [well_formed seq length map app given value l_value nth]. rewrite E.
  cbn. repeat split; repeat constructor.
Qed.
Lemma ex54_nm : @no_matmul BN (f53 L).
Proof. intros [|]; cbn; auto. Qed.
Lemma ex54_next : map bits_of_b64 (nth 1 (nth 0 (answer (t54 c3) 2 1 (4 :: nil)) []) c3 :: nil) = map bits_of_b64 (c4 :: nil).
Proof. vm_compute. reflexivity. Qed.
Lemma ex54_next' : nth 1 (nth 0 (answer (t54 c3) 2 1 (4 :: nil)) []) c3 = c4.
Proof. apply bits_inj. pose proof ex54_next as E. cbn [map] in E. congruence. Qed.
Lemma ex54_ends : @ends_with BN BM (fun f _ => no_matmul f) [c3; cm3] 13 22 c54 12 (Answered [answer (t54 c3) 2 1 (4 :: nil); answer (t54 c4) 2 1 (4 :: nil)]).
Proof.
  assert (ST : @storage BN BM 12 35 48).
  { split; [lia|]. intros _. exists 2. split; [reflexivity|]. split; [lia|]. intros _. change (@init_tape_size BN BM) with 12%Z. change (2 ^ (Z.of_nat 2 - 1))%Z with 2%Z. lia. }
  assert (ST2 : @storage BN BM 48 35 48) by (split; [auto|lia]).
  assert (W : forall x, (x = c3 \/ x = c4) -> (6 * @zlen (@F BN) (x :: nil) + @cost BN (f53 L) (seq 0 3) (map (@given BN) ([c3; cm3] ++ x :: nil)) = 22)%Z).
  { intros x [->| ->]; vm_compute; reflexivity. }
  pose proof (W c3 (or_introl eq_refl)) as W1. pose proof (W c4 (or_intror eq_refl)) as W2.
  change (Answered [answer (t54 c3) 2 1 (4 :: nil); answer (t54 c4) 2 1 (4 :: nil)]) with
    (then_ends (answer (t54 c3) 2 1 (4 :: nil)) (then_ends (answer (t54 c4) 2 1 (4 :: nil)) (@Answered BN []))).
  eapply (@ends_ask BN BM (fun f _ => no_matmul f) [c3; cm3] 13 22 false (f53 L) (c3 :: nil) _ 12 4 [] (t54 c3) 48).
  - apply ex54_wf. vm_compute. reflexivity.
  - exact ex54_nm.
  - exact (Z.eq_le_incl _ _ W1).
  - apply ex54_trace. vm_compute. reflexivity.
  - exact (@eq_ind_r Z 22%Z (fun w => @storage BN BM 12 (13 + w) 48) ST _ W1).
  - refine (@eq_ind_r Z 22%Z (fun w => 48 <> 13 + w - 1)%Z _ _ W1). lia.
  - change (length [c3; cm3]) with 2. change (length (c3 :: nil)) with 1. rewrite ex54_next'.
    eapply (@ends_ask BN BM (fun f _ => no_matmul f) [c3; cm3] 13 22 false (f53 L) (c4 :: nil) _ 48 4 [] (t54 c4) 48).
    + apply ex54_wf. vm_compute. reflexivity.
    + exact ex54_nm.
    + exact (Z.eq_le_incl _ _ W2).
    + apply ex54_trace. vm_compute. reflexivity.
    + exact (@eq_ind_r Z 22%Z (fun w => @storage BN BM 48 (13 + w) 48) ST2 _ W2).
    + refine (@eq_ind_r Z 22%Z (fun w => 48 <> 13 + w - 1)%Z _ _ W2). lia.
    + constructor.
Qed.
Example C54_ex : exists l s', @asks BN BM c54 [1; 2]%Z bs = Ok (l, s') /\
  map (map (map bits_of_b64)) l = map (map (map bits_of_b64)) [[[c12; c4]]; [[b64_of_bits 4625196817309499392; c4]]].
Proof.
  destruct (@C54_session_partial BN _ BM 22 [1; 2]%Z bs [1; 2]%Z [c3; cm3] c54 _ (demo_practical BN) (ex53_reach L)
    (fun z Hz => Hz) ltac:(vm_compute; reflexivity) (ex53_alive L) (ex53_vals L) ltac:(lia) (proj1 (ex53_room L)) ex54_ends) as (s' & env' & E & _).
  eexists. exists s'. split; [exact E|]. vm_compute. reflexivity.
Qed.
End Ex54.
(* the gradient of f returns, but not after that of a function that calls matmul *)
Theorem C54_matmul_refuted (L : Libm) : exists f g xs ys,
  let once := Ask false f xs (fun _ => Enough) in let after := Ask false g ys (fun _ => once) in
  @well_formed (B64 L) f (seq 0 (length xs)) (map given xs) /\ @well_formed (B64 L) g (seq 0 (length ys)) (map given ys) /\ no_matmul f /\
  ends (@asks (B64 L) (demo (B64 L)) (Ask false g ys (fun _ => Enough)) [] st_init) = Returns /\
  ends (@asks (B64 L) (demo (B64 L)) once [] st_init) = Returns /\
  ends (@asks (B64 L) (demo (B64 L)) after [] st_init) = Undefined OutOfBounds /\
  ends (@asks (B64 L) (demo_std (B64 L)) after [] st_init) = Undefined ShapeMismatch.
Proof. exact (repeat_matmul L). Qed.
Print Assumptions C54_matmul_refuted.
