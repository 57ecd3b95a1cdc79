(* C53.
   Vocabulary (beyond that of Properties_branch).
   ReverseSpec.v: a function is run on plain numbers as a list of lines, [line]: a value
   and, for each adjoint of the line, the amounts its reverse step adds and to which
   lines.  [given x] is a line with no step; [step o ks xs] what the call o on the lines
   ks with values xs does; [trace f rs t] runs f on registers rs naming lines of t and
   gives the lines returned and all lines, or None when a call stops the program;
   [well_formed f rs t]: on the way taken registers exist, array sizes match and no
   constant is neutral; [cost f rs t]: tape words taken on the way; [value t i] the value of line i;
   [reverse t f]: start from adjoints f and let the lines from the last to the first
   add their amounts in order; [seed y]: one at line y, zero elsewhere. *)
From Coq Require Import ZifyBool ZifyNat.
From Flocq Require Import IEEE754.BinarySingleNaN IEEE754.Binary IEEE754.Bits.
From Verif Require Import TapeFacts.
From Verif Require Export Claims_reverse2 Properties_branch.
Local Open Scope nat_scope.

(* ---- C53 ---- *)
Theorem C53_gradient {N : Num} {RL : RepLaws N} {C : Cfg N} env0 s env (ws xs : list F) (f : fn) y ys t :
  practical -> reachable env0 s -> (s_lvl s < 10)%Z -> Forall (alive s) env -> mapM (var_val s) env = Ok ws ->
  let t0 := map given (ws ++ xs) in let rs := seq 0 (length ws + length xs) in let w := (6 * zlen xs + cost f rs t0)%Z in
  well_formed f rs t0 -> roomy s w -> ~ exactly_full s w -> trace f rs t0 = Some (y :: ys, t) ->
  exists s', gradient (fun xv => call_fn1 f (env ++ xv)) xs s =
    Ok (value t y :: map (reverse t (seed y)) (seq (length ws) (length xs)), s').
Proof. exact (fun HP HR => gradient_reverse s env ws xs f y ys t HP (reach_snd env0 s HP HR)). Qed.
Print Assumptions C53_gradient.
Theorem C53_jacobian {N : Num} {RL : RepLaws N} {C : Cfg N} env0 s env (ws xs : list F) (f : fn) ys t :
  practical -> reachable env0 s -> (s_lvl s < 10)%Z -> Forall (alive s) env -> mapM (var_val s) env = Ok ws ->
  let t0 := map given (ws ++ xs) in let rs := seq 0 (length ws + length xs) in let w := (6 * zlen xs + cost f rs t0)%Z in
  well_formed f rs t0 -> roomy s w -> ~ exactly_full s w -> trace f rs t0 = Some (ys, t) -> ys <> [] ->
  exists s', jacobian (fun xv => call_fn f (env ++ xv)) xs s =
    Ok (map (fun y => value t y :: map (reverse t (seed y)) (seq (length ws) (length xs))) ys, s').
Proof. exact (fun HP HR => jacobian_reverse s env ws xs f ys t HP (reach_snd env0 s HP HR)). Qed.
Print Assumptions C53_jacobian.
(* a call and grad, without a block: the adjoints of all new variables returned *)
Theorem C53_grad {N : Num} {RL : RepLaws N} {C : Cfg N} env0 s env (ws : list F) (f : fn) y ys t :
  practical -> reachable env0 s -> Forall (alive s) env -> mapM (var_val s) env = Ok ws ->
  let t0 := map given ws in let rs := seq 0 (length ws) in
  well_formed f rs t0 -> roomy s (cost f rs t0) -> trace f rs t0 = Some (y :: ys, t) ->
  exists h hs s1 s2, call_fn f env s = Ok (h :: hs, s1) /\ mapM (var_val s1) (h :: hs) = Ok (map (value t) (y :: ys)) /\
    grad h s1 = Ok (tt, s2) /\ length hs = length ys /\
    forall i r, nth_error (y :: ys) i = Some r -> length ws <= r ->
      exists h', nth_error (h :: hs) i = Some h' /\ var_adj s2 h' = Ok (reverse t (seed y) r).
Proof. exact (fun HP HR => grad_line s env ws f y ys t HP (reach_snd env0 s HP HR)). Qed.
Print Assumptions C53_grad.
(* the other ways a call of gradient or jacobian may end *)
Theorem C53_stop {N : Num} {RL : RepLaws N} {C : Cfg N} env0 s env (ws xs : list F) (f : fn) :
  practical -> reachable env0 s -> (s_lvl s < 10)%Z -> Forall (alive s) env -> mapM (var_val s) env = Ok ws ->
  let t0 := map given (ws ++ xs) in let rs := seq 0 (length ws + length xs) in let w := (6 * zlen xs + cost f rs t0)%Z in
  well_formed f rs t0 -> roomy s w -> trace f rs t0 = None ->
  gradient (fun xv => call_fn1 f (env ++ xv)) xs s = ErrStop /\ jacobian (fun xv => call_fn f (env ++ xv)) xs s = ErrStop.
Proof. exact (fun HP HR => reverse_stop s env ws xs f HP (reach_snd env0 s HP HR)). Qed.
Print Assumptions C53_stop.
Theorem C53_full {N : Num} {RL : RepLaws N} {C : Cfg N} env0 s env (ws xs : list F) (f : fn) y ys t :
  practical -> reachable env0 s -> (s_lvl s < 10)%Z -> Forall (alive s) env -> mapM (var_val s) env = Ok ws ->
  let t0 := map given (ws ++ xs) in let rs := seq 0 (length ws + length xs) in let w := (6 * zlen xs + cost f rs t0)%Z in
  well_formed f rs t0 -> roomy s w -> exactly_full s w -> trace f rs t0 = Some (y :: ys, t) ->
  gradient (fun xv => call_fn1 f (env ++ xv)) xs s = Undef OutOfBounds /\ jacobian (fun xv => call_fn f (env ++ xv)) xs s = Undef OutOfBounds.
Proof. exact (fun HP HR => reverse_full s env ws xs f y ys t HP (reach_snd env0 s HP HR)). Qed.
Print Assumptions C53_full.

Section Ex53.
Context (L : Libm).
Local Notation BN := (B64 L).
Local Notation BM := (demo (B64 L)).
Local Notation bs := (@state_of BN BM (bwork52 L)).
Definition c4 : binary64 := b64_of_bits 4616189618054758400.
Definition c12 : binary64 := b64_of_bits 4622945017495814144.
(* outer variables u = 3 and v = -3; f(x) = if x > v then x*u + x else acosh(v) *)
Definition f53 : @fn BN := FTest RGt 2 1 (fun b => if b then FCall (OVV BMul 2 0) (FCall (OVV BAdd 3 2) (FRet (4 :: nil)))
  else FCall (OUn UAcosh 1) (FRet (3 :: nil))).
Lemma ex53_reach : @reachable BN BM [1; 2]%Z bs.
Proof. exact (@runs_reach BN BM (bwork52 L) ltac:(repeat constructor) ltac:(vm_compute; reflexivity)). Qed.
Lemma ex53_alive : Forall (@alive BN bs) [1; 2]%Z.
Proof. repeat constructor; vm_compute; try reflexivity; discriminate. Qed.
Lemma ex53_vals : mapM (@var_val BN bs) [1; 2]%Z = Ok [c3; cm3].
Proof. vm_compute; reflexivity. Qed.
Definition t53 : list (@line BN) :=
  match @trace BN f53 (seq 0 3) (map (@given BN) ([c3; cm3] ++ [c3])) with Some (_, t) => t | None => [] end.
Lemma ex53_trace : @trace BN f53 (seq 0 3) (map (@given BN) ([c3; cm3] ++ [c3])) = Some ([4], t53).
Proof.
  assert (E : option_map fst (@trace BN f53 (seq 0 3) (map (@given BN) ([c3; cm3] ++ [c3]))) = Some [4]) by (vm_compute; reflexivity).
  unfold t53. destruct (@trace BN f53 (seq 0 3) (map (@given BN) ([c3; cm3] ++ [c3]))) as [[ys t]|]; [|discriminate E].
  cbn [option_map fst] in E. congruence.
Qed.
Lemma ex53_words : (6 * @zlen (@F BN) [c3] + @cost BN f53 (seq 0 3) (map (@given BN) ([c3; cm3] ++ [c3])) = 22)%Z.
Proof. vm_compute; reflexivity. Qed.
Lemma ex53_test : @written BN RGt c3 cm3 = true.
Proof. vm_compute; reflexivity. Qed.
Lemma ex53_wf : @well_formed BN f53 (seq 0 3) (map (@given BN) ([c3; cm3] ++ [c3])).
Proof.
  unfold f53. cbn [well_formed seq length map app given value l_value nth]. rewrite ex53_test.
  cbn. repeat split; repeat constructor.
Qed.
Lemma ex53_room : @roomy BN bs 22 /\ ~ @exactly_full BN BM bs 22.
Proof.
  assert (H1 : (t_head (s_tape bs) = 13)%Z) by (vm_compute; reflexivity).
  assert (H2 : (t_size (s_tape bs) = 12)%Z) by (vm_compute; reflexivity).
  unfold roomy, exactly_full, storage. rewrite H1, H2. split; [lia|]. intros [_ A].
  destruct (A ltac:(lia)) as (k & Hk & _). change (@init_tape_size BN BM) with 12%Z in Hk. lia.
Qed.
Example C53_ex : exists r s', @gradient BN BM (fun xv => @call_fn1 BN BM f53 ([1; 2]%Z ++ xv)) [c3] bs = Ok (r, s') /\ map bits_of_b64 r = map bits_of_b64 [c12; c4].
Proof.
  pose proof ex53_room as [H1 H2]. rewrite <- ex53_words in H1, H2.
  destruct (@C53_gradient BN _ BM [1; 2]%Z bs [1; 2]%Z [c3; cm3] [c3] f53 4 [] t53 (demo_practical BN) ex53_reach
    ltac:(vm_compute; reflexivity) ex53_alive ex53_vals ex53_wf H1 H2 ex53_trace) as (s' & E).
  eexists. exists s'. split; [exact E|]. vm_compute. reflexivity.
Qed.
(* at x = -4 the function takes its other branch, and acosh(-3) stops the program *)
Example C53_stop_ex : @trace BN f53 (seq 0 3) (map (@given BN) ([c3; cm3] ++ [@fneg BN c4])) = None /\
  ends (@gradient BN BM (fun xv => @call_fn1 BN BM f53 ([1; 2]%Z ++ xv)) [@fneg BN c4] bs) = Findings.Stops.
Proof.
  split; [|vm_compute; reflexivity].
  assert (E : match @trace BN f53 (seq 0 3) (map (@given BN) ([c3; cm3] ++ [@fneg BN c4])) with None => true | _ => false end = true) by (vm_compute; reflexivity).
  destruct (@trace BN f53 _ _); [discriminate E|reflexivity].
Qed.
End Ex53.
