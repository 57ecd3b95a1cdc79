(* C58: the programs of the documentation. *)
From Coq Require Import ZifyBool ZifyNat.
From Verif Require Import TapeFacts.
From Verif Require Export Claims_link Docs DocsSpec.
Import ListNotations.
Local Open Scope nat_scope.
Local Notation hd := Refine.hd.

Section Any.
Context {N : Num} {RL : RepLaws N} {C : Cfg N}.

(* straight-line calls as a function *)
Fixpoint calls (q : list op) (ys : list nat) : fn := match q with [] => FRet ys | o :: q' => FCall o (calls q' ys) end.

Lemma call_calls q ys : forall env (s : st) hs s1, call_fn (calls q ys) env s = Ok (hs, s1) ->
  exists env', exec q env s = Ok (env', s1) /\ regs env' ys s1 = Ok (hs, s1).
Proof.
  induction q as [|o q IH]; intros env s hs s1; cbn [calls call_fn exec].
  - intros E. assert (s1 = s). { pose proof E as E1. apply (regs_ok _ _ _ _ _) in E1. intuition. } subst. exists env. auto.
  - unfold mbind. destruct (exec_op env o s) as [[r s2]| | |]; cbn [bind]; try discriminate. intros E. apply IH in E. exact E.
Qed.

(* after grad and the reset of all adjoints, again and again *)
Lemma rows_any (HJ : exists j, junk = Some j) ke b (g : graph) t is : sound g -> lined ke b g t -> Forall (fun i => length ke <= i < length t) is ->
  forall ys s f, Rel s (set_gadj g f) -> (forall k, b <= k < gsize g -> f k = f0) -> Forall (fun y => y < length t) ys ->
  exists s', mmap (grad_row (map hd (map (place ke b) is))) (map hd (map (place ke b) ys)) s =
      Ok (map (fun y => map (reverse t (seed y)) is) ys, s').
Proof.
  intros HG L LI.
  assert (BX : Forall (fun k => k < gsize g) (map (place ke b) is)).
  { apply (lines_bound ke b g t _ L). eapply Forall_impl; [|exact LI]. cbv beta. lia. }
  assert (LG : forall h, lined ke b (set_gadj g h) t) by (intros h; constructor; apply L).
  induction ys as [|y ys IH]; intros s f R0 HZ HB; cbn [map mmap].
  - exists s. reflexivity.
  - pose proof (Forall_inv HB) as Hy. pose proof (Forall_inv_tail HB) as HB'. cbv beta in Hy.
    destruct (grad_lines HJ ke b s _ t y R0 (zero_adj_sound _ _ HG) (LG _) HZ Hy) as (s2 & a & E2 & R2 & AV).
    assert (EA : vadjs (map hd (map (place ke b) is)) s2 = Ok (map (reverse t (seed y)) is, s2)).
    { unfold vadjs, mget. rewrite (live_adjs s2 _ _ R2 BX). cbn [bind]. do 2 f_equal. cbn [set_gadj g_adj]. rewrite map_map.
      apply map_ext_in. intros i Hi. rewrite Forall_forall in LI. apply AV, LI, Hi. }
    destruct (zero_all_ok s2 _ R2) as (s3 & E3 & R3).
    assert (ER : grad_row (map hd (map (place ke b) is)) (hd (place ke b y)) s = Ok (map (reverse t (seed y)) is, s3)).
    { unfold grad_row. rewrite (mbind_ok _ _ _ _ _ E2), (mbind_ok _ _ _ _ _ EA), (mbind_ok _ _ _ _ _ E3). reflexivity. }
    destruct (IH s3 _ R3) as (s' & E4); auto.
    { intros k Hk. unfold azero_from. cbn [set_gadj g_adj]. change (gsize (set_gadj (set_gadj g f) a)) with (gsize g).
      replace (0 <=? k) with true by lia. replace (k <? gsize g) with true by lia. reflexivity. }
    exists s'. rewrite (mbind_ok _ _ _ _ _ ER), (mbind_ok _ _ _ _ _ E4). reflexivity.
Qed.

Lemma regs_at env l (s s2 : st) hs : regs env l s = Ok (hs, s2) -> s2 = s /\ Forall2 (fun r h => nth_error env r = Some h) l hs.
Proof.
  revert hs s2. unfold regs. induction l as [|a l IH]; intros hs s2 H; cbn [mmap] in H.
  - injection H as <- <-. split; constructor.
  - apply reg_inv in H. destruct H as (h & E & H). unfold mbind at 1 in H.
    destruct (mmap (reg env) l s) as [[x s3]| | |] eqn:E1; try discriminate. cbn in H. injection H as <- <-.
    destruct (IH _ _ eq_refl) as [-> HF]. split; auto.
Qed.

Lemma one_reg env y (s s2 : st) hs : regs env [y] s = Ok (hs, s2) -> exists h, hs = [h] /\ reg env y s = Ok (h, s).
Proof.
  intros H. destruct (regs_at _ _ _ _ _ H) as [_ F2]. inversion F2 as [|x h l l' EH F3]; subst. inversion F3; subst.
  exists h. split; [reflexivity|]. unfold reg. rewrite EH. reflexivity.
Qed.

(* a program: declare and compute, then one grad; or grad and reset for each of several
   dependents *)
Theorem straight_rows (s : st) (q : list op) n (t : list line) : practical -> (exists g, Rel s g /\ sound g) ->
  well_formed (calls q (seq 0 n)) [] [] -> roomy s (cost (calls q (seq 0 n)) [] []) ->
  trace (calls q (seq 0 n)) [] [] = Some (seq 0 n, t) ->
  exists env s1, exec q [] s = Ok (env, s1) /\
    forall is ys, Forall (fun i => i < n) is -> Forall (fun i => i < n) ys -> exists hx hy,
      regs env is s1 = Ok (hx, s1) /\ regs env ys s1 = Ok (hy, s1) /\
      (exists s', mmap (grad_row hx) hy s1 = Ok (map (fun y => map (reverse t (seed y)) is) ys, s')) /\
      forall y h, nth_error ys 0 = Some y -> nth_error hy 0 = Some h -> exists s2, grad h s1 = Ok (tt, s2) /\ vadjs hx s2 = Ok (map (reverse t (seed y)) is, s2).
Proof.
  intros HP (g & R0 & HG) HF HM ER. pose proof HP as [HC HJ]. set (f := calls q (seq 0 n)) in *. set (b := gsize g).
  pose proof (given_lines [] b g [] eq_refl (Forall_nil _) eq_refl) as L1. pose proof (cost_pos f [] []) as W0.
  destruct (roomy_peak s g (cost f [] []) R0 W0 HM) as [P1 P2].
  pose proof (call_lines HC HJ [] b f s g [] [] R0 HG L1 (Forall_nil _) HF P1 P2) as K.
  rewrite ER in K. destruct K as (s1 & g1 & E1 & R1 & G1 & GR & L & BY & LL & T1 & PK).
  cbn [map] in E1. apply call_calls in E1. destruct E1 as (env & E1 & E2). exists env, s1. split; [exact E1|].
  pose proof (regs_at _ _ _ _ _ E2) as [_ F2].
  assert (AT : forall i, i < n -> nth_error env i = Some (hd (place [] b i))).
  { intros i Hi. assert (Q : forall m k h, nth_error (seq 0 n) m = Some k -> nth_error (map hd (map (place [] b) (seq 0 n))) m = Some h -> nth_error env k = Some h).
    { clear - F2. induction F2 as [|x y l l' H F IH]; intros [|m] k h; cbn; try discriminate; [congruence|]. apply IH. }
    assert (E : nth_error (seq 0 n) i = Some i) by (rewrite (nth_error_nth' _ 0) by (rewrite seq_length; exact Hi); rewrite seq_nth by exact Hi; reflexivity).
    apply (Q i); [exact E|]. rewrite !nth_error_map, E. reflexivity. }
  assert (RG : forall l, Forall (fun i => i < n) l -> regs env l s1 = Ok (map hd (map (place [] b) l), s1)).
  { intros l Hl. apply regs_go. induction Hl as [|i l Hi Hl IH]; constructor; auto. }
  intros is ys Hi Hy. exists (map hd (map (place [] b) is)), (map hd (map (place [] b) ys)).
  split; [apply RG, Hi|]. split; [apply RG, Hy|].
  assert (UP : forall l, Forall (fun i => i < n) l -> Forall (fun i => @length nat [] <= i < length t) l).
  { intros l Hl. eapply Forall_impl; [|exact Hl]. cbv beta. intros i Hn. split; [cbn; lia|]. rewrite Forall_forall in BY. apply BY, in_seq. lia. }
  assert (R1' : Rel s1 (set_gadj g1 (g_adj g1))) by (destruct g1; exact R1).
  split.
  - apply (rows_any HJ [] b g1 t is G1 L (UP _ Hi) ys s1 (g_adj g1) R1').
    + intros k Hk. apply (gr_new _ _ GR k Hk).
    + eapply Forall_impl; [|exact (UP _ Hy)]. cbv beta. intros; lia.
  - intros y h E3 E4. assert (Hyn : y < n) by (rewrite Forall_forall in Hy; apply Hy; eapply nth_error_In; eauto).
    rewrite !nth_error_map, E3 in E4. cbn [option_map] in E4. injection E4 as <-.
    assert (HL : y < length t) by (rewrite Forall_forall in BY; apply BY, in_seq; lia).
    destruct (grad_lines HJ [] b s1 g1 t y R1 G1 L (fun k Hk => gr_new _ _ GR k Hk) HL) as (s2 & a & EG & R2 & AV).
    exists s2. split; [exact EG|]. unfold vadjs, mget. rewrite (live_adjs s2 _ _ R2).
    + cbn [bind]. do 2 f_equal. cbn [set_gadj g_adj]. rewrite map_map. apply map_ext_in. intros i Hi1. specialize (UP _ Hi). rewrite Forall_forall in UP. apply AV, UP, Hi1.
    + apply (lines_bound [] b g1 t _ L). eapply Forall_impl; [|exact (UP _ Hi)]. cbv beta. intros; lia.
Qed.

(* following a function call by call *)
Definition walk (f : fn) (rs : list nat) (t : list line) (w : Z) (r : list nat * list line) : Prop :=
  well_formed f rs t /\ cost f rs t = w /\ trace f rs t = Some r.
Lemma walk_new o k rs t ls w1 w r : step o (lines_at rs (op_regs o)) (map (value t) (lines_at rs (op_regs o))) = New ls ->
  Forall (fun r => r < length rs) (op_regs o) -> op_shape o -> neutral o = false -> words o (map (value t) (lines_at rs (op_regs o))) = w1 ->
  walk k (rs ++ seq (length t) (length ls)) (t ++ ls) w r -> walk (FCall o k) rs t (w1 + w)%Z r.
Proof. unfold walk. intros H HB HS HN HW (A & B & E). cbn [trace well_formed cost]. rewrite H. split; [auto|]. split; [congruence|exact E]. Qed.

Definition nlines (c y mu sigma : F) : list line :=
  let l := flog sigma in let d := fsub y mu in let q := fdiv d sigma in let sq := fmul q q in let h := fmul sq fhalf in
  [given mu; given sigma; given c; mkLine l (fun a => [(1, fdiv a sigma)]); mkLine (fsub c l) (fun a => [(2, a); (3, fneg a)]);
   mkLine d (fun a => [(0, fneg a)]); mkLine q (fun a => [(5, fdiv a sigma); (1, fneg (fdiv (fmul q a) sigma))]);
   mkLine sq (fun a => [(6, fmul (fmul a f2) q)]); mkLine h (fun a => [(7, fmul a fhalf)]); mkLine (fsub (fsub c l) h) (fun a => [(4, a); (8, fneg a)])].

Lemma pow_two : feq f2 fhalf = false -> feq f2 f1 = false -> feq f2 f2 = true -> pow_as f2 = Some USquare.
Proof. intros A B E. unfold pow_as. rewrite A, B, E. reflexivity. Qed.

Lemma normal_walk c y mu sigma : feq fhalf f1 = false -> feq f2 fhalf = false -> feq f2 f1 = false -> feq f2 f2 = true ->
  walk (calls (normal_ops c y mu sigma) (seq 0 10)) [] [] 72 (seq 0 10, nlines c y mu sigma).
Proof.
  intros H1 A B E. pose proof (pow_two A B E) as H2. unfold normal_ops, nlines. cbn [calls].
  change 72%Z with (6 + (6 + (6 + (7 + (8 + (7 + (8 + (7 + (9 + (8 + 0))))))))))%Z.
  match goal with |- walk _ _ _ _ (_, [?a0; ?a1; ?a2; ?a3; ?a4; ?a5; ?a6; ?a7; ?a8; ?a9]) =>
    apply (walk_new _ _ _ _ [a0]); [reflexivity|repeat constructor|exact Logic.I|reflexivity|reflexivity|cbn [app seq length]];
    apply (walk_new _ _ _ _ [a1]); [reflexivity|repeat constructor|exact Logic.I|reflexivity|reflexivity|cbn [app seq length]];
    apply (walk_new _ _ _ _ [a2]); [reflexivity|repeat constructor|exact Logic.I|reflexivity|reflexivity|cbn [app seq length]];
    apply (walk_new _ _ _ _ [a3]); [reflexivity|repeat constructor|exact Logic.I|reflexivity|reflexivity|cbn [app seq length]];
    apply (walk_new _ _ _ _ [a4]); [reflexivity|repeat constructor|exact Logic.I|reflexivity|reflexivity|cbn [app seq length]];
    apply (walk_new _ _ _ _ [a5]); [reflexivity|repeat constructor|exact Logic.I|reflexivity|reflexivity|cbn [app seq length]];
    apply (walk_new _ _ _ _ [a6]); [reflexivity|repeat constructor|exact Logic.I|reflexivity|reflexivity|cbn [app seq length]];
    apply (walk_new _ _ _ _ [a7]); [cbn [step]; unfold vd_records; rewrite H2; unfold vd_value, vd_step; rewrite H2; reflexivity
      |repeat constructor|exact Logic.I|reflexivity|cbn [words]; rewrite A, B, E; reflexivity|cbn [app seq length]];
    apply (walk_new _ _ _ _ [a8]); [cbn [step]; unfold dv_records; rewrite H1; reflexivity
      |repeat constructor|exact Logic.I|exact H1|cbn [words]; unfold fne; rewrite H1; reflexivity|cbn [app seq length]];
    apply (walk_new _ _ _ _ [a9]); [reflexivity|repeat constructor|exact Logic.I|reflexivity|reflexivity|cbn [app seq length]]
  end.
  split; [repeat constructor|]. split; reflexivity.
Qed.

Theorem normal_any env0 (s : st) c y mu sigma : practical -> reachable env0 s ->
  feq fhalf f1 = false -> feq f2 fhalf = false -> feq f2 f1 = false -> feq f2 f2 = true -> roomy s 72 ->
  exists s', var_grad_test c y mu sigma s = Ok (normal_back y mu sigma, s').
Proof.
  intros HP HR H1 A B E HM. destruct (normal_walk c y mu sigma H1 A B E) as (WF & EC & ET).
  destruct (straight_rows s (normal_ops c y mu sigma) 10 (nlines c y mu sigma) HP (reach_snd env0 s HP HR) WF) as (env & s1 & E1 & Q); [rewrite EC; exact HM|exact ET|].
  destruct (Q (seq 0 2) [9]) as (hx & hy & Ex & Ey & _ & G); [repeat constructor; lia|repeat constructor|].
  destruct (one_reg _ _ _ _ _ Ey) as (h & -> & R9).
  destruct (G 9 h eq_refl eq_refl) as (s2 & EG & EA).
  assert (ER : regs env (seq 0 2) s2 = Ok (hx, s2)). { apply regs_go. exact (proj2 (regs_at _ _ _ _ _ Ex)). }
  exists s2. unfold var_grad_test. rewrite (mbind_ok _ _ _ _ _ E1), (mbind_ok _ _ _ _ _ R9), (mbind_ok _ _ _ _ _ EG), (mbind_ok _ _ _ _ _ ER), EA.
  f_equal.
Qed.

(* ---- gradient of the function of grad_test ---- *)
Definition glines (c y mu sigma : F) : list line :=
  let l := flog sigma in let d := fsub y mu in let q := fdiv d sigma in let sq := fmul q q in let h := fmul sq fhalf in
  [given mu; given sigma; mkLine l (fun a => [(1, fdiv a sigma)]); mkLine (fsub c l) (fun a => [(2, fneg a)]);
   mkLine d (fun a => [(0, fneg a)]); mkLine q (fun a => [(4, fdiv a sigma); (1, fneg (fdiv (fmul q a) sigma))]);
   mkLine sq (fun a => [(5, fmul (fmul a f2) q)]); mkLine h (fun a => [(6, fmul a fhalf)]); mkLine (fsub (fsub c l) h) (fun a => [(3, a); (7, fneg a)])].
Lemma readme_walk c y mu sigma : feq fhalf f1 = false -> feq f2 fhalf = false -> feq f2 f1 = false -> feq f2 f2 = true ->
  walk (readme_f c y) [0; 1] [given mu; given sigma] 53 ([8], glines c y mu sigma).
Proof.
  intros H1 A B E. pose proof (pow_two A B E) as H2.
  unfold readme_f, glines. change 53%Z with (7 + (7 + (7 + (8 + (7 + (9 + (8 + 0)))))))%Z.
  match goal with |- walk _ _ _ _ (_, [_; _; ?a3; ?a4; ?a5; ?a6; ?a7; ?a8; ?a9]) =>
    apply (walk_new _ _ _ _ [a3]); [reflexivity|repeat constructor|exact Logic.I|reflexivity|reflexivity|cbn [app seq length]];
    apply (walk_new _ _ _ _ [a4]); [reflexivity|repeat constructor|exact Logic.I|reflexivity|reflexivity|cbn [app seq length]];
    apply (walk_new _ _ _ _ [a5]); [reflexivity|repeat constructor|exact Logic.I|reflexivity|reflexivity|cbn [app seq length]];
    apply (walk_new _ _ _ _ [a6]); [reflexivity|repeat constructor|exact Logic.I|reflexivity|reflexivity|cbn [app seq length]];
    apply (walk_new _ _ _ _ [a7]); [cbn [step]; unfold vd_records; rewrite H2; unfold vd_value, vd_step; rewrite H2; reflexivity
      |repeat constructor|exact Logic.I|reflexivity|cbn [words]; rewrite A, B, E; reflexivity|cbn [app seq length]];
    apply (walk_new _ _ _ _ [a8]); [cbn [step]; unfold dv_records; rewrite H1; reflexivity
      |repeat constructor|exact Logic.I|exact H1|cbn [words]; unfold fne; rewrite H1; reflexivity|cbn [app seq length]];
    apply (walk_new _ _ _ _ [a9]); [reflexivity|repeat constructor|exact Logic.I|reflexivity|reflexivity|cbn [app seq length]]
  end.
  split; [repeat constructor|]. split; reflexivity.
Qed.

Theorem gradient_any env0 (s : st) c y mu sigma : practical -> reachable env0 s -> (s_lvl s < 10)%Z ->
  feq fhalf f1 = false -> feq f2 fhalf = false -> feq f2 f1 = false -> feq f2 f2 = true -> roomy s 65 -> ~ exactly_full s 65 ->
  exists s', gradient (call_fn1 (readme_f c y)) [mu; sigma] s =
    Ok (fsub (fsub c (flog sigma)) (fmul (fmul (fdiv (fsub y mu) sigma) (fdiv (fsub y mu) sigma)) fhalf) :: normal_back y mu sigma, s').
Proof.
  intros HP HR HL H1 A B E HM HE. destruct (readme_walk c y mu sigma H1 A B E) as (WF & EC & ET).
  destruct (gradient_reverse s [] [] [mu; sigma] (readme_f c y) 8 [] (glines c y mu sigma) HP (reach_snd env0 s HP HR) HL (Forall_nil _) eq_refl) as (s' & E1).
  - exact WF.
  - change (roomy s (6 * 2 + cost (readme_f c y) [0; 1] [given mu; given sigma])). rewrite EC. exact HM.
  - change (~ exactly_full s (6 * 2 + cost (readme_f c y) [0; 1] [given mu; given sigma])). rewrite EC. exact HE.
  - exact ET.
  - exists s'. etransitivity; [exact E1|]. f_equal.
Qed.
End Any.
