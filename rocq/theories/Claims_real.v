(* The derivative theorems for every reachable state. *)
From Verif Require Import TapeFacts.
From Coq Require Import ZifyBool ZifyNat.
From Verif Require Export Reach Claims_arr.
Local Open Scope R_scope.

Section Words.
Context {N : Num} {C : Cfg N}.
Lemma prog_words_app (p q : list op) : prog_words (p ++ q) = (prog_words p + prog_words q)%Z.
Proof. unfold prog_words. induction p as [|o p IH]; cbn [app fold_right]; [lia|]. rewrite IH. lia. Qed.

Lemma run_un v u s env' s' : exec [OVar v; OUn u 0] [] s = Ok (env', s') ->
  exists x s1 h, new_var_val v s = Ok (x, s1) /\ un_v u x s1 = Ok (h, s') /\ env' = [x; h].
Proof.
  cbn [exec exec_op app]. unfold one, mbind. destruct (new_var_val v s) as [[x s1]| | |]; try discriminate.
  cbn [bind mret app]. unfold reg. cbn [nth_error mret bind]. destruct (un_v u x s1) as [[h s2]| | |] eqn:E; try discriminate.
  cbn [bind mret app]. unfold mret. intros H. exists x, s1, h. split; auto. split; congruence.
Qed.
Lemma run_vd v b d s env' s' : exec [OVar v; OVD b 0 d] [] s = Ok (env', s') ->
  exists x s1 h, new_var_val v s = Ok (x, s1) /\ bin_vd b x d s1 = Ok (h, s') /\ env' = [x; h].
Proof.
  cbn [exec exec_op app]. unfold one, mbind. destruct (new_var_val v s) as [[x s1]| | |]; try discriminate.
  cbn [bind mret app]. unfold reg. cbn [nth_error mret bind]. destruct (bin_vd b x d s1) as [[h s2]| | |] eqn:E; try discriminate.
  cbn [bind mret app]. unfold mret. intros H. exists x, s1, h. split; auto. split; congruence.
Qed.
Lemma run_dv v b d s env' s' : exec [OVar v; ODV b d 0] [] s = Ok (env', s') ->
  exists x s1 h, new_var_val v s = Ok (x, s1) /\ bin_dv b d x s1 = Ok (h, s') /\ env' = [x; h].
Proof.
  cbn [exec exec_op app]. unfold one, mbind. destruct (new_var_val v s) as [[x s1]| | |]; try discriminate.
  cbn [bind mret app]. unfold reg. cbn [nth_error mret bind]. destruct (bin_dv b d x s1) as [[h s2]| | |] eqn:E; try discriminate.
  cbn [bind mret app]. unfold mret. intros H. exists x, s1, h. split; auto. split; congruence.
Qed.
Lemma run_vv v w b s env' s' : exec [OVar v; OVar w; OVV b 0 1] [] s = Ok (env', s') ->
  exists x s1 y s2 h, new_var_val v s = Ok (x, s1) /\ new_var_val w s1 = Ok (y, s2) /\ bin_vv b x y s2 = Ok (h, s') /\ env' = [x; y; h].
Proof.
  cbn [exec exec_op app]. unfold one, mbind. destruct (new_var_val v s) as [[x s1]| | |]; try discriminate.
  cbn [bind mret app]. destruct (new_var_val w s1) as [[y s2]| | |] eqn:E2; try discriminate. cbn [bind mret app].
  unfold reg. cbn [nth_error mret bind]. destruct (bin_vv b x y s2) as [[h s3]| | |] eqn:E; try discriminate.
  cbn [bind mret app]. unfold mret. intros H. exists x, s1, y, s2, h. split; auto. split; auto. split; congruence.
Qed.
Lemma vals_2 (s : st) x y u v : mapM (var_val s) [x; y] = Ok [u; v] -> var_val s x = Ok u /\ var_val s y = Ok v.
Proof.
  cbn [mapM]. destruct (var_val s x); try discriminate. cbn [bind]. destruct (var_val s y); try discriminate. cbn [bind].
  intros H; inversion H; auto.
Qed.
Lemma vals_3 (s : st) x y z u v w : mapM (var_val s) [x; y; z] = Ok [u; v; w] -> var_val s x = Ok u /\ var_val s y = Ok v /\ var_val s z = Ok w.
Proof.
  cbn [mapM]. destruct (var_val s x); try discriminate. cbn [bind]. destruct (var_val s y); try discriminate. cbn [bind].
  destruct (var_val s z); try discriminate. cbn [bind]. intros H; inversion H; auto.
Qed.
Lemma run_var0 env s hs s' : exec_op env OVar0 s = Ok (hs, s') -> exists h, new_var s = Ok (h, s') /\ hs = h :: nil.
Proof.
  cbn [exec_op]. unfold one, mbind. destruct (new_var s) as [[h s1]| | |]; try discriminate. cbn [bind mret].
  unfold mret. intros H. exists h. split; congruence.
Qed.
Lemma abs_zero x v (s : st) : var_val s x = Ok v -> fgt v f0 = false -> flt v f0 = false -> feq v f0 = true ->
  un_v UAbs x s = new_var s.
Proof.
  intros HX H1 H2 H3. cbn [un_v]. unfold abs_v, mbind, vval, mget. rewrite HX. cbn [bind]. rewrite H1, H2, H3. reflexivity.
Qed.

End Words.

Section Real.
Context {lg : R -> R} {C : Cfg (RNum lg)}.
Notation N := (RNum lg).
Notation graph := (@graph N).

Lemma reach_sound env0 (s : @st N) : @practical N C -> reachable env0 s -> exists g : graph, Rel s g /\ sound g.
Proof.
  intros HP HR. destruct (proj1 (reach_valid env0 s HP HR)) as (g & R0 & HG). exists g. split; auto. apply good_sound; auto.
Qed.

Lemma leaves_words (xs : list R) : prog_words (@leaves lg xs) = (6 * zlen xs)%Z.
Proof.
  unfold prog_words, leaves, zlen. induction xs as [|x xs IH]; cbn [map fold_right length op_words]; [lia|]. rewrite IH. lia.
Qed.

Lemma leaves_closed (xs : list R) (q : list (@op N)) : forall n, regs_in q (n + length xs) -> regs_in (@leaves lg xs ++ q) n.
Proof.
  induction xs as [|x xs IH]; intros n H; cbn [leaves map app regs_in length] in *.
  - rewrite Nat.add_0_r in H. exact H.
  - split; [constructor|]. change (map (@OVar N) xs) with (@leaves lg xs). cbn [op_results]. apply IH.
    replace (n + 1 + length xs)%nat with (n + S (length xs))%nat by lia. exact H.
Qed.

Lemma run_end s env ws (p : list (@op N)) env' s' : @practical N C -> (exists g : graph, Rel s g /\ sound g) ->
  Forall (alive s) env -> mapM (var_val s) env = Ok ws -> prog_dom p ws -> exec p env s = Ok (env', s') ->
  exists s1, set_zero_all_adj s' = Ok (tt, s1) /\ forall h, In h env' -> exists s2, grad h s1 = Ok (tt, s2).
Proof.
  intros [HC HJ] (g & R0 & HG) HA HW HD E. destruct (alive_nodes s g env R0 HA) as (ke & -> & HB).
  rewrite (vals_nodes s g ke R0 HB) in HW. assert (EW : ws = map (gval g) ke) by congruence. subst ws.
  destruct (prog_values HC p s g ke env' s' R0 HG HB HD E) as (g' & ke' & R' & G' & GR & -> & B' & _ & _).
  destruct (zero_all_ok s' g' R') as (s1 & E1 & R1). exists s1. split; auto. intros h Hh.
  apply in_map_iff in Hh. destruct Hh as (k & <- & Hk). rewrite Forall_forall in B'.
  destruct (reset_grad HJ s' g' k R' G' (B' k Hk)) as (s1' & s2 & E2 & E3 & _). exists s2. congruence.
Qed.

(* independent variables xs, then the calls of q: every variable has the value of
   plain evaluation, and grad leaves the partial derivatives in the independent
   variables *)
Theorem real_leaf env0 s env ws xs (q : list (@op N)) : @practical N C -> reachable env0 s ->
  Forall (alive s) env -> mapM (var_val s) env = Ok ws -> prog_dom q (ws ++ xs) -> regs_in q (length env + length xs) ->
  roomy s (6 * zlen xs + prog_words q) ->
  exists env' s' s1, exec (leaves xs ++ q) env s = Ok (env', s') /\ set_zero_all_adj s' = Ok (tt, s1) /\
    mapM (var_val s') env' = Ok (eval q (ws ++ xs)) /\
    forall y hy, nth_error env' y = Some hy ->
    exists s2, grad hy s1 = Ok (tt, s2) /\
    forall x, (x < length xs)%nat -> exists h d, nth_error env' (length env + x) = Some h /\ var_adj s2 h = Ok d /\
      is_derive (fun t => nth y (eval q (ws ++ hold x t 0 xs)) 0) (nth x xs 0) d.
Proof.
  intros HP HR HA HW HD HC HM. pose proof (reach_sound env0 s HP HR) as HV. pose proof (prog_dom_leaves q xs ws HD) as HD'.
  destruct (prog_total s env ws (leaves xs ++ q) HP HV HA HW HD') as (env' & s' & E).
  - apply leaves_closed. exact HC.
  - rewrite prog_words_app, leaves_words. exact HM.
  - pose proof (prog_eval s env ws _ env' s' HP HV HA HW HD' E) as EV.
    destruct (run_end s env ws _ env' s' HP HV HA HW HD' E) as (s1 & EZ & EG).
    exists env', s', s1. split; auto. split; auto. split.
    + rewrite EV. f_equal. apply eval_leaves.
    + intros y hy Hy. destruct (EG hy (nth_error_In _ _ Hy)) as (s2 & E2). exists s2. split; auto. intros x Hx.
      destruct (grad_leaf s env ws xs q env' s' x y hy HP HV HA HW HD E Hx Hy) as (h & s1' & s2' & d & E1 & E3 & E4 & E5 & E6 & E7).
      assert (s1' = s1) by congruence. subst s1'. assert (s2' = s2) by congruence. subst s2'. exists h, d. auto.
Qed.

(* ... and in every variable the calls create *)
Theorem real_any env0 s env ws (p : list (@op N)) : @practical N C -> reachable env0 s ->
  Forall (alive s) env -> mapM (var_val s) env = Ok ws -> prog_dom p ws -> regs_in p (length env) -> roomy s (prog_words p) ->
  exists env' s' s1, exec p env s = Ok (env', s') /\ set_zero_all_adj s' = Ok (tt, s1) /\
    mapM (var_val s') env' = Ok (eval p ws) /\
    forall y hy, nth_error env' y = Some hy -> exists s2, grad hy s1 = Ok (tt, s2) /\
    forall x h, nth_error env' x = Some h -> ~ alive s h -> (forall r, (r < x)%nat -> nth_error env' r <> Some h) ->
      exists t0 d, var_val s' h = Ok t0 /\ var_adj s2 h = Ok d /\ is_derive (fun t => nth y (eval_with x t p ws) 0) t0 d.
Proof.
  intros HP HR HA HW HD HC HM. pose proof (reach_sound env0 s HP HR) as HV.
  destruct (prog_total s env ws p HP HV HA HW HD HC HM) as (env' & s' & E).
  pose proof (prog_eval s env ws _ env' s' HP HV HA HW HD E) as EV.
  destruct (run_end s env ws _ env' s' HP HV HA HW HD E) as (s1 & EZ & EG).
  exists env', s', s1. split; auto. split; auto. split; auto.
  intros y hy Hy. destruct (EG hy (nth_error_In _ _ Hy)) as (s2 & E2). exists s2. split; auto. intros x h Hx Hn Hf.
  destruct (grad_derivative s env ws p env' s' x h y hy HP HV HA HW HD E Hx Hn Hf Hy) as (s1' & s2' & t0 & d & E1 & E3 & E4 & E5 & E6).
  assert (s1' = s1) by congruence. subst s1'. assert (s2' = s2) by congruence. subst s2'. exists t0, d. auto.
Qed.

(* x = var(v); y = f(x); y%grad() *)
Theorem real_un env0 (s : @st N) u (v : R) : @practical N C -> reachable env0 s -> un_dom u v -> roomy s 13 ->
  exists x s1 h s2 s3 s4 d, new_var_val (v : @F N) s = Ok (x, s1) /\ un_v u x s1 = Ok (h, s2) /\
    set_zero_all_adj s2 = Ok (tt, s3) /\ grad h s3 = Ok (tt, s4) /\
    var_val s2 h = Ok (@un_fun lg u v) /\ var_adj s4 x = Ok d /\ is_derive (@un_fun lg u) v d.
Proof.
  intros HP HR HD HM.
  destruct (real_leaf env0 s [] [] (cons v nil) (OUn u 0 :: nil) HP HR (Forall_nil _) eq_refl) as (env' & s' & s1 & E & EZ & EV & Q).
  { cbn [prog_dom app op_dom op_regs at_regs map nth]. repeat split; auto. }
  { cbn [regs_in op_regs length]. repeat constructor. }
  { exact HM. }
  change (@exec N C [@OVar N v; OUn u 0] [] s = Ok (env', s')) in E.
  destruct (run_un (v : @F N) u s env' s' E) as (x & sa & h & E1 & E2 & ->).
  destruct (Q 1%nat h eq_refl) as (s2 & EG & QX). destruct (QX 0%nat (Nat.lt_0_succ 0)) as (h0 & d & N1 & N2 & N3).
  injection N1 as <-. exists x, sa, h, s', s1, s2, d.
  split; [exact E1|]. split; [exact E2|]. split; [exact EZ|]. split; [exact EG|].
  split; [exact (proj2 (vals_2 (N := N) s' x h v (@un_fun lg u v) EV))|]. split; [exact N2|exact N3].
Qed.

Theorem real_vd env0 (s : @st N) b (v c : R) : @practical N C -> reachable env0 s -> vd_dom b v c ->
  @neutral N (@OVD N b 0 c) = false -> roomy s 15 ->
  exists x s1 h s2 s3 s4 d, new_var_val (v : @F N) s = Ok (x, s1) /\ bin_vd b x (c : @F N) s1 = Ok (h, s2) /\
    set_zero_all_adj s2 = Ok (tt, s3) /\ grad h s3 = Ok (tt, s4) /\
    var_val s2 h = Ok (bin_fun b v c) /\ var_adj s4 x = Ok d /\ is_derive (fun t => bin_fun b t c) v d.
Proof.
  intros HP HR HD HN HM.
  destruct (real_leaf env0 s [] [] (cons v nil) (@OVD N b 0 c :: nil) HP HR (Forall_nil _) eq_refl) as (env' & s' & s1 & E & EZ & EV & Q).
  { cbn [prog_dom app op_dom op_regs at_regs map nth]. repeat split; auto. }
  { cbn [regs_in op_regs length]. repeat constructor. }
  { exact HM. }
  change (@exec N C [@OVar N v; @OVD N b 0 c] [] s = Ok (env', s')) in E.
  destruct (run_vd (v : @F N) b (c : @F N) s env' s' E) as (x & sa & h & E1 & E2 & ->).
  destruct (Q 1%nat h eq_refl) as (s2 & EG & QX). destruct (QX 0%nat (Nat.lt_0_succ 0)) as (h0 & d & N1 & N2 & N3).
  injection N1 as <-. exists x, sa, h, s', s1, s2, d.
  split; [exact E1|]. split; [exact E2|]. split; [exact EZ|]. split; [exact EG|].
  split; [exact (proj2 (vals_2 (N := N) s' x h v (bin_fun b v c) EV))|]. split; [exact N2|exact N3].
Qed.

Theorem real_dv env0 (s : @st N) b (v c : R) : @practical N C -> reachable env0 s -> dv_dom b c v ->
  @neutral N (@ODV N b c 0) = false -> roomy s 15 ->
  exists x s1 h s2 s3 s4 d, new_var_val (v : @F N) s = Ok (x, s1) /\ bin_dv b (c : @F N) x s1 = Ok (h, s2) /\
    set_zero_all_adj s2 = Ok (tt, s3) /\ grad h s3 = Ok (tt, s4) /\
    var_val s2 h = Ok (bin_fun b c v) /\ var_adj s4 x = Ok d /\ is_derive (fun t => bin_fun b c t) v d.
Proof.
  intros HP HR HD HN HM.
  destruct (real_leaf env0 s [] [] (cons v nil) (@ODV N b c 0 :: nil) HP HR (Forall_nil _) eq_refl) as (env' & s' & s1 & E & EZ & EV & Q).
  { cbn [prog_dom app op_dom op_regs at_regs map nth]. repeat split; auto. }
  { cbn [regs_in op_regs length]. repeat constructor. }
  { exact HM. }
  change (@exec N C [@OVar N v; @ODV N b c 0] [] s = Ok (env', s')) in E.
  destruct (run_dv (v : @F N) b (c : @F N) s env' s' E) as (x & sa & h & E1 & E2 & ->).
  destruct (Q 1%nat h eq_refl) as (s2 & EG & QX). destruct (QX 0%nat (Nat.lt_0_succ 0)) as (h0 & d & N1 & N2 & N3).
  injection N1 as <-. exists x, sa, h, s', s1, s2, d.
  split; [exact E1|]. split; [exact E2|]. split; [exact EZ|]. split; [exact EG|].
  split; [exact (proj2 (vals_2 (N := N) s' x h v (bin_fun b c v) EV))|]. split; [exact N2|exact N3].
Qed.

Theorem real_vv env0 (s : @st N) b (v w : R) : @practical N C -> reachable env0 s -> vv_dom b v w -> roomy s 20 ->
  exists x s1 y s2 h s3 s4 s5 d e, new_var_val (v : @F N) s = Ok (x, s1) /\ new_var_val (w : @F N) s1 = Ok (y, s2) /\
    bin_vv b x y s2 = Ok (h, s3) /\ set_zero_all_adj s3 = Ok (tt, s4) /\ grad h s4 = Ok (tt, s5) /\
    var_val s3 h = Ok (bin_fun b v w) /\
    var_adj s5 x = Ok d /\ is_derive (fun t => bin_fun b t w) v d /\
    var_adj s5 y = Ok e /\ is_derive (fun t => bin_fun b v t) w e.
Proof.
  intros HP HR HD HM.
  destruct (real_leaf env0 s [] [] (cons v (cons w nil)) (@OVV N b 0 1 :: nil) HP HR (Forall_nil _) eq_refl) as (env' & s' & s1 & E & EZ & EV & Q).
  { cbn [prog_dom app op_dom op_regs at_regs map nth]. repeat split; auto. }
  { cbn [regs_in op_regs length]. repeat constructor. }
  { exact HM. }
  change (@exec N C [@OVar N v; @OVar N w; @OVV N b 0 1] [] s = Ok (env', s')) in E.
  destruct (run_vv (v : @F N) (w : @F N) b s env' s' E) as (x & sa & y & sb & h & E1 & E2 & E3 & ->).
  destruct (Q 2%nat h eq_refl) as (s2 & EG & QX). destruct (QX 0%nat (Nat.lt_0_succ 1)) as (h0 & d & N1 & N2 & N3).
  destruct (QX 1%nat (Nat.lt_succ_diag_r 1)) as (h1 & e & M1 & M2 & M3).
  injection N1 as <-. injection M1 as <-. exists x, sa, y, sb, h, s', s1, s2, d, e.
  split; [exact E1|]. split; [exact E2|]. split; [exact E3|]. split; [exact EZ|]. split; [exact EG|].
  split; [exact (proj2 (proj2 (vals_3 (N := N) s' x y h v w (bin_fun b v w) EV)))|].
  split; [exact N2|]. split; [exact N3|]. split; [exact M2|exact M3].
Qed.

(* abs at zero: value zero, nothing reaches any variable *)
Theorem real_abs0 env0 (s : @st N) x : @practical N C -> reachable env0 s -> alive s x -> var_val s x = Ok 0 -> roomy s 6 ->
  exists h s', un_v UAbs x s = Ok (h, s') /\ var_val s' h = Ok 0 /\ forall z, alive s z -> passes s s' h z 0.
Proof.
  intros HP HR HA HX HM. pose proof (reach_sound env0 s HP HR) as HV.
  destruct (call_all s [] [] (@OVar0 N) HP HV (Forall_nil _) eq_refl Logic.I Logic.I eq_refl (Forall_nil _) HM) as (hs & s' & E & L & Q).
  destruct (run_var0 (N := N) [] s hs s' E) as (h & E1 & ->). exists h, s'.
  destruct (Q 0%nat h eq_refl) as [V P]. split.
  - rewrite (abs_zero (N := N) x 0 s HX); [exact E1| | |].
    + unfold fgt. cbn [flt f0 RNum]. apply rlt_false. lra.
    + cbn [flt f0 RNum]. apply rlt_false. lra.
    + cbn [feq f0 RNum]. apply req_true. reflexivity.
  - split; [exact V|]. intros z Hz. destruct HV as (g & R0 & HG). destruct (alive_node s g z R0 Hz) as (k & -> & Hk).
    destruct (P (hd k) (gval g k) Hz (rel_var_val s g R0 k Hk)) as (d & D & PS).
    assert (d = 0). { apply is_derive_unique in D. rewrite <- D. apply (Derive_const 0). }
    subst d. exact PS.
Qed.

Lemma hypot_d1 (v w : R) : v <> 0 \/ w <> 0 -> is_derive (fun t => bin_fun BHypot t w) v (v / sqrt (v * v + w * w)).
Proof.
  intros H. assert (P : 0 < v * v + w * w) by nra. cbn [bin_fun]. auto_derive; [exact P|]. field. apply Rgt_not_eq, sqrt_lt_R0, P.
Qed.
Lemma hypot_d2 (v w : R) : v <> 0 \/ w <> 0 -> is_derive (fun t => bin_fun BHypot v t) w (w / sqrt (v * v + w * w)).
Proof.
  intros H. assert (P : 0 < v * v + w * w) by nra. cbn [bin_fun]. auto_derive; [exact P|]. field. apply Rgt_not_eq, sqrt_lt_R0, P.
Qed.
Lemma derive_same f (v d e : R) : is_derive f v d -> is_derive f v e -> d = e.
Proof. intros H1 H2. apply is_derive_unique in H1. apply is_derive_unique in H2. congruence. Qed.

Theorem real_hypot_vv env0 (s : @st N) x y (v w : R) : @practical N C -> reachable env0 s -> alive s x -> alive s y -> x <> y ->
  var_val s x = Ok v -> var_val s y = Ok w -> v <> 0 \/ w <> 0 -> roomy s 8 ->
  exists h s', bin_vv BHypot x y s = Ok (h, s') /\ var_val s' h = Ok (sqrt (v * v + w * w)) /\
    passes s s' h x (v / sqrt (v * v + w * w)) /\ passes s s' h y (w / sqrt (v * v + w * w)) /\
    forall z, alive s z -> z <> x -> z <> y -> passes s s' h z 0.
Proof.
  intros HP HR HA1 HA2 HNE HX HY HD HM.
  destruct (each_vv s BHypot x y v w HP (reach_sound env0 s HP HR) HA1 HA2 HX HY HD HM) as (h & s' & E & V & P & _ & Z).
  exists h, s'. split; auto. split; auto. destruct (P HNE) as (d & e & D1 & D2 & P1 & P2).
  rewrite (derive_same _ _ _ _ (hypot_d1 v w HD) D1), (derive_same _ _ _ _ (hypot_d2 v w HD) D2). auto.
Qed.

Theorem real_hypot_vd env0 (s : @st N) x (v c : R) : @practical N C -> reachable env0 s -> alive s x ->
  var_val s x = Ok v -> c <> 0 -> roomy s 9 ->
  (exists h s', bin_vd BHypot x (c : @F N) s = Ok (h, s') /\ var_val s' h = Ok (sqrt (v * v + c * c)) /\
    passes s s' h x (v / sqrt (v * v + c * c)) /\ forall z, alive s z -> z <> x -> passes s s' h z 0) /\
  (exists h s', bin_dv BHypot (c : @F N) x s = Ok (h, s') /\ var_val s' h = Ok (sqrt (c * c + v * v)) /\
    passes s s' h x (v / sqrt (c * c + v * v)) /\ forall z, alive s z -> z <> x -> passes s s' h z 0).
Proof.
  intros HP HR HA HX HD HM.
  assert (NE : @feq N c (@f0 N) = false) by (cbn [feq f0 RNum]; apply req_false; auto). split.
  - destruct (each_vd s BHypot x c v HP (reach_sound env0 s HP HR) HA HX Logic.I NE HM) as (h & s' & d & E & V & D & P & Z).
    exists h, s'. split; auto. split; auto. rewrite (derive_same _ _ _ _ (hypot_d1 v c (or_intror HD)) D). auto.
  - destruct (each_dv s BHypot c x v HP (reach_sound env0 s HP HR) HA HX Logic.I NE HM) as (h & s' & d & E & V & D & P & Z).
    exists h, s'. split; auto. split; auto. rewrite (derive_same _ _ _ _ (hypot_d2 c v (or_introl HD)) D). auto.
Qed.

Theorem real_abs env0 (s : @st N) x (v : R) : @practical N C -> reachable env0 s -> alive s x -> var_val s x = Ok v -> roomy s 7 ->
  exists h s', un_v UAbs x s = Ok (h, s') /\ var_val s' h = Ok (Rabs v) /\ passes s s' h x (sign v) /\
    forall z, alive s z -> z <> x -> passes s s' h z 0.
Proof.
  intros HP HR HA HX HM. destruct (Req_dec v 0) as [->|HN].
  - assert (HM6 : roomy s 6) by (destruct HM; split; auto; lia).
    destruct (real_abs0 env0 s x HP HR HA HX HM6) as (h & s' & E & V & P). exists h, s'. rewrite Rabs_R0, sign_0. auto.
  - destruct (each_un s UAbs x v HP (reach_sound env0 s HP HR) HA HX HN HM) as (h & s' & d & E & V & D & P & Z).
    exists h, s'. split; auto. split; auto. split; auto.
    assert (DA : is_derive (@un_fun lg UAbs) v (sign v)).
    { cbn [un_fun]. apply is_derive_Reals. destruct (Rlt_dec 0 v).
      - rewrite sign_eq_1 by lra. apply Rabs_derive_1. lra.
      - rewrite sign_eq_m1 by lra. apply Rabs_derive_2. lra. }
    rewrite (derive_same _ _ _ _ DA D). exact P.
Qed.

Lemma rpower_d1 (v w : R) : 0 < v -> is_derive (fun t => bin_fun BPow t w) v (w * Rpower v (w - 1)).
Proof.
  intros H. cbn [bin_fun]. apply (is_derive_ext_loc (fun t => Rpower t w)).
  - exists (mkposreal v H). intros t Ht. symmetry. apply rpow_pos. unfold ball in Ht. cbn in Ht. unfold AbsRing_ball, abs, minus, plus, opp in Ht. cbn in Ht.
    apply Rabs_def2 in Ht. lra.
  - apply is_derive_Reals. apply derivable_pt_lim_power. exact H.
Qed.

Lemma rpower_d2 (v w : R) : 0 < v -> is_derive (fun t => bin_fun BPow v t) w (Rpower v w * ln v).
Proof.
  intros H. cbn [bin_fun]. apply (is_derive_ext (fun t => Rpower v t)).
  - intros t. symmetry. apply rpow_pos, H.
  - unfold Rpower. auto_derive; auto. ring.
Qed.

Lemma powerRZ_d (v : R) (z : Z) : v <> 0 \/ (0 <= z)%Z -> is_derive (fun t => bin_fun BPow t (IZR z)) v (IZR z * powerRZ v (z - 1)).
Proof.
  intros H. cbn [bin_fun]. apply (is_derive_ext (fun t => powerRZ t z)).
  { intros t. symmetry. apply rpow_int. }
  destruct (Req_dec v 0) as [->|HV].
  - destruct H as [H|H]; [lra|]. destruct (Z_of_nat_complete z H) as [n ->].
    apply (is_derive_ext (fun t => t ^ n)); [intros t; rewrite pow_powerRZ; reflexivity|].
    destruct n as [|[|n]].
    + eapply deriv_eq; [apply (d_pow_0 0 0); auto|]. change (Z.of_nat 0) with 0%Z. ring.
    + eapply deriv_eq; [apply (is_derive_pow (fun u => u) 1 0 1); apply (is_derive_id 0)|]. change (INR 1 * 1 * 0 ^ 0 = 1 * 1). cbn [INR pow]. ring.
    + eapply deriv_eq; [apply (d_pow_0 (S (S n)) 0); auto; lia|].
      replace (Z.of_nat (S (S n)) - 1)%Z with (Z.of_nat (S n)) by lia. rewrite <- pow_powerRZ. cbn [pow]. ring.
  - eapply deriv_eq; [apply d_powerRZ; exact HV|]. unfold Z.sub. rewrite powerRZ_add by exact HV.
    assert (E1 : powerRZ v (- (1)) = / v) by (change (/ (v * 1) = / v); rewrite Rmult_1_r; reflexivity).
    rewrite E1. unfold Rdiv. ring.
Qed.

Theorem real_pow_vv env0 (s : @st N) x y (v w : R) : @practical N C -> reachable env0 s -> alive s x -> alive s y -> x <> y ->
  var_val s x = Ok v -> var_val s y = Ok w -> 0 < v -> roomy s 8 ->
  exists h s', bin_vv BPow x y s = Ok (h, s') /\ var_val s' h = Ok (Rpower v w) /\
    passes s s' h x (w * Rpower v (w - 1)) /\ passes s s' h y (Rpower v w * ln v).
Proof.
  intros HP HR HA1 HA2 HNE HX HY HD HM.
  destruct (each_vv s BPow x y v w HP (reach_sound env0 s HP HR) HA1 HA2 HX HY HD HM) as (h & s' & E & V & P & _ & _).
  exists h, s'. split; auto. cbn [bin_fun] in V. rewrite (rpow_pos v w HD) in V. split; auto. destruct (P HNE) as (d & e & D1 & D2 & P1 & P2).
  rewrite (derive_same _ _ _ _ (rpower_d1 v w HD) D1), (derive_same _ _ _ _ (rpower_d2 v w HD) D2). auto.
Qed.

Theorem real_pow_vd env0 (s : @st N) x (v c : R) : @practical N C -> reachable env0 s -> alive s x ->
  var_val s x = Ok v -> 0 < v -> c <> -2 -> roomy s 9 ->
  exists h s', bin_vd BPow x (c : @F N) s = Ok (h, s') /\ var_val s' h = Ok (Rpower v c) /\ passes s s' h x (c * Rpower v (c - 1)).
Proof.
  intros HP HR HA HX HD HN HM.
  destruct (each_vd s BPow x c v HP (reach_sound env0 s HP HR) HA HX (conj HN (or_introl HD)) eq_refl HM) as (h & s' & d & E & V & D & P & _).
  exists h, s'. split; auto. cbn [bin_fun] in V. rewrite (rpow_pos v c HD) in V. split; auto.
  rewrite (derive_same _ _ _ _ (rpower_d1 v c HD) D). exact P.
Qed.

Theorem real_pow_int env0 (s : @st N) x (v : R) (z : Z) : @practical N C -> reachable env0 s -> alive s x ->
  var_val s x = Ok v -> v <> 0 \/ (0 <= z)%Z -> z <> (-2)%Z -> roomy s 9 ->
  exists h s', bin_vd BPow x (IZR z : @F N) s = Ok (h, s') /\ var_val s' h = Ok (powerRZ v z) /\ passes s s' h x (IZR z * powerRZ v (z - 1)).
Proof.
  intros HP HR HA HX HD HN HM.
  assert (HV : vd_dom BPow v (IZR z)) by (split; [apply not_eq_sym; intros E; apply HN; apply eq_IZR; auto|right; exists z; auto]).
  destruct (each_vd s BPow x (IZR z) v HP (reach_sound env0 s HP HR) HA HX HV eq_refl HM) as (h & s' & d & E & V & D & P & _).
  exists h, s'. split; auto. cbn [bin_fun] in V. rewrite rpow_int in V. split; auto.
  rewrite (derive_same _ _ _ _ (powerRZ_d v z HD) D). exact P.
Qed.

Theorem real_pow_dv env0 (s : @st N) (c : R) x (v : R) : @practical N C -> reachable env0 s -> alive s x ->
  var_val s x = Ok v -> 0 < c -> roomy s 9 ->
  exists h s', bin_dv BPow (c : @F N) x s = Ok (h, s') /\ var_val s' h = Ok (Rpower c v) /\ passes s s' h x (Rpower c v * ln c).
Proof.
  intros HP HR HA HX HD HM.
  destruct (each_dv s BPow c x v HP (reach_sound env0 s HP HR) HA HX (or_introl HD) eq_refl HM) as (h & s' & d & E & V & D & P & _).
  exists h, s'. split; auto. cbn [bin_fun] in V. rewrite (rpow_pos c v HD) in V. split; auto.
  rewrite (derive_same _ _ _ _ (rpower_d2 c v HD) D). exact P.
Qed.

End Real.
