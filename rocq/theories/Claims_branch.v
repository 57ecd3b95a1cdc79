(* Gradients of functions with branches. *)
From Coq Require Import ZifyBool ZifyNat.
From Verif Require Import TapeFacts.
From Verif Require Export BranchSpec Claims_cost Claims_total Claims_block.
Local Open Scope R_scope.

Section Branch.
Context {lg : R -> R} {C : Cfg (RNum lg)}.
Notation N := (RNum lg).
Notation graph := (@graph N).

(* the calls made from the point ws, and the registers returned *)
Fixpoint path (f : @fn N) (ws : list R) : list (@op N) :=
  match f with
  | FRet _ => []
  | FCall o k => o :: path k (ws ++ denote o (at_regs ws (op_regs o)))
  | FTest q a b k => path (k (holds q (nth a ws 0) (nth b ws 0))) ws
  | FTestC q a d k => path (k (holds q (nth a ws 0) d)) ws
  end.
Fixpoint outs (f : @fn N) (ws : list R) : list nat :=
  match f with
  | FRet ys => ys
  | FCall o k => outs k (ws ++ denote o (at_regs ws (op_regs o)))
  | FTest q a b k => outs (k (holds q (nth a ws 0) (nth b ws 0))) ws
  | FTestC q a d k => outs (k (holds q (nth a ws 0) d)) ws
  end.

Lemma fval_path f : forall ws, fval f ws = map (fun y => nth y (eval (path f ws) ws) 0) (outs f ws).
Proof. induction f as [ys|o k IH|q a b k IH|q a d k IH]; intros ws; cbn [fval path outs eval]; auto. Qed.

Lemma fdom_path f : forall ws, fdom f ws -> prog_dom (path f ws) ws.
Proof.
  induction f as [ys|o k IH|q a b k IH|q a d k IH]; intros ws H; cbn [fdom path prog_dom] in *; auto.
  - destruct H as (H1 & H2 & H3 & H4). auto.
  - apply IH, H.
  - apply IH, H.
Qed.

Lemma holds_rel q (x y : R) : @frel N q x y = holds q x y.
Proof.
  destruct q; cbn [frel holds]; unfold fne, fgt, fge; cbn [feq flt fle RNum]; unfold req, rlt, rle;
    repeat (destruct (Req_EM_T _ _) || destruct (Rlt_dec _ _) || destruct (Rle_dec _ _)); auto.
Qed.

(* the run is the run of the calls on its path *)
Lemma call_path (HC : cfg_ok C) f : forall s (g : graph) ke (ws : list R) hs s', Rel s g -> sound g -> Forall (fun k => (k < gsize g)%nat) ke ->
  map (gval g) ke = ws -> fdom f ws -> call_fn f (map hd ke) s = Ok (hs, s') ->
  exists env', exec (path f ws) (map hd ke) s = Ok (env', s') /\
    Forall2 (fun y h => nth_error env' y = Some h) (outs f ws) hs.
Proof.
  assert (NV : forall (g : graph) ke (ws : list R) a ka, map (gval g) ke = ws -> nth_error ke a = Some ka -> nth a ws 0 = gval g ka).
  { intros g ke ws a ka <- E. apply nth_error_nth. rewrite nth_error_map, E. reflexivity. }
  induction f as [ys|o k IH|q a b k IH|q a d k IH]; intros s g ke ws hs s' R0 HG HB HW HD HX; cbn [call_fn fdom path outs] in *.
  - destruct (regs_inv _ _ _ _ _ HX) as [<- H]. exists (map hd ke). split; auto.
  - destruct HD as (D1 & D2 & D3 & D4). unfold mbind in HX.
    destruct (exec_op (map hd ke) o s) as [[h1 s1]| | |] eqn:E; try discriminate. cbn [bind] in HX.
    destruct (op_run HC s g ke o h1 s1 R0 HG HB D2 D3 E) as (kk & ks & g1 & EK & EX & R1 & G1 & GR1 & -> & B1).
    assert (EV : map (gval g1) (ke ++ ks) = ws ++ denote o (at_regs ws (op_regs o))).
    { rewrite <- HW in D1 |- *. rewrite (op_denote g g1 ke o kk ks EK HB D1 D2 D3 EX), map_app, (gval_follow g g1 ke GR1 HB). reflexivity. }
    rewrite <- map_app in HX.
    destruct (IH s1 g1 (ke ++ ks) _ hs s' R1 G1 B1 EV D4 HX) as (env' & E' & F'). exists env'. split; auto.
    cbn [exec]. unfold mbind. rewrite E. cbn [bind]. rewrite <- map_app. exact E'.
  - destruct HD as [_ D]. unfold mbind in HX. unfold reg at 1 in HX. rewrite nth_error_map in HX.
    destruct (nth_error ke a) as [ka|] eqn:Ea; cbn [option_map] in HX; [|discriminate]. unfold mret at 1 in HX. cbn [bind] in HX.
    unfold reg at 1 in HX. rewrite nth_error_map in HX.
    destruct (nth_error ke b) as [kb|] eqn:Eb; cbn [option_map] in HX; [|discriminate]. unfold mret at 1 in HX. cbn [bind] in HX.
    pose proof HB as HB'. rewrite Forall_forall in HB'.
    unfold rel_vv, mbind in HX.
    rewrite (rel_vval s g ka R0 (HB' _ (nth_error_In _ _ Ea))) in HX. cbn [bind] in HX.
    rewrite (rel_vval s g kb R0 (HB' _ (nth_error_In _ _ Eb))) in HX. unfold mret in HX.
    cbn [bind] in HX. rewrite (holds_rel q (gval g ka) (gval g kb)) in HX.
    rewrite (NV g ke ws a ka HW Ea), (NV g ke ws b kb HW Eb) in D |- *. eapply IH; eauto.
  - destruct HD as [_ D]. unfold mbind in HX. unfold reg at 1 in HX. rewrite nth_error_map in HX.
    destruct (nth_error ke a) as [ka|] eqn:Ea; cbn [option_map] in HX; [|discriminate]. unfold mret at 1 in HX. cbn [bind] in HX.
    pose proof HB as HB'. rewrite Forall_forall in HB'.
    unfold rel_vd, mbind in HX.
    rewrite (rel_vval s g ka R0 (HB' _ (nth_error_In _ _ Ea))) in HX. unfold mret in HX.
    cbn [bind] in HX. rewrite (holds_rel q (gval g ka) d) in HX.
    rewrite (NV g ke ws a ka HW Ea) in D |- *. eapply IH; eauto.
Qed.

(* ---- near the point the same way is taken ---- *)

Lemma denote_len (o : @op N) xs : length (denote o xs) = op_results o.
Proof. destruct o; cbn [denote op_results length]; auto; apply mm_len. Qed.

Lemma eval_ext (p : list (@op N)) : forall ws, exists r, eval p ws = ws ++ r.
Proof.
  induction p as [|o p IH]; intros ws; cbn [eval]; [exists []; rewrite app_nil_r; auto|].
  destruct (IH (ws ++ denote o (at_regs ws (op_regs o)))) as [r ->]. rewrite <- app_assoc. eauto.
Qed.

Lemma holds_stable q (u v : R -> R) t0 : continuous u t0 -> continuous v t0 -> u t0 <> v t0 ->
  locally t0 (fun t => holds q (u t) (v t) = holds q (u t0) (v t0)).
Proof.
  intros Hu Hv Hne.
  assert (L : locally t0 (fun t => (u t < v t <-> u t0 < v t0) /\ (v t < u t <-> v t0 < u t0))).
  { assert (Cd : continuous (fun t => u t - v t) t0).
    { apply (continuous_minus u v); auto. }
    destruct (Rdichotomy _ _ Hne) as [H|H].
    - assert (Hp : 0 < v t0 - u t0) by lra.
      specialize (Cd (ball (u t0 - v t0) (mkposreal _ Hp))). 
      assert (Q : locally t0 (fun t => ball (u t0 - v t0) (mkposreal _ Hp) (u t - v t))) by (apply Cd; apply locally_ball).
      eapply filter_imp; [|exact Q]. intros t B. unfold ball in B. cbn in B. unfold AbsRing_ball, abs, minus, plus, opp in B. cbn in B.
      apply Rabs_def2 in B. lra.
    - assert (Hp : 0 < u t0 - v t0) by lra.
      specialize (Cd (ball (u t0 - v t0) (mkposreal _ Hp))).
      assert (Q : locally t0 (fun t => ball (u t0 - v t0) (mkposreal _ Hp) (u t - v t))) by (apply Cd; apply locally_ball).
      eapply filter_imp; [|exact Q]. intros t B. unfold ball in B. cbn in B. unfold AbsRing_ball, abs, minus, plus, opp in B. cbn in B.
      apply Rabs_def2 in B. lra. }
  eapply filter_imp; [|exact L]. intros t [A B].
  destruct q; cbn [holds]; repeat (destruct (Req_EM_T _ _) || destruct (Rlt_dec _ _) || destruct (Rle_dec _ _)); auto; exfalso; lra.
Qed.

Lemma path_stable f (t0 : R) : forall (W : R -> list R) n (fs : list (R -> R)),
  (forall t, length (W t) = n) -> (forall t, eval (path f (W t0)) (W t) = map (fun c : R -> R => c t) fs) ->
  Forall (fun c => continuous c t0) fs -> fdom f (W t0) ->
  locally t0 (fun t => path f (W t) = path f (W t0) /\ outs f (W t) = outs f (W t0)).
Proof.
  assert (RC : forall (W : R -> list R) n fs (p : list (@op N)) a, (forall t, length (W t) = n) ->
    (forall t, eval p (W t) = map (fun c : R -> R => c t) fs) -> Forall (fun c => continuous c t0) fs -> continuous (fun t => nth a (W t) 0) t0).
  { intros W n fs p a HL HE HF. destruct (Nat.ltb_spec a n) as [L|L].
    - apply continuous_ext with (f := nth a fs (fun _ => 0)).
      + intros t. destruct (eval_ext p (W t)) as [r Er]. rewrite HE in Er.
        transitivity (nth a (map (fun c : R -> R => c t) fs) 0).
        * symmetry. exact (map_nth (fun c : R -> R => c t) fs (fun _ => 0) a).
        * rewrite Er, app_nth1 by (rewrite HL; auto). reflexivity.
      + destruct (nth_in_or_default a fs (fun _ => 0)) as [I|E]; [rewrite Forall_forall in HF; auto|].
        rewrite E. apply continuous_const.
    - apply continuous_ext with (f := fun _ => 0); [|apply continuous_const].
      intros t. rewrite nth_overflow; auto. rewrite HL. auto. }
  induction f as [ys|o k IH|q a b k IH|q a d k IH]; intros W n fs HL HE HF HD; cbn [path outs fdom] in *.
  - apply filter_forall. auto.
  - destruct HD as (_ & _ & _ & D).
    specialize (IH (fun t => W t ++ denote o (at_regs (W t) (op_regs o))) (n + op_results o)%nat fs).
    eapply filter_imp; [|apply IH; auto].
    + intros t [A B]. split; [f_equal; exact A|exact B].
    + intros t. rewrite app_length, HL, denote_len. reflexivity.
  - destruct HD as [D1 D2].
    pose proof (RC W n fs _ a HL HE HF) as Ca. pose proof (RC W n fs _ b HL HE HF) as Cb.
    pose proof (holds_stable q _ _ t0 Ca Cb D1) as LH. cbv beta in LH.
    pose proof (IH _ W n fs HL HE HF D2) as LP.
    eapply filter_imp; [|apply filter_and; [exact LH|exact LP]]. cbv beta. intros t [-> P]. exact P.
  - destruct HD as [D1 D2].
    pose proof (RC W n fs _ a HL HE HF) as Ca.
    pose proof (holds_stable q _ (fun _ => d) t0 Ca (continuous_const d t0) D1) as LH. cbv beta in LH.
    pose proof (IH _ W n fs HL HE HF D2) as LP.
    eapply filter_imp; [|apply filter_and; [exact LH|exact LP]]. cbv beta. intros t [-> P]. exact P.
Qed.

Lemma gradient_same (f1 f2 : list Z -> M Z) xs (s : @st N) r s' : gradient f1 xs s = Ok (r, s') ->
  (forall s1 xv s2 fv s3, begin_nested s = Ok (tt, s1) -> new_var_vals xs s1 = Ok (xv, s2) -> f1 xv s2 = Ok (fv, s3) -> f2 xv s2 = Ok (fv, s3)) ->
  gradient f2 xs s = Ok (r, s').
Proof.
  unfold gradient, mbind. intros H HF.
  destruct (begin_nested s) as [[[] s1]| | |] eqn:E1; try discriminate. cbn [bind] in *.
  destruct (new_var_vals xs s1) as [[xv s2]| | |] eqn:E2; try discriminate. cbn [bind] in *.
  destruct (f1 xv s2) as [[fv s3]| | |] eqn:E3; try discriminate. cbn [bind] in *.
  rewrite (HF _ _ _ _ _ eq_refl E2 E3). cbn [bind]. exact H.
Qed.
Lemma jacobian_same (f1 f2 : list Z -> M (list Z)) xs (s : @st N) r s' : jacobian f1 xs s = Ok (r, s') ->
  (forall s1 xv s2 fv s3, begin_nested s = Ok (tt, s1) -> new_var_vals xs s1 = Ok (xv, s2) -> f1 xv s2 = Ok (fv, s3) -> f2 xv s2 = Ok (fv, s3)) ->
  jacobian f2 xs s = Ok (r, s').
Proof.
  unfold jacobian, mbind. intros H HF.
  destruct (begin_nested s) as [[[] s1]| | |] eqn:E1; try discriminate. cbn [bind] in *.
  destruct (new_var_vals xs s1) as [[xv s2]| | |] eqn:E2; try discriminate. cbn [bind] in *.
  destruct (f1 xv s2) as [[fv s3]| | |] eqn:E3; try discriminate. cbn [bind] in *.
  rewrite (HF _ _ _ _ _ eq_refl E2 E3). cbn [bind]. exact H.
Qed.

Lemma hold_same i (xs : list R) : hold i (nth i xs 0) 0 xs = xs.
Proof.
  rewrite hold_seq. apply nth_ext with (d := 0) (d' := 0); [rewrite map_length, seq_length; reflexivity|].
  rewrite map_length, seq_length. intros q Hq. apply nth_error_nth. rewrite nth_error_map, (nth_error_nth' _ 0%nat) by (rewrite seq_length; exact Hq).
  rewrite seq_nth by exact Hq. cbn [option_map Nat.add]. f_equal.
  destruct (Nat.eqb_spec q i) as [->|]; reflexivity.
Qed.

(* the call inside the block, and what holds near the point *)
Lemma body_path s (g : graph) env ws xs f s1 xv s2 hs s3 : @practical N C -> Rel s g -> sound g ->
  Forall (alive s) env -> mapM (var_val s) env = Ok ws -> fdom f (ws ++ xs) ->
  begin_nested s = Ok (tt, s1) -> @new_var_vals N C xs s1 = Ok (xv, s2) -> call_fn f (env ++ xv) s2 = Ok (hs, s3) ->
  (exists env', exec (path f (ws ++ xs)) (env ++ xv) s2 = Ok (env', s3) /\
     Forall2 (fun y h => nth_error env' y = Some h) (outs f (ws ++ xs)) hs) /\
  forall i, (i < length xs)%nat -> locally (nth i xs 0) (fun t => 
     path f (ws ++ hold i t 0 xs) = path f (ws ++ xs) /\ outs f (ws ++ hold i t 0 xs) = outs f (ws ++ xs)).
Proof.
  intros HP R0 HG HA HW HD E1 E2 E3. pose proof HP as [HC HJ].
  destruct (abegin g) as [g1|] eqn:AB; [|rewrite (begin_deep s g R0 AB) in E1; discriminate].
  destruct (begin_ok s g g1 R0 AB) as (s1' & EB' & R1). assert (s1' = s1) by congruence. subst s1'. clear EB'.
  destruct (sound_begin g g1 HG AB) as (G1 & SZ & VV & AV & NE).
  destruct (alive_nodes s g env R0 HA) as (ke & -> & HB).
  pose proof HW as HW'. rewrite (vals_nodes s g ke R0 HB) in HW'. assert (EW : ws = map (gval g) ke) by congruence. clear HW'.
  destruct (leaf_run HC xs s1 g1 xv s2 R1 G1 E2) as (g2 & R2 & G2 & GR2 & EXV & SZ2 & VL).
  assert (HB2 : Forall (fun k => (k < gsize g2)%nat) (ke ++ seq (gsize g1) (length xs))).
  { apply Forall_app. split; [eapply Forall_impl; [|exact HB]; cbv beta; lia|]. apply Forall_forall. intros k Hk. apply in_seq in Hk. lia. }
  assert (EV2 : map (gval g2) (ke ++ seq (gsize g1) (length xs)) = ws ++ xs).
  { rewrite map_app. f_equal; [|exact VL]. rewrite EW. apply map_ext_in. intros k Hk. rewrite <- VV. apply (grows_gval g1 g2 k GR2).
    rewrite Forall_forall in HB. specialize (HB k Hk). cbv beta in HB. lia. }
  assert (EC : exists env', exec (path f (ws ++ xs)) (map hd ke ++ xv) s2 = Ok (env', s3) /\
     Forall2 (fun y h => nth_error env' y = Some h) (outs f (ws ++ xs)) hs).
  { rewrite EXV, <- map_app in *. exact (call_path HC f s2 g2 _ _ hs s3 R2 G2 HB2 EV2 HD E3). }
  split; [exact EC|]. intros i Hi. destruct EC as (env' & EX & _).
  destruct (block_body s g (map hd ke) ws xs (path f (ws ++ xs)) s1 xv s2 env' s3 HP R0 HG HA HW (fdom_path _ _ HD) E1 E2 EX)
    as (g1' & g3 & ke' & _ & _ & _ & _ & _ & _ & _ & _ & _ & _ & TR).
  destruct (TR i Hi) as (g4 & fs & _ & _ & T & _ & EV4).
  assert (HH : hold i (nth i xs 0) 0 xs = xs) by apply hold_same.
  pose proof (path_stable f (nth i xs 0) (fun t => ws ++ hold i t 0 xs) (length ws + length xs)%nat fs) as PS.
  cbv beta in PS. rewrite HH in PS. apply PS.
  - intros t. rewrite app_length, hold_len. reflexivity.
  - apply EV4.
  - clear - T. induction T as [|c k fs ks [_ [_ D]] _ IH]; constructor; auto.
    apply (ex_derive_continuous c). eexists. exact D.
  - exact HD.
Qed.

Lemma regs_fwd env (s : @st N) : forall ys hs, Forall2 (fun y h => nth_error env y = Some h) ys hs -> regs env ys s = Ok (hs, s).
Proof.
  unfold regs. induction 1 as [|y h ys hs H _ IH]; [reflexivity|]. cbn [mmap]. unfold mbind. unfold reg at 1. rewrite H. unfold mret at 1. cbn [bind].
  rewrite IH. reflexivity.
Qed.

Lemma near_fval f ws xs i a y : nth_error (outs f (ws ++ xs)) a = Some y ->
  locally (nth i xs 0) (fun t => path f (ws ++ hold i t 0 xs) = path f (ws ++ xs) /\ outs f (ws ++ hold i t 0 xs) = outs f (ws ++ xs)) ->
  locally (nth i xs 0) (fun t => nth y (eval (path f (ws ++ xs)) (ws ++ hold i t 0 xs)) 0 = nth a (fval f (ws ++ hold i t 0 xs)) 0).
Proof.
  intros Ha HL. eapply filter_imp; [|exact HL]. cbv beta. intros t [EP EO].
  symmetry. apply nth_error_nth. rewrite fval_path, EP, EO, nth_error_map, Ha. reflexivity.
Qed.

(* C51 *)
Theorem gradient_branch s env ws xs f r s' : @practical N C -> (exists g : graph, Rel s g /\ sound g) ->
  Forall (alive s) env -> mapM (var_val s) env = Ok ws -> fdom f (ws ++ xs) ->
  gradient (fun xv => call_fn1 f (env ++ xv)) (xs : list (@F N)) s = Ok (r, s') ->
  exists v ds, r = v :: ds /\ nth_error (fval f (ws ++ xs)) 0 = Some v /\ length ds = length xs /\
    forall i, (i < length xs)%nat ->
      is_derive (fun t => nth 0 (fval f (ws ++ hold i t 0 xs)) 0) (nth i xs 0) (nth i ds 0).
Proof.
  intros HP (g & R0 & HG) HA HW HD HX.
  assert (BI : forall xv s2 h s3, call_fn1 f (env ++ xv) s2 = Ok (h, s3) -> exists hs, call_fn f (env ++ xv) s2 = Ok (hs, s3) /\ nth_error hs 0 = Some h).
  { intros xv s2 h s3. unfold call_fn1, mbind. destruct (call_fn f (env ++ xv) s2) as [[hs s4]| | |]; try discriminate. cbn [bind].
    unfold reg, mret, mlift. destruct (nth_error hs 0) as [h'|] eqn:E; cbn [bind]; [|discriminate]. intros H.
    exists hs. assert (s4 = s3) by congruence. subst. split; auto. congruence. }
  destruct (gradient_inv _ _ _ _ _ HX) as (s1 & xv & s2 & h & s3 & v & s4 & ga & E1 & E2 & E3 & _).
  destruct (BI _ _ _ _ E3) as (hs & E4 & E5).
  destruct (body_path s g env ws xs f s1 xv s2 hs s3 HP R0 HG HA HW HD E1 E2 E4) as [(env' & EX & EO) ST].
  destruct (outs f (ws ++ xs)) as [|y ys] eqn:Ey; [inversion EO; subst; discriminate|].
  assert (HX' : gradient (user_fn (path f (ws ++ xs)) env y) xs s = Ok (r, s')).
  { eapply gradient_same; [exact HX|]. intros t1 xv' t2 h' t3 F1 F2 F3.
    assert (t1 = s1) by congruence. subst t1. assert (Q : xv' = xv /\ t2 = s2) by (split; congruence). destruct Q as [-> ->].
    rewrite E3 in F3. injection F3 as <- <-. unfold user_fn, mbind. rewrite EX. cbn [bind]. unfold reg.
    inversion EO as [|? ? ? ? Q1 Q2]. subst. cbn [nth_error] in E5. injection E5 as ->. rewrite Q1. reflexivity. }
  destruct (gradient_ok s env ws xs _ y r s' HP (ex_intro _ g (conj R0 HG)) HA HW (fdom_path _ _ HD) HX') as (ds & -> & LD & DD).
  exists (nth y (eval (path f (ws ++ xs)) (ws ++ xs)) 0), ds. split; [reflexivity|]. split; [|split; [exact LD|]].
  - rewrite fval_path, Ey. reflexivity.
  - intros i Hi. eapply is_derive_ext_loc; [|exact (DD i Hi)].
    apply (near_fval f ws xs i 0 y); [exact (f_equal (fun l => nth_error l 0%nat) Ey)|]. first [exact (ST i Hi) | rewrite <- Ey in ST; exact (ST i Hi)].
Qed.

Theorem jacobian_branch s env ws xs f r s' : @practical N C -> (exists g : graph, Rel s g /\ sound g) ->
  Forall (alive s) env -> mapM (var_val s) env = Ok ws -> fdom f (ws ++ xs) ->
  jacobian (fun xv => call_fn f (env ++ xv)) (xs : list (@F N)) s = Ok (r, s') ->
  length r = length (fval f (ws ++ xs)) /\
  forall a v, nth_error (fval f (ws ++ xs)) a = Some v ->
    exists ds, nth_error r a = Some (v :: ds) /\ length ds = length xs /\
      forall i, (i < length xs)%nat ->
        is_derive (fun t => nth a (fval f (ws ++ hold i t 0 xs)) 0) (nth i xs 0) (nth i ds 0).
Proof.
  intros HP (g & R0 & HG) HA HW HD HX.
  destruct (jacobian_inv _ _ _ _ _ HX) as (s1 & xv & s2 & hs & s3 & vs & gs & s4 & E1 & E2 & E4 & _).
  destruct (body_path s g env ws xs f s1 xv s2 hs s3 HP R0 HG HA HW HD E1 E2 E4) as [(env' & EX & EO) ST].
  assert (HX' : jacobian (user_fns (path f (ws ++ xs)) env (outs f (ws ++ xs))) xs s = Ok (r, s')).
  { eapply jacobian_same; [exact HX|]. intros t1 xv' t2 h' t3 F1 F2 F3.
    assert (t1 = s1) by congruence. subst t1. assert (Q : xv' = xv /\ t2 = s2) by (split; congruence). destruct Q as [-> ->].
    rewrite E4 in F3. injection F3 as <- <-. unfold user_fns, mbind. rewrite EX. cbn [bind]. apply regs_fwd. exact EO. }
  destruct (jacobian_ok s env ws xs _ _ r s' HP (ex_intro _ g (conj R0 HG)) HA HW (fdom_path _ _ HD) HX') as (LR & DD).
  rewrite fval_path, map_length. split; [exact LR|]. intros a v Hv. rewrite nth_error_map in Hv.
  destruct (nth_error (outs f (ws ++ xs)) a) as [y|] eqn:Ea; [|discriminate]. cbn [option_map] in Hv. injection Hv as <-.
  destruct (DD a y Ea) as (ds & E & LD & D). exists ds. split; [exact E|]. split; [exact LD|]. intros i Hi.
  eapply is_derive_ext_loc; [|exact (D i Hi)]. apply (near_fval f ws xs i a y); auto.
Qed.
End Branch.
