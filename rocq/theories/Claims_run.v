(* gradient and jacobian return, and when they do not. *)
From Coq Require Import ZifyBool ZifyNat.
From Verif Require Import TapeFacts.
From Verif Require Export Claims_branch.
Local Open Scope Z_scope.

Section Run.
Context {N : Num} {RL : RepLaws N} {C : Cfg N}.

Lemma reg_aregs g ke l : Forall (fun k => (k < gsize g)%nat) ke -> Forall (fun r => (r < length ke)%nat) l -> exists kk, aregs g ke l = Some kk.
Proof.
  intros HB HR. induction HR as [|r l Hr _ (kk & E)]; [exists []; reflexivity|].
  destruct (lt_nth_error _ _ Hr) as [k Ek]. exists (k :: kk). cbn [aregs]. unfold areg. rewrite Ek, E.
  rewrite Forall_forall in HB. pose proof (HB k (nth_error_In _ _ Ek)) as Hk. cbv beta in Hk.
  replace (Nat.ltb k (gsize g)) with true by lia. reflexivity.
Qed.

(* a call with exact room *)
Lemma op_go_exact (HC : cfg_ok C) s g ke o kk : Rel s g -> sound g -> Forall (fun k => (k < gsize g)%nat) ke ->
  op_shape o -> neutral o = false -> Forall (fun r => (r < length ke)%nat) (op_regs o) ->
  aexec_op g ke o <> AStop -> aregs g ke (op_regs o) = Some kk -> g_peak g <= cap -> g_top g + words o (map (gval g) kk) <= cap ->
  exists ks s' g', exec_op (map hd ke) o s = Ok (map hd ks, s') /\ aexec_op g ke o = AOk (ks, g') /\ Rel s' g' /\ sound g' /\
    grows g g' /\ Forall (fun k => (k < gsize g')%nat) (ke ++ ks) /\ length ks = op_results o /\
    g_top g' = g_top g + words o (map (gval g) kk) /\ g_peak g' = Z.max (g_peak g) (g_top g').
Proof.
  intros R HG HB HS HN HR HNS EK HP HT.
  assert (HN' : Forall (has_node g ke) (op_regs o)).
  { eapply Forall_impl; [|exact HR]. cbv beta. intros a Ha. destruct (lt_nth_error _ _ Ha) as [k E2].
    exists k. unfold areg. rewrite E2. rewrite Forall_forall in HB. pose proof (HB k (nth_error_In _ _ E2)) as Hk. cbv beta in Hk.
    replace (Nat.ltb k (gsize g)) with true by lia. reflexivity. }
  destruct (sound_accept g ke o HG HN' HS HN) as [A1 A2].
  pose proof (exec_op_ok HC s g ke o R) as HQ.
  destruct (aexec_op g ke o) as [[ks g']| |] eqn:E; [|congruence|congruence].
  destruct (graph_words g ke o kk ks g' (r_wf _ _ R) EK E) as (T1 & _ & T2). pose proof (aexec_results _ _ _ _ _ E) as HL.
  simpl in HQ. specialize (HQ (cap < g_peak g') (fun x => x)).
  destruct (exec_op (map hd ke) o s) as [[hs s']| |[]|] eqn:EX; simpl in HQ; try tauto; try lia.
  destruct HQ as [Eh R']. cbn [fst snd] in *. subst hs.
  destruct (op_run HC s g ke o _ s' R HG HB HS HN EX) as (kk2 & ks2 & g2 & _ & E2 & _ & G2 & GR & _ & B2).
  rewrite E in E2. assert (ks2 = ks) by congruence. assert (g2 = g') by congruence. subst.
  exists ks, s', g'. repeat (split; auto).
Qed.

(* storage sizes are determined *)
Lemma storage_fun (HC : cfg_ok C) size head a b : storage size head a -> storage size head b -> a = b.
Proof.
  assert (HI : 1 <= init_tape_size) by (destruct HC; unfold init_tape_size, min_rec_size in *; lia).
  assert (PW : forall i j : nat, (i < j)%nat -> init_tape_size * 2 ^ Z.of_nat i <= init_tape_size * 2 ^ (Z.of_nat j - 1)).
  { intros i j Hij. apply Z.mul_le_mono_nonneg_l; [lia|]. apply Z.pow_le_mono_r; lia. }
  intros [A1 A2] [B1 B2]. destruct (Z.le_gt_cases (head - 1) size) as [L|L].
  - rewrite (A1 L), (B1 L). reflexivity.
  - destruct (A2 ltac:(lia)) as (i & -> & I1 & I2). destruct (B2 ltac:(lia)) as (j & -> & J1 & J2).
    destruct (lt_eq_lt_dec i j) as [[H|H]|H]; [|subst; reflexivity|].
    + pose proof (PW _ _ H). specialize (J2 ltac:(lia)). lia.
    + pose proof (PW _ _ H). specialize (I2 ltac:(lia)). lia.
Qed.

Lemma live_vals s g ks : Rel s g -> Forall (fun k => (k < gsize g)%nat) ks -> vvals (map hd ks) s = Ok (map (gval g) ks, s).
Proof. intros R H. apply rel_vvals; auto. Qed.

Lemma live_adjs s g ks : Rel s g -> Forall (fun k => (k < gsize g)%nat) ks -> mapM (var_adj s) (map hd ks) = Ok (map (g_adj g) ks).
Proof. intros R H. induction H as [|k ks Hk _ IH]; cbn [map mapM]; auto. rewrite (rel_var_adj s g R k Hk). cbn [bind]. rewrite IH. reflexivity. Qed.

(* the storage at the end of the block *)
Lemma filled (HC : cfg_ok C) s g s3 g3 w : Rel s g -> Rel s3 g3 -> g_top g3 = g_top g + w ->
  g_peak g3 = Z.max (g_peak g) (g_top g3) -> (0 < gsize g3)%nat ->
  (exactly_full s w -> t_size (s_tape s3) = g_top g3 - 1) /\ (~ exactly_full s w -> g_top g3 <= t_size (s_tape s3)).
Proof.
  intros R0 R3 HT HP HN. pose proof (gsize_top g3 (r_wf _ _ R3)) as HH.
  pose proof (storage_ok HC _ _ _ _ _ (r_size s g R0) (r_size s3 g3 R3) HP ltac:(lia)) as ST.
  unfold exactly_full. rewrite (r_thead _ _ R0), <- HT.
  destruct (r_twf _ _ R3) as (T1 & _ & _). rewrite (r_thead _ _ R3) in T1.
  split; intros HE.
  - apply (storage_fun HC _ _ _ _ ST HE).
  - destruct (Z.eq_dec (t_size (s_tape s3)) (g_top g3 - 1)) as [E|]; [|lia]. rewrite E in ST. contradiction.
Qed.

Lemma grad_total (HJ : exists j, junk = Some j) s g k : Rel s g -> sound g -> (k < gsize g)%nat ->
  exists s2 f, grad (hd k) s = Ok (tt, s2) /\ Rel s2 (set_gadj g f).
Proof.
  intros R0 HG Hk. destruct (sound_sweep HJ g HG (gsize g) 0 ltac:(lia) (nupd (g_adj g) k f1)) as (g2 & E2).
  assert (EG : agrad k g = Some g2).
  { unfold agrad. replace (Nat.ltb k (gsize g)) with true by lia. exact E2. }
  destruct (grad_ok s g k g2 R0 EG) as (s2 & E3 & R2). pose proof (asweep_form _ _ _ _ E2) as [f ->]. eauto.
Qed.

Lemma rows_run (HJ : exists j, junk = Some j) g4 m r kx : sound g4 -> g_nest g4 = m :: r ->
  Forall (fun k => (k < gsize g4)%nat) kx -> forall ks s f, Rel s (set_gadj g4 f) -> Forall (fun k => (k < gsize g4)%nat) ks ->
  exists gs s' f', mmap (jac_row (map hd kx)) (map hd ks) s = Ok (gs, s') /\ Rel s' (set_gadj g4 f').
Proof.
  intros HG HN BX. induction ks as [|k ks IH]; intros s f R0 HB; cbn [map mmap].
  - exists [], s, f. auto.
  - inversion HB as [|? ? Hk HB']; subst.
    destruct (zero_nested_ok s (set_gadj g4 f) _ _ R0 HN) as (s1 & E1 & R1).
    destruct (grad_total HJ s1 _ k R1 (zero_adj_sound _ _ (zero_adj_sound _ _ HG)) Hk) as (s2 & a & E2 & R2).
    assert (EA : vadjs (map hd kx) s2 = Ok (map a kx, s2)).
    { unfold vadjs, mget. rewrite (live_adjs s2 _ kx R2 BX). reflexivity. }
    destruct (IH s2 a R2 HB') as (gs & s' & f' & E3 & R3).
    exists (map a kx :: gs), s', f'. split; auto.
    assert (EJ : jac_row (map hd kx) (hd k) s = Ok (map a kx, s2)).
    { unfold jac_row. rewrite (mbind_ok _ _ _ _ _ E1), (mbind_ok _ _ _ _ _ E2). exact EA. }
    rewrite (mbind_ok _ _ _ _ _ EJ), (mbind_ok _ _ _ _ _ E3). reflexivity.
Qed.

(* the new variables of the block are calls too *)
Fixpoint declare (xs : list F) (f : fn) : fn :=
  match xs with [] => f | x :: t => FCall (OVar x) (declare t f) end.

Lemma call_declare xs f : forall env s, call_fn (declare xs f) env s =
  mbind (new_var_vals xs) (fun xv => call_fn f (env ++ xv)) s.
Proof.
  induction xs as [|x xs IH]; intros env s; cbn [declare].
  - unfold new_var_vals. cbn. rewrite app_nil_r. reflexivity.
  - cbn [call_fn]. unfold new_var_vals. cbn [mmap]. cbn [exec_op]. unfold one, mbind.
    destruct (new_var_val x s) as [[h s1]| | |]; auto.
    cbn [bind]. cbn [mret bind]. rewrite IH. unfold mbind, new_var_vals.
    destruct (mmap (new_var_val) xs s1) as [[hs s2]| | |]; auto.
    cbn [bind mret]. rewrite <- app_assoc. reflexivity.
Qed.
End Run.

Section RunReal.
Context {lg : R -> R} {C : Cfg (RNum lg)}.
Notation N := (RNum lg).
Notation graph := (@graph N).

Lemma fwords_pos (h : @fn N) : forall (ws : list R), 0 <= fwords h ws.
Proof.
  induction h as [ys|o k IH|q a b k IH|q a d k IH]; intros ws; cbn [fwords].
    { lia. } 2:{ apply IH. } 2:{ apply IH. }
    specialize (IH (ws ++ denote o (at_regs ws (op_regs o)))).
    assert (0 <= words o (at_regs ws (op_regs o))); [|lia]. clear.
    assert (AW : forall x, 0 <= @abs_words N x) by (intros x; unfold abs_words; repeat destruct (_ : bool); lia).
    destruct o; cbn [words]; try (pose proof (zlen_nonneg l)); try (pose proof (zlen_nonneg l1); pose proof (zlen_nonneg l2)); try lia.
    - destruct u; try lia; auto; destruct (is_nan_d _); lia.
    - destruct b; repeat destruct (_ : bool); auto; lia.
    - destruct b; repeat destruct (_ : bool); auto; lia.
    - pose proof (zlen_nonneg a). pose proof (zlen_nonneg b). lia.
    - pose proof (zlen_nonneg a). pose proof (zlen_nonneg b). lia.
    - pose proof (zlen_nonneg a). pose proof (zlen_nonneg b). lia.
Qed.

Lemma call_go (HC : cfg_ok C) f : forall s (g : graph) ke (ws : list R), Rel s g -> sound g -> Forall (fun k => (k < gsize g)%nat) ke ->
  map (gval g) ke = ws -> fdom f ws -> fregs f ws -> g_peak g <= cap -> g_top g + fwords f ws <= cap ->
  exists ks s' g', call_fn f (map hd ke) s = Ok (map hd ks, s') /\ Rel s' g' /\ sound g' /\ grows g g' /\
    Forall (fun k => (k < gsize g')%nat) ks /\ length ks = length (fval f ws) /\
    g_top g' = g_top g + fwords f ws /\ g_peak g' = Z.max (g_peak g) (g_top g').
Proof.
  assert (NV : forall (g : graph) ke (ws : list R) a ka, map (gval g) ke = ws -> nth_error ke a = Some ka -> nth a ws 0%R = gval g ka).
  { intros g ke ws a ka <- E. apply nth_error_nth. rewrite nth_error_map, E. reflexivity. }
  induction f as [ys|o k IH|q a b k IH|q a d k IH]; intros s g ke ws R0 HG HB HW HD HR HP HT; cbn [call_fn fdom fregs fval fwords] in *.
  - assert (LW : length ws = length ke) by (rewrite <- HW; apply map_length).
    assert (EX : exists ks, Forall2 (fun y h => nth_error ke y = Some h) ys ks).
    { clear - HR LW. induction HR as [|y ys Hy _ (ks & IH)]; [exists []; constructor|].
      rewrite LW in Hy. destruct (lt_nth_error _ _ Hy) as [k E]. exists (k :: ks). constructor; auto. }
    destruct EX as (ks & EX). exists ks, s, g. split.
    { apply regs_fwd. clear - EX. induction EX as [|y h ys ks H _ IH]; cbn [map]; constructor; auto. rewrite nth_error_map, H. reflexivity. }
    split; auto. split; auto. split; [apply grows_refl|]. split.
    { clear - EX HB. induction EX as [|y h ys ks H _ IH]; constructor; auto. rewrite Forall_forall in HB. apply HB. eapply nth_error_In; eauto. }
    split; [rewrite map_length; clear - EX; induction EX; cbn [length]; auto|]. split; [lia|].
    pose proof (w_top g (r_wf _ _ R0)). lia.
  - destruct HD as (D1 & D2 & D3 & D4). destruct HR as [H1 H2].
    assert (LW : length ws = length ke) by (rewrite <- HW; apply map_length). rewrite LW in H1.
    destruct (reg_aregs g ke (op_regs o) HB H1) as (kk & EK).
    assert (EA : at_regs ws (op_regs o) = map (gval g) kk).
    { rewrite <- HW. clear - EK. revert kk EK. generalize (op_regs o). induction l as [|r l IH]; intros kk EK; cbn [aregs] in EK.
      - injection EK as <-. reflexivity.
      - unfold areg in EK. destruct (nth_error ke r) as [k|] eqn:E; [|discriminate]. destruct (Nat.ltb k (gsize g)); [|discriminate].
        destruct (aregs g ke l) as [k1|]; [|discriminate]. injection EK as <-. unfold at_regs in *. cbn [map]. apply (f_equal2 (@cons R)); [|apply IH; reflexivity].
        apply nth_error_nth. rewrite nth_error_map, E. reflexivity. }
    assert (HNS : aexec_op g ke o <> AStop).
    { apply in_dom_goes; auto. rewrite <- HW in D1. exact D1. }
    pose proof (fwords_pos k (ws ++ denote o (at_regs ws (op_regs o)))) as FP.
    assert (HT1 : g_top g + words o (map (gval g) kk) <= cap) by (rewrite <- EA; lia).
    destruct (op_go_exact HC s g ke o kk R0 HG HB D2 D3 H1 HNS EK HP HT1)
      as (ks & s1 & g1 & E & EX & R1 & G1 & GR & B1 & L1 & T1 & P1).
    assert (EV : map (gval g1) (ke ++ ks) = ws ++ denote o (at_regs ws (op_regs o))).
    { rewrite <- HW in D1 |- *. rewrite (op_denote g g1 ke o kk ks EK HB D1 D2 D3 EX), map_app, (gval_follow g g1 ke GR HB). reflexivity. }
    rewrite EA in T1 || rewrite <- EA in T1.
    destruct (IH s1 g1 (ke ++ ks) _ R1 G1 B1 EV D4 H2 ltac:(lia) ltac:(lia)) as (hs & s2 & g2 & E2 & R2 & G2 & GR2 & B2 & L2 & T2 & P2).
    exists hs, s2, g2. split.
    { unfold mbind. rewrite E. cbn [bind]. rewrite <- map_app. exact E2. }
    split; auto. split; auto. split; [eapply grows_trans; eauto|]. split; auto. split; auto. split; lia.
  - destruct HD as [_ D]. destruct HR as (Ha & Hb & HR).
    assert (LW : length ws = length ke) by (rewrite <- HW; apply map_length). rewrite LW in Ha, Hb.
    destruct (lt_nth_error _ _ Ha) as [ka Ea]. destruct (lt_nth_error _ _ Hb) as [kb Eb].
    pose proof HB as HB'. rewrite Forall_forall in HB'.
    rewrite (NV g ke ws a ka HW Ea), (NV g ke ws b kb HW Eb) in *.
    destruct (IH _ s g ke ws R0 HG HB HW D HR HP HT) as (hs & s2 & g2 & E2 & REST). exists hs, s2, g2. split; [|exact REST].
    unfold mbind, rel_vv. unfold reg at 1. rewrite nth_error_map, Ea. cbn [option_map]. unfold mret at 1. cbn [bind].
    unfold reg at 1. rewrite nth_error_map, Eb. cbn [option_map]. unfold mret at 1. cbn [bind]. unfold mbind.
    rewrite (rel_vval s g ka R0 (HB' _ (nth_error_In _ _ Ea))). cbn [bind].
    rewrite (rel_vval s g kb R0 (HB' _ (nth_error_In _ _ Eb))). unfold mret. cbn [bind].
    rewrite (holds_rel q (gval g ka) (gval g kb)). exact E2.
  - destruct HD as [_ D]. destruct HR as (Ha & HR).
    assert (LW : length ws = length ke) by (rewrite <- HW; apply map_length). rewrite LW in Ha.
    destruct (lt_nth_error _ _ Ha) as [ka Ea].
    pose proof HB as HB'. rewrite Forall_forall in HB'.
    rewrite (NV g ke ws a ka HW Ea) in *.
    destruct (IH _ s g ke ws R0 HG HB HW D HR HP HT) as (hs & s2 & g2 & E2 & REST). exists hs, s2, g2. split; [|exact REST].
    unfold mbind, rel_vd. unfold reg at 1. rewrite nth_error_map, Ea. cbn [option_map]. unfold mret at 1. cbn [bind]. unfold mbind.
    rewrite (rel_vval s g ka R0 (HB' _ (nth_error_In _ _ Ea))). unfold mret. cbn [bind].
    rewrite (holds_rel q (gval g ka) d). exact E2.
Qed.

Lemma declare_spec (xs : list R) (f : @fn N) : forall (ws : list R), (fdom (@declare N xs f) ws <-> fdom f (ws ++ xs)) /\ (fregs (@declare N xs f) ws <-> fregs f (ws ++ xs)) /\
  fval (@declare N xs f) ws = fval f (ws ++ xs) /\ fwords (@declare N xs f) ws = 6 * zlen xs + fwords f (ws ++ xs).
Proof.
  induction xs as [|x xs IH]; intros ws; cbn [declare].
  - rewrite app_nil_r. unfold zlen. cbn [length]. repeat split; auto; lia.
  - destruct (IH (ws ++ [x])) as (I1 & I2 & I3 & I4). rewrite <- app_assoc in I1, I2, I3, I4. cbn [app] in I1, I2, I3, I4.
    split; [|split; [|split]].
    + etransitivity; [|exact I1]. change (fdom (FCall (@OVar N x) (@declare N xs f)) ws) with
        (True /\ True /\ false = false /\ fdom (@declare N xs f) (ws ++ [x])). tauto.
    + etransitivity; [|exact I2]. change (fregs (FCall (@OVar N x) (@declare N xs f)) ws) with
        (Forall (fun r => (r < length ws)%nat) [] /\ fregs (@declare N xs f) (ws ++ [x])). split; [tauto|]. intros Q. split; [constructor|exact Q].
    + exact I3.
    + change (fwords (FCall (@OVar N x) (@declare N xs f)) ws) with (6 + fwords (@declare N xs f) (ws ++ [x])).
      rewrite I4. unfold zlen. cbn [length]. lia.
Qed.

(* what happens inside the block up to the sweeps *)
Lemma block_go s (g : graph) env (ws xs : list R) (f : @fn N) : @practical N C -> Rel s g -> sound g -> s_lvl s < 10 ->
  Forall (alive s) env -> mapM (var_val s) env = Ok ws -> fdom f (ws ++ xs) -> fregs f (ws ++ xs) ->
  roomy s (6 * zlen xs + fwords f (ws ++ xs)) ->
  exists s1 xv s2 ks s3 g3 m r kx, begin_nested s = Ok (tt, s1) /\ @new_var_vals N C xs s1 = Ok (xv, s2) /\
    call_fn f (env ++ xv) s2 = Ok (map hd ks, s3) /\ Rel s3 g3 /\ sound g3 /\ g_nest g3 = m :: r /\
    Forall (fun k => (k < gsize g3)%nat) ks /\ length ks = length (fval f (ws ++ xs)) /\
    xv = map hd kx /\ Forall (fun k => (k < gsize g3)%nat) kx /\
    g_top g3 = g_top g + (6 * zlen xs + fwords f (ws ++ xs)) /\ g_peak g3 = Z.max (g_peak g) (g_top g3).
Proof.
  intros HP R0 HG HL HA HW HD HR HM. pose proof HP as [HC HJ].
  destruct (abegin g) as [g1|] eqn:AB.
  2:{ unfold abegin in AB. rewrite (r_lvl _ _ R0) in HL. unfold zlen in HL. destruct (Nat.ltb_spec (length (g_nest g)) 10); [discriminate|lia]. }
  destruct (begin_ok s g g1 R0 AB) as (s1 & EB & R1).
  destruct (sound_begin g g1 HG AB) as (G1 & SZ & VV & AV & NE).
  assert (TP : g_top g1 = g_top g /\ g_peak g1 = g_peak g).
  { unfold abegin in AB. destruct (Nat.ltb _ _); [|discriminate]. injection AB as <-. split; reflexivity. }
  destruct TP as [TP PK].
  destruct (alive_nodes s g env R0 HA) as (ke & -> & HB).
  rewrite (vals_nodes s g ke R0 HB) in HW. assert (EW : ws = map (gval g) ke) by congruence. clear HW.
  assert (HB1 : Forall (fun k => (k < gsize g1)%nat) ke) by (rewrite SZ; exact HB).
  assert (EW1 : map (gval g1) ke = ws) by (rewrite EW; apply map_ext; intros; apply VV).
  destruct (declare_spec xs f ws) as (S1 & S2 & S3 & S4).
  pose proof (fwords_pos f (ws ++ xs)) as W0.
  pose proof (zlen_nonneg xs).
  destruct (roomy_peak s g (6 * zlen xs + fwords f (ws ++ xs)) R0 ltac:(lia) HM) as [P1 P2].
  destruct (call_go HC (@declare N xs f) s1 g1 ke ws R1 G1 HB1 EW1 (proj2 S1 HD) (proj2 S2 HR) ltac:(lia) ltac:(lia))
    as (ks & s3 & g3 & EC & R3 & G3 & GR & B3 & L3 & T3 & P3).
  rewrite call_declare in EC. unfold mbind in EC.
  destruct (@new_var_vals N C xs s1) as [[xv s2]| | |] eqn:EN; try discriminate. cbn [bind] in EC.
  destruct (leaf_run HC xs s1 g1 xv s2 R1 G1 EN) as (g2 & R2 & G2 & GR2 & EXV & SZ2 & VL).
  exists s1, xv, s2, ks, s3, g3, (mkMark (gsize g) (length (g_arrs g)) (g_top g)), (g_nest g), (seq (gsize g1) (length xs)).
  split; auto. split; auto. split; auto. split; auto. split; auto. split; [rewrite (gr_nest _ _ GR); exact NE|].
  split; auto. split; [rewrite L3, S3; reflexivity|]. split; auto. split; [|split; [lia|lia]].
  apply Forall_forall. intros k Hk. apply in_seq in Hk.
  assert (LX : @length R xs = @length (@F N) xs) by reflexivity.
  assert (HB2 : Forall (fun k => (k < gsize g2)%nat) (ke ++ seq (gsize g1) (length xs))).
  { apply Forall_app. split; [eapply Forall_impl; [|exact HB1]; cbv beta; lia|]. apply Forall_forall. intros j Hj. apply in_seq in Hj. lia. }
  assert (EV2 : map (gval g2) (ke ++ seq (gsize g1) (length xs)) = ws ++ xs).
  { rewrite map_app. f_equal; [|exact VL]. rewrite EW. apply map_ext_in. intros j Hj. rewrite <- VV. apply (grows_gval g1 g2 j GR2).
    rewrite Forall_forall in HB1. apply HB1; auto. }
  rewrite EXV, <- map_app in EC.
  destruct (call_path HC f s2 g2 _ _ _ s3 R2 G2 HB2 EV2 HD EC) as (env' & EX & _).
  destruct (prog_run HC _ s2 g2 _ env' s3 R2 G2 HB2 (prog_dom_ok _ _ (fdom_path _ _ HD)) EX) as (l & gf & Rf & Gf & GRf & _).
  pose proof (grows_size _ _ GRf). pose proof (r_head _ _ Rf). pose proof (r_head _ _ R3). lia.
Qed.

Theorem gradient_runs s env (ws xs : list R) (f : @fn N) : @practical N C -> (exists g : graph, Rel s g /\ sound g) ->
  s_lvl s < 10 -> Forall (alive s) env -> mapM (var_val s) env = Ok ws -> fdom f (ws ++ xs) -> fregs f (ws ++ xs) ->
  fval f (ws ++ xs) <> [] -> roomy s (6 * zlen xs + fwords f (ws ++ xs)) ->
  (exactly_full s (6 * zlen xs + fwords f (ws ++ xs)) ->
     gradient (fun xv => call_fn1 f (env ++ xv)) (xs : list (@F N)) s = Undef OutOfBounds) /\
  (~ exactly_full s (6 * zlen xs + fwords f (ws ++ xs)) ->
     exists r s', gradient (fun xv => call_fn1 f (env ++ xv)) (xs : list (@F N)) s = Ok (r, s')).
Proof.
  intros HP (g & R0 & HG) HL HA HW HD HR HY HM. pose proof HP as [HC HJ].
  destruct (block_go s g env ws xs f HP R0 HG HL HA HW HD HR HM)
    as (s1 & xv & s2 & ks & s3 & g3 & m & r & kx & E1 & E2 & E3 & R3 & G3 & NE & BK & LK & -> & BX & T3 & P3).
  destruct ks as [|k ks]; [destruct (fval f (ws ++ xs)); [congruence|discriminate]|].
  inversion BK as [|? ? Hk _]; subst.
  destruct (grad_total HJ s3 g3 k R3 G3 Hk) as (s4 & a & EG & R4).
  destruct (filled HC s g s4 (set_gadj g3 a) _ R0 R4 T3 P3) as [FF FN]; [cbn; change (0 < gsize g3)%nat; lia|].
  assert (EV : vval (hd k) s3 = Ok (gval g3 k, s3)) by (apply rel_vval; auto).
  assert (EA : vadjs (map hd kx) s4 = Ok (map a kx, s4)).
  { unfold vadjs, mget. rewrite (live_adjs s4 _ kx R4 BX). reflexivity. }
  assert (GO : gradient (fun xv => call_fn1 f (env ++ xv)) (xs : list (@F N)) s =
    mbind end_nested (fun _ => mret (gval g3 k :: map a kx)) s4).
  { unfold gradient. rewrite (mbind_ok _ _ _ _ _ E1), (mbind_ok _ _ _ _ _ E2).
    assert (E3' : call_fn1 f (env ++ map hd kx) s2 = Ok (hd k, s3)).
    { unfold call_fn1. rewrite (mbind_ok _ _ _ _ _ E3). reflexivity. }
    rewrite (mbind_ok _ _ _ _ _ E3'), (mbind_ok _ _ _ _ _ EV), (mbind_ok _ _ _ _ _ EG), (mbind_ok _ _ _ _ _ EA). reflexivity. }
  rewrite GO. split; intros HE.
  - unfold mbind. rewrite (end_full s4 _ m r R4 NE (FF HE)). reflexivity.
  - destruct (end_fits s4 _ m r R4 NE (FN HE)) as (s5 & E5 & _). rewrite (mbind_ok _ _ _ _ _ E5). unfold mret. eauto.
Qed.

Theorem jacobian_runs s env (ws xs : list R) (f : @fn N) : @practical N C -> (exists g : graph, Rel s g /\ sound g) ->
  s_lvl s < 10 -> Forall (alive s) env -> mapM (var_val s) env = Ok ws -> fdom f (ws ++ xs) -> fregs f (ws ++ xs) ->
  fval f (ws ++ xs) <> [] -> roomy s (6 * zlen xs + fwords f (ws ++ xs)) ->
  (exactly_full s (6 * zlen xs + fwords f (ws ++ xs)) ->
     jacobian (fun xv => call_fn f (env ++ xv)) (xs : list (@F N)) s = Undef OutOfBounds) /\
  (~ exactly_full s (6 * zlen xs + fwords f (ws ++ xs)) ->
     exists r s', jacobian (fun xv => call_fn f (env ++ xv)) (xs : list (@F N)) s = Ok (r, s')).
Proof.
  intros HP (g & R0 & HG) HL HA HW HD HR HY HM. pose proof HP as [HC HJ].
  destruct (block_go s g env ws xs f HP R0 HG HL HA HW HD HR HM)
    as (s1 & xv & s2 & ks & s3 & g3 & m & r & kx & E1 & E2 & E3 & R3 & G3 & NE & BK & LK & -> & BX & T3 & P3).
  assert (R3' : Rel s3 (set_gadj g3 (g_adj g3))) by (destruct g3; exact R3).
  destruct (rows_run HJ g3 m r kx G3 NE BX ks s3 (g_adj g3) R3' BK) as (gs & s4 & a & EG & R4).
  assert (NZ : (0 < gsize g3)%nat).
  { destruct ks as [|k ks]; [destruct (fval f (ws ++ xs)); [congruence|discriminate]|]. inversion BK; subst; lia. }
  destruct (filled HC s g s4 (set_gadj g3 a) _ R0 R4 T3 P3 NZ) as [FF FN].
  pose proof (live_vals s3 g3 ks R3 BK) as EV.
  assert (GO : jacobian (fun xv => call_fn f (env ++ xv)) (xs : list (@F N)) s =
    mbind end_nested (fun _ => mret (map (fun p => fst p :: snd p) (combine (map (gval g3) ks) gs))) s4).
  { unfold jacobian. rewrite (mbind_ok _ _ _ _ _ E1), (mbind_ok _ _ _ _ _ E2), (mbind_ok _ _ _ _ _ E3), (mbind_ok _ _ _ _ _ EV), (mbind_ok _ _ _ _ _ EG). reflexivity. }
  rewrite GO. split; intros HE.
  - unfold mbind. rewrite (end_full s4 _ m r R4 NE (FF HE)). reflexivity.
  - destruct (end_fits s4 _ m r R4 NE (FN HE)) as (s5 & E5 & _). rewrite (mbind_ok _ _ _ _ _ E5). unfold mret. eauto.
Qed.

(* both together *)
Theorem gradient_complete s env (ws xs : list R) (f : @fn N) : @practical N C -> (exists g : graph, Rel s g /\ sound g) ->
  s_lvl s < 10 -> Forall (alive s) env -> mapM (var_val s) env = Ok ws -> fdom f (ws ++ xs) -> fregs f (ws ++ xs) ->
  fval f (ws ++ xs) <> [] -> roomy s (6 * zlen xs + fwords f (ws ++ xs)) -> ~ exactly_full s (6 * zlen xs + fwords f (ws ++ xs)) ->
  exists v ds s', gradient (fun xv => call_fn1 f (env ++ xv)) (xs : list (@F N)) s = Ok (v :: ds, s') /\
    nth_error (fval f (ws ++ xs)) 0 = Some v /\ length ds = length xs /\
    forall i, (i < length xs)%nat ->
      is_derive (fun t => nth 0 (fval f (ws ++ hold i t 0 xs)) 0%R) (nth i xs 0%R) (nth i ds 0%R).
Proof.
  intros HP HV HL HA HW HD HR HY HM HE.
  destruct (proj2 (gradient_runs s env ws xs f HP HV HL HA HW HD HR HY HM) HE) as (r & s' & E).
  destruct (gradient_branch s env ws xs f r s' HP HV HA HW HD E) as (v & ds & -> & H). exists v, ds, s'. auto.
Qed.

Theorem jacobian_complete s env (ws xs : list R) (f : @fn N) : @practical N C -> (exists g : graph, Rel s g /\ sound g) ->
  s_lvl s < 10 -> Forall (alive s) env -> mapM (var_val s) env = Ok ws -> fdom f (ws ++ xs) -> fregs f (ws ++ xs) ->
  fval f (ws ++ xs) <> [] -> roomy s (6 * zlen xs + fwords f (ws ++ xs)) -> ~ exactly_full s (6 * zlen xs + fwords f (ws ++ xs)) ->
  exists r s', jacobian (fun xv => call_fn f (env ++ xv)) (xs : list (@F N)) s = Ok (r, s') /\
    length r = length (fval f (ws ++ xs)) /\
    forall a v, nth_error (fval f (ws ++ xs)) a = Some v ->
      exists ds, nth_error r a = Some (v :: ds) /\ length ds = length xs /\
        forall i, (i < length xs)%nat ->
          is_derive (fun t => nth a (fval f (ws ++ hold i t 0 xs)) 0%R) (nth i xs 0%R) (nth i ds 0%R).
Proof.
  intros HP HV HL HA HW HD HR HY HM HE.
  destruct (proj2 (jacobian_runs s env ws xs f HP HV HL HA HW HD HR HY HM) HE) as (r & s' & E).
  exists r, s'. split; auto. exact (jacobian_branch s env ws xs f r s' HP HV HA HW HD E).
Qed.
End RunReal.
