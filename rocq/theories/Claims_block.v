(* Lemmas behind C37-C40 in exact arithmetic: gradient, jacobian, grad_nested. *)
From Verif Require Import TapeFacts.
From Coq Require Import ZifyBool ZifyNat.
From Verif Require Export Claims_call Nested.
Local Open Scope R_scope.

Section BlockAny.
Context {N : Num} {C : Cfg N}.

Lemma sound_begin (g g1 : graph) : sound g -> abegin g = Some g1 -> sound g1 /\ gsize g1 = gsize g /\
  (forall k, gval g1 k = gval g k) /\ (forall k, g_adj g1 k = g_adj g k) /\
  g_nest g1 = mkMark (gsize g) (length (g_arrs g)) (g_top g) :: g_nest g.
Proof.
  unfold abegin. destruct (Nat.ltb _ _); [|discriminate]. intros HG E. apply some_eq in E. subst g1. unfold sound, unnest in *.
  cbn [g_nodes g_adj g_arrs g_ch g_top g_peak g_nest]. split; [exact HG|]. split; auto.
Qed.

Lemma zero_adj_sound (g : graph) f : sound g -> sound (set_gadj g f).
Proof. intros HG. apply (good_set_gadj (unnest g)). exact HG. Qed.
End BlockAny.

Section ClaimsBlock.
Context {lg : R -> R} {C : Cfg (RNum lg)}.
Notation N := (RNum lg).
Notation graph := (@graph N).

(* a sweep started when the adjoints of the block are zero *)
Lemma block_grad (HJ : exists j, @junk N C = Some j) s (g : graph) n0 k : Rel s g -> sound g -> (k < gsize g)%nat ->
  (forall i, (n0 <= i < gsize g)%nat -> g_adj g i = 0) ->
  exists s2 f, grad (hd k) s = Ok (tt, s2) /\ Rel s2 (set_gadj g f) /\
    forall j, (n0 <= j < gsize g)%nat -> f j = tau g 0 j k.
Proof.
  intros R0 HG Hk HZ. destruct (sound_sweep HJ g HG (gsize g) 0 ltac:(lia) (nupd (g_adj g) k f1)) as (g2 & E2).
  assert (EG : agrad k g = Some g2).
  { unfold agrad. replace (Nat.ltb k (gsize g)) with true by lia. exact E2. }
  destruct (grad_ok s g k g2 R0 EG) as (s2 & E3 & R2). pose proof (r_wf _ _ R0) as W.
  pose proof (asweep_form _ _ _ _ E2) as [f ->]. exists s2, f. split; auto. split; auto.
  intros j Hj. etransitivity; [apply (grad_tau g k _ j W EG); lia|].
  rewrite (sumn_one _ k); auto.
  - unfold nupd. rewrite Nat.eqb_refl. apply Rmult_1_l.
  - intros i Hi Hne. unfold nupd. replace (Nat.eqb i k) with false by lia.
    destruct (Nat.ltb_spec i j).
    + rewrite (tau_below g 0 j i W) by auto. apply Rmult_0_r.
    + assert (EZ : g_adj g i = 0) by (apply HZ; lia). rewrite EZ. apply Rmult_0_l.
Qed.

(* where the independent variables of a program sit in its register file *)
Lemma leaf_regs (HC : cfg_ok C) s (g : graph) ke xs (q : list (@op N)) env' s' i : Rel s g -> sound g ->
  Forall (fun k => (k < gsize g)%nat) ke -> prog_ok' q -> exec (leaves xs ++ q) (map hd ke) s = Ok (env', s') -> (i < length xs)%nat ->
  nth_error env' (length ke + i) = Some (hd (gsize g + i)) /\
  (forall r, (r < length ke + i)%nat -> nth_error env' r <> Some (hd (gsize g + i))) /\
  ~ alive s (hd (gsize g + i)) /\ var_val s' (hd (gsize g + i)) = Ok (nth i xs 0) /\
  exists xv s1, @new_var_vals N C xs s = Ok (xv, s1) /\ exec q (map hd ke ++ xv) s1 = Ok (env', s') /\ xv = map hd (seq (gsize g) (length xs)).
Proof.
  intros R0 HG HB HO HX Hx. rewrite exec_leaves in HX. unfold mbind in HX.
  destruct (@new_var_vals N C xs s) as [[xv s1]| | |] eqn:EL; try discriminate. cbn [bind] in HX.
  destruct (leaf_run HC xs s g xv s1 R0 HG EL) as (g1 & R1 & G1 & GR1 & EX & SZ & VL).
  assert (LX : @length R xs = @length (@F N) xs) by reflexivity.
  assert (HB1 : Forall (fun k => (k < gsize g1)%nat) (ke ++ seq (gsize g) (length xs))).
  { apply Forall_app. split; [eapply Forall_impl; [|exact HB]; cbv beta; lia|]. apply Forall_forall. intros k Hk. apply in_seq in Hk. lia. }
  pose proof HX as HX1. rewrite EX in HX. rewrite <- map_app in HX.
  destruct (prog_run HC q s1 g1 _ env' s' R1 G1 HB1 HO HX) as (l & gf & Rf & Gf & GRf & Ef & Bf).
  assert (Ex : nth_error env' (length ke + i) = Some (hd (gsize g + i))).
  { rewrite Ef, nth_error_map, <- app_assoc. rewrite nth_error_app2 by lia. replace (length ke + i - length ke)%nat with i by lia.
    rewrite nth_error_app1 by (rewrite seq_length; lia).
    rewrite (nth_error_nth' _ O) by (rewrite seq_length; lia). rewrite seq_nth by auto. reflexivity. }
  split; auto. split.
  { intros r Hr E. rewrite Ef, nth_error_map, <- app_assoc in E.
    destruct (Nat.ltb_spec r (length ke)) as [L|L].
    - rewrite nth_error_app1 in E by auto. destruct (nth_error ke r) as [k|] eqn:Ek; [|discriminate]. cbn [option_map] in E.
      rewrite Forall_forall in HB. specialize (HB k (nth_error_In _ _ Ek)). cbv beta in HB.
      assert (hd k = hd (gsize g + i)) by congruence. unfold hd in *. lia.
    - rewrite nth_error_app2, nth_error_app1 in E by (rewrite ?seq_length; lia).
      rewrite (nth_error_nth' _ O) in E by (rewrite seq_length; lia). rewrite seq_nth in E by lia. cbn [option_map] in E.
      assert (hd (gsize g + (r - length ke)) = hd (gsize g + i)) by congruence. unfold hd in *. lia. }
  split.
  { unfold alive. rewrite (r_head _ _ R0). unfold hd. lia. }
  split.
  { rewrite (rel_var_val s' gf Rf) by (pose proof (grows_size _ _ GRf); lia).
    rewrite (grows_gval g1 gf _ GRf) by lia. f_equal.
    assert (EN : nth i (map (gval g1) (seq (gsize g) (length xs))) 0 = nth i xs 0) by (f_equal; exact VL).
    rewrite (nth_map_in (gval g1) (seq (gsize g) (length xs)) i 0 O) in EN by (rewrite seq_length; auto).
    rewrite seq_nth in EN by auto. exact EN. }
  exists xv, s1. auto.
Qed.

(* state inside the block after the new variables are declared and the body has
   run, seen from the i-th of them *)
Lemma block_body s (g : graph) env ws xs (q : list (@op N)) s1 xv s2 env' s3 : @practical N C -> Rel s g -> sound g ->
  Forall (alive s) env -> mapM (var_val s) env = Ok ws -> prog_dom q (ws ++ xs) ->
  begin_nested s = Ok (tt, s1) -> @new_var_vals N C xs s1 = Ok (xv, s2) -> exec q (env ++ xv) s2 = Ok (env', s3) ->
  exists (g1 g3 : graph) ke', Rel s1 g1 /\ abegin g = Some g1 /\ grows g1 g3 /\ Rel s3 g3 /\ sound g3 /\
    xv = map hd (seq (gsize g) (length xs)) /\ env' = map hd ke' /\ (gsize g + length xs <= gsize g3)%nat /\
    Forall (fun k => (k < gsize g3)%nat) ke' /\ map (gval g3) ke' = eval q (ws ++ xs) /\
    forall i, (i < length xs)%nat -> exists g4 fs, Rel s3 g4 /\ sound g4 /\ tracks (gsize g + i) (nth i xs 0) g4 fs ke' /\
      grows g1 g4 /\ forall t, eval q (ws ++ hold i t 0 xs) = map (fun f : R -> R => f t) fs.
Proof.
  intros HP R0 HG HA HW HD EB EV EX. pose proof HP as [HC HJ].
  destruct (abegin g) as [g1|] eqn:AB; [|rewrite (begin_deep s g R0 AB) in EB; discriminate].
  destruct (begin_ok s g g1 R0 AB) as (s1' & EB' & R1). assert (s1' = s1) by congruence. subst s1'. clear EB'.
  destruct (sound_begin g g1 HG AB) as (G1 & SZ & VV & AV & NE).
  assert (LX : @length R xs = @length (@F N) xs) by reflexivity.
  destruct (alive_nodes s g env R0 HA) as (ke & -> & HB).
  rewrite (vals_nodes s g ke R0 HB) in HW. assert (EW : ws = map (gval g) ke) by congruence. clear HW.
  assert (HB1 : Forall (fun k => (k < gsize g1)%nat) ke) by (rewrite SZ; exact HB).
  assert (EW1 : ws = map (gval g1) ke) by (rewrite EW; apply map_ext; intros; symmetry; apply VV).
  assert (HX : exec (leaves xs ++ q) (map hd ke) s1 = Ok (env', s3)).
  { rewrite exec_leaves. unfold mbind. change (list (@F N)) with (list R) in *. rewrite EV. cbn [bind]. exact EX. }
  pose proof (prog_dom_leaves q xs ws HD) as HD'.
  assert (HA1 : Forall (alive s1) (map hd ke)).
  { apply Forall_forall. intros h Hh. apply in_map_iff in Hh. destruct Hh as (k & <- & Hk). rewrite Forall_forall in HB1.
    apply (node_alive s1 g1 k R1). auto. }
  assert (HW1 : mapM (var_val s1) (map hd ke) = Ok ws) by (rewrite EW1; apply vals_nodes; auto).
  pose proof HD' as HD2. rewrite EW1 in HD2.
  destruct (prog_values HC (leaves xs ++ q) s1 g1 ke env' s3 R1 G1 HB1 HD2 HX) as (g3 & ke' & R3 & G3 & GR & EE & B3 & EVV & _).
  exists g1, g3, ke'. split; auto. split; auto. split; auto. split; auto. split; auto.
  assert (HO : prog_ok' q) by (eapply prog_dom_ok; eauto).
  destruct (leaf_run HC xs s1 g1 xv s2 R1 G1 EV) as (g2 & R2 & G2 & GR2 & EXV & SZ2 & _).
  rewrite SZ in EXV, SZ2. split; auto. split; auto. split.
  { assert (HB2 : Forall (fun k => (k < gsize g2)%nat) (ke ++ seq (gsize g) (length xs))).
    { apply Forall_app. split; [eapply Forall_impl; [|exact HB]; cbv beta; lia|]. apply Forall_forall. intros k Hk. apply in_seq in Hk. lia. }
    rewrite EXV, <- map_app in EX.
    destruct (prog_run HC q s2 g2 _ env' s3 R2 G2 HB2 HO EX) as (l & gf & Rf & Gf & GRf & Ef & Bf).
    pose proof (grows_size _ _ GRf). pose proof (r_head _ _ Rf). pose proof (r_head _ _ R3). lia. }
  split; auto. split.
  { rewrite <- EVV, <- EW1. rewrite eval_leaves. reflexivity. }
  intros i Hi. destruct (leaf_regs HC s1 g1 ke xs q env' s3 i R1 G1 HB1 HO HX Hi) as (Q1 & Q2 & Q3 & Q4 & _). rewrite SZ in *.
  destruct (run_tracks_at s1 g1 (map hd ke) ws (leaves xs ++ q) env' s3 (length ke + i) _ HP R1 G1 HA1 HW1 HD' HX Q1 Q3 Q2)
    as (g4 & ke4 & fs & j & t0 & R4 & G4 & Ej & Hj & Hv & E4 & T & EV4 & _ & GR4 & _).
  assert (j = (gsize g + i)%nat) by (unfold hd in Ej; lia). subst j.
  assert (ke4 = ke').
  { rewrite E4 in EE. clear - EE. revert ke' EE. induction ke4 as [|a l IH]; intros [|b l2] E; cbn [map] in E; try discriminate; auto.
    inversion E. f_equal; [unfold hd in *; lia|auto]. }
  subst ke4. assert (E0 : @Ok R t0 = Ok (nth i xs 0)) by (etransitivity; [symmetry; exact Hv|exact Q4]).
  assert (t0 = nth i xs 0) by congruence. subst t0.
  exists g4, fs. split; auto. split; auto. split; auto. split; auto.
  intros t. rewrite <- EV4. rewrite eval_with_leaves.
  assert (LW : length ws = length ke) by (rewrite EW; apply map_length).
  assert (LW1 : @length R ws = length ke) by exact LW.
  rewrite eval_with_late.
  - rewrite <- LW1, hold_shift. reflexivity.
  - rewrite app_length, hold_len. lia.
Qed.

(* C37 *)
Theorem gradient_ok s env ws xs (q : list (@op N)) y r s' : @practical N C -> (exists g : graph, Rel s g /\ sound g) ->
  Forall (alive s) env -> mapM (var_val s) env = Ok ws -> prog_dom q (ws ++ xs) ->
  gradient (user_fn q env y) (xs : list (@F N)) s = Ok (r, s') ->
  exists ds, r = nth y (eval q (ws ++ xs)) 0 :: ds /\ length ds = length xs /\
    forall i, (i < length xs)%nat ->
      is_derive (fun t => nth y (eval q (ws ++ hold i t 0 xs)) 0) (nth i xs 0) (nth i ds 0).
Proof.
  intros HP (g & R0 & HG) HA HW HD HX. pose proof HP as [HC HJ].
  destruct (gradient_inv _ _ _ _ _ HX) as (s1 & xv & s2 & fv & s3 & v & s4 & ds & E1 & E2 & E3 & E4 & E5 & E6 & E7 & ->).
  destruct (body_inv _ _ _ _ _ _ _ E3) as (env' & X1 & X2).
  destruct (block_body s g env ws xs q s1 xv s2 env' s3 HP R0 HG HA HW HD E1 E2 X1)
    as (g1 & g3 & ke' & R1 & AB & GR & R3 & G3 & EXV & -> & SZ & B3 & EVV & TR).
  destruct (sound_begin g g1 HG AB) as (G1 & SZ1 & VV & AV & NE).
  assert (LX : @length R xs = @length (@F N) xs) by reflexivity.
  rewrite nth_error_map in X2. destruct (nth_error ke' y) as [k|] eqn:Ey; [|discriminate]. cbn [option_map] in X2.
  assert (Efv : fv = hd k) by congruence. subst fv.
  assert (Hk : (k < gsize g3)%nat) by (rewrite Forall_forall in B3; apply B3; eapply nth_error_In; eauto).
  assert (LD : length ds = length xv) by (clear - E6; revert ds E6; induction xv as [|h xv IH]; intros ds E6; cbn [mapM] in E6;
    [assert (ds = []) by congruence; subst; auto|]; destruct (var_adj s4 h); try discriminate; cbn [bind] in E6;
    destruct (mapM (var_adj s4) xv) as [l| | |] eqn:EM; try discriminate; cbn [bind] in E6; assert (ds = a :: l) by congruence; subst;
    cbn [length]; f_equal; auto).
  assert (LDX : @length R ds = length xs) by (etransitivity; [exact LD|]; rewrite EXV, map_length, seq_length; reflexivity).
  exists ds. split.
  { f_equal. rewrite (rel_var_val s3 g3 R3 k Hk) in E4. assert (EV0 : v = gval g3 k) by congruence. rewrite EV0, <- EVV.
    symmetry. apply nth_error_nth. rewrite nth_error_map, Ey. reflexivity. }
  split; auto. intros i Hi. destruct (TR i Hi) as (g4 & fs & R4 & G4 & T & GR4 & EV4).
  destruct (Forall2_nth_r _ _ _ _ _ (fun _ => 0) T Ey) as [Hk4 [_ D]].
  pose proof (r_head _ _ R3) as H3. pose proof (r_head _ _ R4) as H4. assert (SZ4 : gsize g4 = gsize g3) by lia.
  assert (ZA : forall a, (gsize g <= a < gsize g4)%nat -> g_adj g4 a = 0).
  { intros a Ha. apply (gr_new _ _ GR4). lia. }
  destruct (block_grad HJ s3 g4 (gsize g) k R4 G4 Hk4 ZA) as (s4' & f & EG & RG & HF).
  assert (s4' = s4) by congruence. subst s4'.
  assert (ED : nth i ds 0 = tau g4 0 (gsize g + i) k).
  { rewrite <- HF by lia.
    assert (EM : mapM (var_adj s4) xv = Ok (map f (seq (gsize g) (length xs)))).
    { rewrite EXV. clear - RG SZ SZ4 LX. assert (HH : Forall (fun a => (a < gsize g4)%nat) (seq (gsize g) (length xs))).
      { apply Forall_forall. intros a Ha. apply in_seq in Ha. lia. }
      induction HH as [|a l Ha _ IH]; cbn [map mapM]; auto. rewrite (rel_var_adj s4 _ RG a Ha). cbn [bind]. rewrite IH. reflexivity. }
    assert (EDS : ds = map f (seq (gsize g) (length xs))) by congruence. rewrite EDS.
    rewrite (nth_map_in f _ i 0 O) by (rewrite seq_length; lia). rewrite seq_nth by lia. reflexivity. }
  apply (eq_ind (tau g4 0 (gsize g + i) k) (fun d : R => is_derive (fun t => nth y (eval q (ws ++ hold i t 0 xs)) 0) (nth i xs 0) d)); [|symmetry; exact ED].
  eapply deriv_ext; [|exact D]. intros t. cbv beta. rewrite EV4.
  rewrite <- (map_nth (fun c : R -> R => c t) fs (fun _ => 0)). reflexivity.
Qed.

Lemma mapM_len {A B} (f : A -> res B) l : forall r, mapM f l = Ok r -> length r = length l.
Proof.
  induction l as [|a l IH]; intros r H; cbn [mapM] in H; [assert (r = []) by congruence; subst; auto|].
  destruct (f a); try discriminate; cbn [bind] in H. destruct (mapM f l) as [u| | |]; try discriminate. cbn [bind] in H.
  assert (r = a0 :: u) by congruence. subst. cbn [length]. f_equal. auto.
Qed.

Lemma rows_ok (HJ : exists j, @junk N C = Some j) (g4 : graph) n0 a0 top0 rest (xs : list R) :
  sound g4 -> g_nest g4 = mkMark n0 a0 top0 :: rest -> (n0 + length xs <= gsize g4)%nat ->
  forall ks s gs s' f, Rel s (set_gadj g4 f) -> Forall (fun k => (k < gsize g4)%nat) ks ->
  rows (map hd (seq n0 (length xs))) (map hd ks) s gs s' ->
  Forall2 (fun k (row : list R) => row = map (fun i => tau g4 0 (n0 + i) k) (seq 0 (length xs))) ks gs /\
  exists f', Rel s' (set_gadj g4 f').
Proof.
  intros HG HN SZ. induction ks as [|k ks IH]; intros s gs s' f R0 HB HR; cbn [map rows] in HR.
  - destruct gs; [|tauto]. subst. split; [constructor|eauto].
  - destruct gs as [|row gs]; [tauto|]. destruct HR as (s1 & s2 & E1 & E2 & E3 & HR). inversion HB as [|? ? Hk HB']; subst.
    destruct (zero_nested_ok s (set_gadj g4 f) _ _ R0 HN) as (s1' & E1' & R1). assert (s1' = s1) by congruence. subst s1'.
    cbn [mk_n] in R1. set (g5 := azero_from n0 (set_gadj g4 f)) in *.
    assert (G5 : sound g5) by (do 2 apply zero_adj_sound; exact HG).
    assert (ZA : forall a, (n0 <= a < gsize g5)%nat -> g_adj g5 a = 0).
    { intros a Ha. unfold g5, azero_from. cbn [set_gadj g_adj]. change (gsize (set_gadj g4 f)) with (gsize g5).
      replace (Nat.leb n0 a) with true by lia. replace (Nat.ltb a (gsize g5)) with true by lia. reflexivity. }
    destruct (block_grad HJ s1 g5 n0 k R1 G5 Hk ZA) as (s2' & f2 & E2' & R2 & HF). assert (s2' = s2) by congruence. subst s2'.
    destruct (IH s2 gs s' f2 R2 HB' HR) as [I1 I2]. split; auto. constructor; auto.
    assert (EM : mapM (var_adj s2) (map hd (seq n0 (length xs))) = Ok (map f2 (seq n0 (length xs)))).
    { clear - R2 SZ. assert (HH : Forall (fun a => (a < gsize g5)%nat) (seq n0 (length xs))).
      { apply Forall_forall. intros a Ha. apply in_seq in Ha. change (gsize g5) with (gsize g4). lia. }
      induction HH as [|a l Ha _ IH]; cbn [map mapM]; auto. rewrite (rel_var_adj s2 _ R2 a Ha). cbn [bind]. rewrite IH. reflexivity. }
    assert (ER : @Ok (list R) row = Ok (map f2 (seq n0 (length xs)))) by (etransitivity; [symmetry; exact E3|exact EM]).
    assert (ER' : row = map f2 (seq n0 (length xs))) by congruence. rewrite ER'. clear - HF SZ.
    assert (SH : seq n0 (length xs) = map (fun i => (n0 + i)%nat) (seq 0 (length xs))).
    { generalize (length xs). intros n. generalize n0. induction n as [|n IH]; intros a; cbn [seq map]; auto.
      rewrite Nat.add_0_r. f_equal. rewrite IH, <- (seq_shift n 0), map_map. apply map_ext. intros; lia. }
    rewrite SH, map_map. apply map_ext_in. intros i Hi. apply in_seq in Hi. change (gsize g5) with (gsize g4) in HF.
    rewrite HF by lia. etransitivity; [apply (tau_zero_adj (set_gadj g4 f))|]. apply tau_zero_adj.
Qed.

(* C39 *)
Theorem jacobian_ok s env ws xs (q : list (@op N)) ys r s' : @practical N C -> (exists g : graph, Rel s g /\ sound g) ->
  Forall (alive s) env -> mapM (var_val s) env = Ok ws -> prog_dom q (ws ++ xs) ->
  jacobian (user_fns q env ys) (xs : list (@F N)) s = Ok (r, s') ->
  length r = length ys /\ forall a y, nth_error ys a = Some y ->
    exists ds, nth_error r a = Some (nth y (eval q (ws ++ xs)) 0 :: ds) /\ length ds = length xs /\
      forall i, (i < length xs)%nat ->
        is_derive (fun t => nth y (eval q (ws ++ hold i t 0 xs)) 0) (nth i xs 0) (nth i ds 0).
Proof.
  intros HP (g & R0 & HG) HA HW HD HX. pose proof HP as [HC HJ].
  destruct (jacobian_inv _ _ _ _ _ HX) as (s1 & xv & s2 & fv & s3 & vs & gs & s4 & E1 & E2 & E3 & E4 & E5 & E6 & ->).
  destruct (bodies_inv _ _ _ _ _ _ _ E3) as (env' & X1 & X2).
  destruct (block_body s g env ws xs q s1 xv s2 env' s3 HP R0 HG HA HW HD E1 E2 X1)
    as (g1 & g3 & ke' & R1 & AB & GR & R3 & G3 & EXV & -> & SZ & B3 & EVV & TR).
  destruct (sound_begin g g1 HG AB) as (G1 & SZ1 & VV & AV & NE).
  assert (LX : @length R xs = @length (@F N) xs) by reflexivity.
  assert (FK : exists ks, fv = map hd ks /\ Forall2 (fun y k => nth_error ke' y = Some k) ys ks).
  { clear - X2. induction X2 as [|y h ys hs E _ (ks & -> & IH)]; [exists []; split; auto|].
    rewrite nth_error_map in E. destruct (nth_error ke' y) as [k|] eqn:Ek; [|discriminate]. cbn [option_map] in E.
    exists (k :: ks). split; [cbn [map]; congruence|]. constructor; auto. }
  destruct FK as (ks & -> & FK). clear X2.
  assert (BK : Forall (fun k => (k < gsize g3)%nat) ks).
  { clear - FK B3. induction FK as [|y k ys ks E _ IH]; constructor; auto. rewrite Forall_forall in B3. apply B3. eapply nth_error_In; eauto. }
  assert (LK : length ks = length ys) by (clear - FK; induction FK; cbn [length]; auto).
  pose proof (vals_nodes s3 g3 ks R3 BK) as EVS. assert (EVS' : vs = map (gval g3) ks) by congruence. clear EVS E4.
  assert (ROWS : forall g4, Rel s3 g4 -> sound g4 -> grows g1 g4 ->
     Forall2 (fun k (row : list R) => row = map (fun i => tau g4 0 (gsize g + i) k) (seq 0 (length xs))) ks gs).
  { intros g4 R4 G4 GR4. pose proof (r_head _ _ R3) as H3. pose proof (r_head _ _ R4) as H4.
    assert (SZ4 : gsize g4 = gsize g3) by lia.
    assert (R4' : Rel s3 (set_gadj g4 (g_adj g4))) by (destruct g4; exact R4).
    rewrite EXV in E5.
    apply (rows_ok HJ g4 (gsize g) (length (g_arrs g)) (g_top g) (g_nest g) xs G4
      (eq_trans (gr_nest _ _ GR4) NE) ltac:(lia) ks s3 gs s4 (g_adj g4) R4').
    - rewrite SZ4. exact BK.
    - exact E5. }
  pose proof (ROWS g3 R3 G3 GR) as RW3.
  assert (LG : length gs = length ks) by (clear - RW3; induction RW3; cbn [length]; auto).
  assert (LV : length vs = length ks) by (rewrite EVS'; apply map_length).
  split; [rewrite map_length, combine_length; lia|].
  intros a y Ha. pose proof (nth_error_lt _ _ _ Ha) as La.
  assert (Hk : exists k, nth_error ks a = Some k /\ nth_error ke' y = Some k).
  { clear - FK Ha. revert a Ha. induction FK as [|y0 k ys ks E _ IH]; intros a Ha; [destruct a; discriminate|].
    destruct a as [|a]; cbn [nth_error] in *; [assert (y0 = y) by congruence; subst; eauto|auto]. }
  destruct Hk as (k & Ka & Ky).
  exists (map (fun i => tau g3 0 (gsize g + i) k) (seq 0 (length xs))). split; [|split].
  - rewrite nth_error_map.
    assert (EC : nth_error (combine vs gs) a = Some (gval g3 k, map (fun i => tau g3 0 (gsize g + i) k) (seq 0 (length xs)))).
    { rewrite EVS'. clear - RW3 Ka. revert a Ka. induction RW3 as [|k0 row ks gs E _ IH]; intros a Ka; [destruct a; discriminate|].
      destruct a as [|a]; cbn [map combine nth_error] in *; [assert (k0 = k) by congruence; subst; reflexivity|auto]. }
    assert (EVY : nth y (eval q (ws ++ xs)) 0 = gval g3 k).
    { rewrite <- EVV. apply nth_error_nth. rewrite nth_error_map, Ky. reflexivity. }
    rewrite EC. cbn [option_map fst snd]. rewrite EVY. reflexivity.
  - rewrite map_length, seq_length. reflexivity.
  - intros i Hi. destruct (TR i Hi) as (g4 & fs & R4 & G4 & T & GR4 & EV4).
    destruct (Forall2_nth_r _ _ _ _ _ (fun _ => 0) T Ky) as [Hk4 [_ D]].
    pose proof (ROWS g4 R4 G4 GR4) as RW4.
    assert (ED : nth i (map (fun i => tau g3 0 (gsize g + i) k) (seq 0 (length xs))) 0 = tau g4 0 (gsize g + i) k).
    { assert (EQ : map (fun i => tau g3 0 (gsize g + i) k) (seq 0 (length xs)) = map (fun i => tau g4 0 (gsize g + i) k) (seq 0 (length xs))).
      { clear - RW3 RW4 Ka. revert a Ka RW4. induction RW3 as [|k0 row ks gs E _ IH]; intros a Ka RW4; [destruct a; discriminate|].
        inversion RW4; subst. destruct a as [|a]; cbn [nth_error] in Ka; [assert (k0 = k) by congruence; subst; auto|eapply IH; eauto]. }
      rewrite EQ. rewrite (nth_map_in _ (seq 0 (length xs)) i 0 O) by (rewrite seq_length; lia). rewrite seq_nth by lia. reflexivity. }
    apply (eq_ind (tau g4 0 (gsize g + i) k) (fun d : R => is_derive (fun t => nth y (eval q (ws ++ hold i t 0 xs)) 0) (nth i xs 0) d)); [|symmetry; exact ED].
    eapply deriv_ext; [|exact D]. intros t. cbv beta. rewrite EV4.
    rewrite <- (map_nth (fun c : R -> R => c t) fs (fun _ => 0)). reflexivity.
Qed.

(* ---- variables of the caller a block does not read ---- *)

(* no call of p has an operand whose variable is h; env' is the register file
   after p *)
Definition never_reads (p : list (@op N)) (env' : list Z) (h : Z) : Prop :=
  forall o r, In o p -> In r (op_regs o) -> nth_error env' r <> Some h.

Lemma prog_avoids (HC : cfg_ok C) j p : forall s (g : graph) ke env' s', Rel s g -> sound g ->
  Forall (fun k => (k < gsize g)%nat) ke -> prog_ok' p -> exec p (map hd ke) s = Ok (env', s') ->
  never_reads p env' (hd j) ->
  exists g' ke', Rel s' g' /\ sound g' /\ grows g g' /\ env' = map hd ke' /\ Forall (fun k => (k < gsize g')%nat) ke' /\
    (exists l, ke' = ke ++ l) /\
    forall k, (gsize g <= k < gsize g')%nat -> Forall (fun q => fst q <> j) (unit_eff g' k).
Proof.
  induction p as [|o p IH]; intros s g ke env' s' R0 HG HB HO HX HR.
  - cbn [exec] in HX. unfold mret in HX. assert (env' = map hd ke) by congruence. assert (s' = s) by congruence. subst.
    exists g, ke. split; auto. split; auto. split; [apply grows_refl|]. split; auto. split; auto. split; [exists []; rewrite app_nil_r; auto|]. intros; lia.
  - inversion HO as [|? ? [O1 O2] O3]; subst. cbn [exec] in HX. unfold mbind in HX.
    destruct (exec_op (map hd ke) o s) as [[hs s1]| | |] eqn:E; try discriminate. cbn [bind] in HX.
    destruct (op_run HC s g ke o hs s1 R0 HG HB O1 O2 E) as (kk & ks & g1 & EK & EX & R1 & G1 & GR1 & -> & B1).
    rewrite <- map_app in HX.
    assert (HR1 : never_reads p env' (hd j)) by (intros o' r H1 H2; apply (HR o' r); auto; right; auto).
    destruct (IH s1 g1 (ke ++ ks) env' s' R1 G1 B1 O3 HX HR1) as (g' & ke' & Q1 & Q2 & Q3 & Q4 & Q5 & (l & Q6) & Q7).
    exists g', ke'. split; auto. split; auto. split; [eapply grows_trans; eauto|]. split; auto. split; auto.
    split; [exists (ks ++ l); rewrite Q6, app_assoc; auto|].
    intros k Hk. destruct (Nat.ltb_spec k (gsize g1)) as [L|L]; [|apply Q7; lia].
    rewrite (grows_unit_eff g1 g' k (r_wf _ _ R1) Q3 L).
    destruct (op_frame _ _ _ _ _ O2 EX) as [_ [(M & k1 & -> & Hk1 & ->)|(Es & Sz)]]; [lia|].
    destruct (op_within g g1 ke o kk ks EK O2 EX) as [_ HW].
    assert (EQ : nth_error ks (k - gsize g) = Some k).
    { rewrite Es. rewrite (nth_error_nth' _ O) by (rewrite seq_length; lia). rewrite seq_nth by lia. f_equal. lia. }
    assert (NJ : ~ In j kk).
    { intros Hj. assert (HRo : forall r, In r (op_regs o) -> nth_error env' r <> Some (hd j)) by (intros r Hr; apply (HR o r); [left|]; auto).
      clear - EK Hj HRo Q4 Q6. rewrite Q4, Q6 in HRo. revert kk EK Hj HRo.
      induction (op_regs o) as [|r l0 IH]; intros kk EK Hj HRo; cbn [aregs] in EK; [apply some_eq in EK; subst; destruct Hj|].
      destruct (areg g ke r) as [k1|] eqn:E1; [|discriminate]. destruct (aregs g ke l0) as [k2|]; [|discriminate].
      apply some_eq in EK; subst. destruct Hj as [->|Hj].
      - apply (HRo r); [left; auto|]. unfold areg in E1. destruct (nth_error ke r) as [k3|] eqn:E3; [|discriminate].
        destruct (Nat.ltb k3 (gsize g)); [|discriminate]. apply some_eq in E1; subst k3.
        rewrite nth_error_map, <- app_assoc. rewrite nth_error_app1 by (apply nth_error_Some; congruence). rewrite E3. reflexivity.
      - apply (IH k2 eq_refl Hj). intros r' Hr'. apply HRo. right; auto. }
    destruct (HW _ _ EQ) as [(E1 & E2)|(_ & HU)]; [subst g1; lia|].
    eapply Forall_impl; [|exact HU]. cbv beta. intros q Hq Ej. apply NJ. rewrite <- Ej. exact Hq.
Qed.

Lemma tau_avoids (g : graph) n0 j : gwf g -> (j < n0)%nat ->
  (forall k, (n0 <= k < gsize g)%nat -> Forall (fun q => fst q <> j) (unit_eff g k)) ->
  forall k, (k < gsize g)%nat -> k <> j -> tau g n0 j k = 0.
Proof.
  intros W Hj HU k. induction k as [k IH] using (well_founded_induction Wf_nat.lt_wf). intros Hk Hne.
  rewrite tau_eq by auto. replace (Nat.eqb k j) with false by lia. destruct (Nat.ltb_spec k n0); auto.
  apply lsum_zero. intros q Hq. pose proof (unit_eff_lt g k W) as HL. rewrite Forall_forall in HL. specialize (HL q Hq). cbv beta in HL.
  assert (HN : Forall (fun q => fst q <> j) (unit_eff g k)) by (apply HU; lia). rewrite Forall_forall in HN. apply IH; try lia. apply HN; auto.
Qed.

(* C40, variables outside the block *)
Theorem nested_outer s env s1 (p : list (@op N)) env' s2 hs s3 hy hx : @practical N C -> (exists g : graph, Rel s g /\ sound g) ->
  Forall (alive s) env -> prog_ok' p -> begin_nested s = Ok (tt, s1) -> exec p env s1 = Ok (env', s2) ->
  Forall (alive s2) hs -> grads hs s2 = Ok (tt, s3) -> In hy env' -> alive s hx -> hx <> hy -> never_reads p env' hx ->
  exists s4, grad_nested hy s3 = Ok (tt, s4) /\ var_adj s4 hx = var_adj s3 hx /\ var_val s4 hx = var_val s hx.
Proof.
  intros HP (g & R0 & HG) HA HO EB EX HH EG Hy Hx Hne HR. pose proof HP as [HC HJ].
  destruct (abegin g) as [g1|] eqn:AB; [|rewrite (begin_deep s g R0 AB) in EB; discriminate].
  destruct (begin_ok s g g1 R0 AB) as (s1' & EB' & R1). assert (s1' = s1) by congruence. subst s1'. clear EB'.
  destruct (sound_begin g g1 HG AB) as (G1 & SZ & VV & AV & NE).
  destruct (alive_nodes s g env R0 HA) as (ke & -> & HB). destruct (alive_node s g hx R0 Hx) as (j & -> & Hj).
  assert (HB1 : Forall (fun k => (k < gsize g1)%nat) ke) by (rewrite SZ; exact HB).
  destruct (prog_avoids HC j p s1 g1 ke env' s2 R1 G1 HB1 HO EX HR) as (g2 & ke' & R2 & G2 & GR & -> & B2 & _ & HU).
  destruct (grads_run HJ hs s2 g2 R2 G2 HH) as (s3' & f & EG' & R3). assert (s3' = s3) by congruence. subst s3'.
  apply in_map_iff in Hy. destruct Hy as (k & <- & Hk). rewrite Forall_forall in B2. specialize (B2 k Hk). cbv beta in B2.
  pose proof (gr_nest _ _ GR) as NE2. rewrite NE in NE2. pose proof (grows_size _ _ GR) as SG.
  assert (ES : exists g4, asweep (gsize g) (gsize g2 - gsize g) (set_gadj g2 (nupd f k f1)) = Some g4).
  { apply (sound_sweep HJ g2 G2). lia. }
  destruct ES as (g4 & ES).
  assert (AN : agrad_nested k (set_gadj g2 f) = Some g4).
  { unfold agrad_nested. change (g_nest (set_gadj g2 f)) with (g_nest g2). rewrite NE2.
    change (gsize (set_gadj g2 f)) with (gsize g2). replace (Nat.ltb k (gsize g2)) with true by lia. cbn [mk_n]. exact ES. }
  destruct (grad_nested_ok s3 _ k g4 R3 AN) as (s4 & E4 & R4). exists s4. split; auto.
  assert (Hj2 : (j < gsize g2)%nat) by lia. pose proof (r_wf _ _ R2) as W.
  pose proof (asweep_form _ _ _ _ ES) as [f4 ->]. split.
  - rewrite (rel_var_adj s4 _ R4 j) by exact Hj2. rewrite (rel_var_adj s3 _ R3 j) by exact Hj2. f_equal.
    change (g_adj (set_gadj g2 f) j) with (f j).
    etransitivity; [apply (sweep_tau g2 (gsize g) (gsize g2 - gsize g) (nupd f k 1) _ j W ES); lia|].
    replace (gsize g + (gsize g2 - gsize g))%nat with (gsize g2) by lia.
    rewrite (sumn_one _ j); auto.
    + rewrite tau_self by auto. unfold nupd. destruct (Nat.eqb_spec j k) as [->|]; [exfalso; auto|]. apply Rmult_1_r.
    + intros i Hi Hij. rewrite (tau_avoids g2 (gsize g) j W Hj) by (auto; intros a Ha; apply HU; lia). apply Rmult_0_r.
  - rewrite (rel_var_val s4 _ R4 j) by exact Hj2. rewrite (rel_var_val s g R0 j Hj). f_equal.
    change (gval g2 j = gval g j). rewrite (grows_gval g1 g2 j GR) by lia. apply VV.
Qed.

(* programs that only see variables of the block *)
Lemma prog_inside (HC : cfg_ok C) n0 p : forall s (g : graph) ke env' s', Rel s g -> sound g -> (n0 <= gsize g)%nat ->
  Forall (fun k => (n0 <= k < gsize g)%nat) ke -> prog_ok' p -> exec p (map hd ke) s = Ok (env', s') ->
  exists g' ke', Rel s' g' /\ sound g' /\ grows g g' /\ env' = map hd ke' /\ Forall (fun k => (n0 <= k < gsize g')%nat) ke' /\
    forall i, (gsize g <= i < gsize g')%nat -> Forall (fun q => (n0 <= fst q)%nat) (unit_eff g' i).
Proof.
  induction p as [|o p IH]; intros s g ke env' s' R0 HG HN HB HO HX.
  - cbn [exec] in HX. unfold mret in HX. assert (env' = map hd ke) by congruence. assert (s' = s) by congruence. subst.
    exists g, ke. split; auto. split; auto. split; [apply grows_refl|]. split; auto. split; auto. intros; lia.
  - inversion HO as [|? ? [O1 O2] O3]; subst. cbn [exec] in HX. unfold mbind in HX.
    destruct (exec_op (map hd ke) o s) as [[hs s1]| | |] eqn:E; try discriminate. cbn [bind] in HX.
    assert (HB0 : Forall (fun k => (k < gsize g)%nat) ke) by (eapply Forall_impl; [|exact HB]; cbv beta; intros; lia).
    destruct (op_run HC s g ke o hs s1 R0 HG HB0 O1 O2 E) as (kk & ks & g1 & EK & EX & R1 & G1 & GR1 & -> & B1).
    rewrite <- map_app in HX. pose proof (grows_size _ _ GR1) as SG.
    assert (B2 : Forall (fun k => (n0 <= k < gsize g1)%nat) (ke ++ ks)).
    { apply Forall_app in B1. destruct B1 as [_ B1]. apply Forall_app. split; [eapply Forall_impl; [|exact HB]; cbv beta; intros; lia|].
      destruct (op_within g g1 ke o kk ks EK O2 EX) as [_ HW]. apply Forall_forall. intros k Hk.
      pose proof Hk as Hk2. rewrite Forall_forall in B1. specialize (B1 k Hk). cbv beta in B1. split; auto.
      apply In_nth_error in Hk2. destruct Hk2 as [q Hq]. destruct (HW q k Hq) as [(Ekk & _)|(E2 & _)]; [|lia].
      assert (Hin : In k ke).
      { clear - EK Ekk. rewrite Ekk in EK. clear Ekk. destruct (op_regs o) as [|r [|r2 l]]; cbn [aregs] in EK; try discriminate.
        - destruct (areg g ke r) as [k1|] eqn:E1; [|discriminate]. apply some_eq in EK. assert (k1 = k) by congruence. subst.
          unfold areg in E1. destruct (nth_error ke r) as [k3|] eqn:E3; [|discriminate].
          destruct (Nat.ltb k3 (gsize g)); [|discriminate]. apply some_eq in E1; subst. eapply nth_error_In; eauto.
        - destruct (areg g ke r); [|discriminate]. destruct (areg g ke r2); [|discriminate]. destruct (aregs g ke l); discriminate. }
      rewrite Forall_forall in HB. apply (HB k Hin). }
    destruct (IH s1 g1 (ke ++ ks) env' s' R1 G1 ltac:(lia) B2 O3 HX) as (g' & ke' & Q1 & Q2 & Q3 & Q4 & Q5 & Q6).
    exists g', ke'. split; auto. split; auto. split; [eapply grows_trans; eauto|]. split; auto. split; auto.
    intros k Hk. destruct (Nat.ltb_spec k (gsize g1)) as [L|L]; [|apply Q6; lia].
    rewrite (grows_unit_eff g1 g' k (r_wf _ _ R1) Q3 L).
    destruct (op_frame _ _ _ _ _ O2 EX) as [_ [(M & k1 & -> & Hk1 & ->)|(Es & Sz)]]; [lia|].
    destruct (op_within g g1 ke o kk ks EK O2 EX) as [_ HW].
    assert (EQ : nth_error ks (k - gsize g) = Some k).
    { rewrite Es. rewrite (nth_error_nth' _ O) by (rewrite seq_length; lia). rewrite seq_nth by lia. f_equal. lia. }
    assert (NJ : forall j, In j kk -> (n0 <= j)%nat).
    { clear - EK HB. revert kk EK. induction (op_regs o) as [|r l0 IH]; intros kk EK j Hj; cbn [aregs] in EK; [apply some_eq in EK; subst; destruct Hj|].
      destruct (areg g ke r) as [k1|] eqn:E1; [|discriminate]. destruct (aregs g ke l0) as [k2|]; [|discriminate].
      apply some_eq in EK; subst. destruct Hj as [->|Hj]; [|apply (IH k2 eq_refl _ Hj)].
      unfold areg in E1. destruct (nth_error ke r) as [k3|] eqn:E3; [|discriminate].
      destruct (Nat.ltb k3 (gsize g)); [|discriminate]. apply some_eq in E1; subst k3.
      rewrite Forall_forall in HB. apply (HB j). eapply nth_error_In; eauto. }
    destruct (HW _ _ EQ) as [(E1 & E2)|(_ & HU)]; [subst g1; lia|].
    eapply Forall_impl; [|exact HU]. cbv beta. intros q Hq. apply NJ. exact Hq.
Qed.

(* C38, positive part: values never change; zero adjoints of the caller's
   variables stay zero when the function does not read the caller's variables *)
Theorem gradient_keeps s xs (q : list (@op N)) y r s' : @practical N C -> (exists g : graph, Rel s g /\ sound g) ->
  prog_ok' q -> gradient (user_fn q [] y) (xs : list (@F N)) s = Ok (r, s') ->
  (forall h, alive s h -> var_adj s h = Ok 0) ->
  forall h, alive s h -> var_val s' h = var_val s h /\ var_adj s' h = Ok 0.
Proof.
  intros HP (g & R0 & HG) HO HX HZ h Hh. pose proof HP as [HC HJ].
  destruct (gradient_inv _ _ _ _ _ HX) as (s1 & xv & s2 & fv & s3 & v & s4 & ds & E1 & E2 & E3 & E4 & E5 & E6 & E7 & ->).
  destruct (body_inv _ _ _ _ _ _ _ E3) as (env' & X1 & X2). cbn [app] in X1.
  destruct (abegin g) as [g1|] eqn:AB; [|rewrite (begin_deep s g R0 AB) in E1; discriminate].
  destruct (begin_ok s g g1 R0 AB) as (s1' & EB' & R1). assert (s1' = s1) by congruence. subst s1'. clear EB'.
  destruct (sound_begin g g1 HG AB) as (G1 & SZ & VV & AV & NE).
  destruct (alive_node s g h R0 Hh) as (j & -> & Hj).
  assert (HX1 : exec (leaves xs ++ q) (map hd []) s1 = Ok (env', s3)).
  { rewrite exec_leaves. unfold mbind. change (list (@F N)) with (list R) in *. rewrite E2. cbn [bind map app]. exact X1. }
  assert (HO1 : prog_ok' (leaves xs ++ q)).
  { apply Forall_app. split; auto. unfold leaves. apply Forall_forall. intros o Ho. apply in_map_iff in Ho. destruct Ho as (x & <- & _). split; reflexivity. }
  destruct (prog_inside HC (gsize g) _ s1 g1 [] env' s3 R1 G1 ltac:(lia) (Forall_nil _) HO1 HX1) as (g3 & ke' & R3 & G3 & GR & -> & B3 & HU).
  assert (Hk : exists k, fv = hd k /\ (gsize g <= k < gsize g3)%nat).
  { rewrite nth_error_map in X2. destruct (nth_error ke' y) as [k|] eqn:Ey; [|discriminate]. exists k. cbn [option_map] in X2.
    split; [congruence|]. rewrite Forall_forall in B3. apply (B3 k (nth_error_In _ _ Ey)). }
  destruct Hk as (k & -> & Hk). pose proof (grows_size _ _ GR) as SG. pose proof (r_wf _ _ R3) as W.
  destruct (sound_sweep HJ g3 G3 (gsize g3) 0 ltac:(lia) (nupd (g_adj g3) k f1)) as (g4 & ES).
  assert (EG : agrad k g3 = Some g4) by (unfold agrad; replace (Nat.ltb k (gsize g3)) with true by lia; exact ES).
  destruct (grad_ok s3 g3 k g4 R3 EG) as (s4' & E5' & R4). assert (s4' = s4) by congruence. subst s4'.
  assert (AZ : forall i, (i < gsize g3)%nat -> g_adj g3 i = 0).
  { intros i Hi. destruct (Nat.ltb_spec i (gsize g)) as [L|L].
    - rewrite (gr_adj _ _ GR) by lia. rewrite AV. specialize (HZ (hd i) (node_alive s g i R0 L)). rewrite (rel_var_adj s g R0 i L) in HZ. congruence.
    - apply (gr_new _ _ GR). lia. }
  assert (A4 : @g_adj N g4 j = 0).
  { etransitivity; [apply (grad_tau0 g3 k g4 j W EG); auto; lia|].
    assert (TZ : forall i, (i < gsize g3)%nat -> (gsize g <= i)%nat -> tau g3 0 j i = 0).
    { intros i. induction i as [i IH] using (well_founded_induction Wf_nat.lt_wf). intros Hi Hi2.
      rewrite tau_eq by auto. replace (Nat.eqb i j) with false by lia. cbn [Nat.ltb Nat.leb].
      apply lsum_zero. intros q0 Hq. pose proof (unit_eff_lt g3 i W) as HL. rewrite Forall_forall in HL. specialize (HL q0 Hq). cbv beta in HL.
      assert (HQ : Forall (fun q => (gsize g <= fst q)%nat) (unit_eff g3 i)) by (apply HU; lia). rewrite Forall_forall in HQ. specialize (HQ q0 Hq). cbv beta in HQ.
      apply IH; lia. }
    apply TZ; lia. }
  assert (EF : exists f, g4 = set_gadj g3 f) by (destruct (asweep_form _ _ _ _ ES) as [f Ef]; exists f; rewrite Ef; reflexivity).
  destruct EF as [f ->].
  assert (NE4 : exists m r, g_nest (set_gadj g3 f) = m :: r /\ mk_n m = gsize g).
  { change (g_nest (set_gadj g3 f)) with (g_nest g3). rewrite (gr_nest _ _ GR), NE. eexists. eexists. split; reflexivity. }
  destruct NE4 as (m & rr & NE4 & MN).
  pose proof (end_inv s4 _ m rr s' R4 NE4 E7) as R5.
  assert (Hj5 : (j < gsize (atrunc m rr (set_gadj g3 f)))%nat).
  { unfold gsize, atrunc; cbn [g_nodes set_gadj]. rewrite firstn_length. fold (gsize g3). lia. }
  split.
  - rewrite (rel_var_val s' _ R5 j Hj5), (rel_var_val s g R0 j Hj). f_equal.
    transitivity (gval g3 j).
    + unfold gval. unfold atrunc; cbn [g_nodes set_gadj]. rewrite nth_firstn by lia. reflexivity.
    + rewrite (grows_gval g1 g3 j GR) by lia. apply VV.
  - rewrite (rel_var_adj s' _ R5 j Hj5). f_equal. exact A4.
Qed.

End ClaimsBlock.
