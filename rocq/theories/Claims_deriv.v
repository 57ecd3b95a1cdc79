(* Lemmas behind C08, C09, C12-C15, C17, C18, C20-C23, C26, C29: derivatives. *)
From Verif Require Import TapeFacts.
From Coq Require Import ZifyBool ZifyNat.
From Verif Require Export Reach Track.
Local Open Scope R_scope.

Section ClaimsDeriv.
Context {lg : R -> R} {C : Cfg (RNum lg)}.
Notation N := (RNum lg).
Notation graph := (@graph N).

(* ---- live handles and nodes ---- *)

Lemma alive_nodes s (g : graph) env : Rel s g -> Forall (alive s) env ->
  exists ke, env = map hd ke /\ Forall (fun k => (k < gsize g)%nat) ke.
Proof.
  intros R0. induction 1 as [|h env Hh _ (ke & -> & HB)]; [exists []; auto|].
  destruct (alive_node s g h R0 Hh) as (k & -> & Hk). exists (k :: ke). split; auto.
Qed.

Lemma vals_nodes s (g : graph) ke : Rel s g -> Forall (fun k => (k < gsize g)%nat) ke ->
  mapM (var_val s) (map hd ke) = Ok (map (gval g) ke).
Proof.
  intros R0. induction 1 as [|k ke Hk _ IH]; cbn [map mapM]; auto.
  rewrite (rel_var_val s g R0 k Hk). cbn [bind]. rewrite IH. reflexivity.
Qed.

(* ---- forward values ---- *)

Lemma op_denote (g g' : graph) ke (o : @op N) kk ks : aregs g ke (op_regs o) = Some kk ->
  Forall (fun k => (k < gsize g)%nat) ke ->
  op_dom o (at_regs (map (gval g) ke) (op_regs o)) -> op_shape o -> neutral o = false ->
  aexec_op g ke o = AOk (ks, g') -> denote o (at_regs (map (gval g) ke) (op_regs o)) = map (gval g') ks.
Proof.
  intros EK HB HD HS HN HX.
  set (fs := map (fun k (_ : R) => gval g k) ke).
  assert (EF : forall t, map (fun f : R -> R => f t) fs = map (gval g) ke).
  { intros t. unfold fs. rewrite map_map. reflexivity. }
  assert (T : Forall2 (track 0 g (fun _ => 0)) fs ke).
  { unfold fs. clear - HB. induction HB as [|k ke Hk _ IH]; cbn [map]; constructor; auto.
    split; auto. split; auto. apply (d_const (gval g k) 0). }
  pose proof (tracks_curves 0 g (fun _ => 0) fs ke _ kk T EK) as HM.
  rewrite <- (EF 0), curves_at in HD.
  destruct (op_right g g' (fun _ => 0) 0 ke o kk _ ks EK HM HD HS HN HX) as [HL HR].
  rewrite <- (EF 0), curves_at.
  apply nth_ext with (d := 0) (d' := 0); [rewrite map_length; apply HL|].
  intros q Hq. assert (Hq' : (q < length ks)%nat) by (rewrite <- (HL (map (fun c : R -> R => c 0) (curves fs (op_regs o)))); exact Hq).
  destruct (nth_error ks q) as [k|] eqn:EQ; [|apply nth_error_None in EQ; lia].
  destruct (HR q k EQ) as [V _]. etransitivity; [exact V|].
  pose proof (nth_map_in (gval g') ks q 0 O Hq') as EN. rewrite (nth_error_nth _ _ _ EQ) in EN. symmetry. exact EN.
Qed.

Lemma prog_values (HC : cfg_ok C) p : forall s (g : graph) ke env' s', Rel s g -> sound g ->
  Forall (fun k => (k < gsize g)%nat) ke -> prog_dom p (map (gval g) ke) -> exec p (map hd ke) s = Ok (env', s') ->
  exists g' ke', Rel s' g' /\ sound g' /\ grows g g' /\ env' = map hd ke' /\ Forall (fun k => (k < gsize g')%nat) ke' /\
    eval p (map (gval g) ke) = map (gval g') ke' /\ (exists l, ke' = ke ++ l /\ forall k, (gsize g <= k < gsize g')%nat -> In k l).
Proof.
  induction p as [|o p IH]; intros s g ke env' s' R0 HG HB HD HX.
  - cbn in HX. inversion HX; subst. exists g, ke. split; auto. split; auto. split; [apply grows_refl|]. split; auto. split; auto. split; auto.
    exists []. rewrite app_nil_r. split; auto. intros; lia.
  - pose proof (prog_dom_ok _ _ HD) as HO. inversion HO as [|? ? [O1 O2] O3]; subst.
    destruct HD as (D1 & _ & _ & D2). cbn [exec] in HX. unfold mbind in HX.
    destruct (exec_op (map hd ke) o s) as [[hs s1]| | |] eqn:E; try discriminate. cbn [bind] in HX.
    destruct (op_run HC s g ke o hs s1 R0 HG HB O1 O2 E) as (kk & ks & g1 & EK & EX & R1 & G1 & GR1 & -> & B1).
    pose proof (op_denote g g1 ke o kk ks EK HB D1 O1 O2 EX) as DV.
    assert (EV : map (gval g) ke ++ denote o (at_regs (map (gval g) ke) (op_regs o)) = map (gval g1) (ke ++ ks)).
    { rewrite DV, map_app, (gval_follow g g1 ke GR1 HB). reflexivity. }
    assert (D2' : prog_dom p (map (gval g1) (ke ++ ks))) by (rewrite <- EV; exact D2). rewrite <- map_app in HX.
    destruct (IH s1 g1 (ke ++ ks) env' s' R1 G1 B1 D2' HX) as (g' & ke' & Q1 & Q2 & Q3 & Q4 & Q5 & Q6 & l & Q7 & Q8).
    exists g', ke'. split; auto. split; auto. split; [eapply grows_trans; eauto|]. split; auto. split; auto. split.
    + cbn [eval]. etransitivity; [|exact Q6]. rewrite <- EV. reflexivity.
    + exists (ks ++ l). split; [rewrite app_assoc; auto|]. intros k Hk. apply in_or_app.
      destruct (Nat.ltb_spec k (gsize g1)) as [L|L]; [left|right; apply Q8; lia].
      destruct (op_frame _ _ _ _ _ O2 EX) as [_ [(M & k1 & -> & Hk1 & ->)|(Es & Sz)]]; [lia|].
      rewrite Es. apply in_seq. lia.
Qed.

(* ---- grad ---- *)

Lemma grad_run (HJ : exists j, @junk N C = Some j) s (g : graph) k : Rel s g -> sound g -> (k < gsize g)%nat ->
  exists s2, grad (hd k) s = Ok (tt, s2) /\
    forall j, (j < gsize g)%nat -> var_adj s2 (hd j) = Ok (sumn (gsize g) (fun i => nupd (g_adj g) k 1 i * tau g 0 j i)).
Proof.
  intros R0 HG Hk.
  destruct (sound_sweep HJ g HG (gsize g) 0 ltac:(lia) (nupd (g_adj g) k f1)) as (g2 & E2).
  assert (EG : agrad k g = Some g2).
  { unfold agrad. replace (Nat.ltb k (gsize g)) with true by lia. exact E2. }
  destruct (grad_ok s g k g2 R0 EG) as (s2 & E3 & R2). exists s2. split; auto.
  intros j Hj. rewrite (rel_var_adj s2 g2 R2 j).
  - f_equal. apply (grad_tau g k g2 j (r_wf _ _ R0) EG Hj).
  - apply asweep_form in E2. destruct E2 as [f ->]. exact Hj.
Qed.

Lemma tau_zero_adj (g : graph) f lo j k : tau (set_gadj g f) lo j k = tau g lo j k.
Proof.
  unfold tau. f_equal. generalize (S k). intros n. induction n as [|n IH]; cbn [taus]; auto. rewrite <- IH. reflexivity.
Qed.

Lemma reset_grad (HJ : exists j, @junk N C = Some j) s (g : graph) k : Rel s g -> sound g -> (k < gsize g)%nat ->
  exists s1 s2, set_zero_all_adj s = Ok (tt, s1) /\ grad (hd k) s1 = Ok (tt, s2) /\
    forall j, (j < gsize g)%nat -> var_adj s2 (hd j) = Ok (tau g 0 j k).
Proof.
  intros R0 HG Hk. destruct (zero_all_ok s g R0) as (s1 & E1 & R1).
  assert (G1 : sound (azero_from 0 g)) by (apply (good_set_gadj (unnest g)); exact HG).
  destruct (grad_run HJ s1 _ k R1 G1 Hk) as (s2 & E2 & H2). exists s1, s2. split; auto. split; auto.
  intros j Hj. rewrite (H2 j Hj). f_equal. change (gsize (azero_from 0 g)) with (gsize g).
  rewrite (sumn_ext _ _ (fun i => nupd (g_adj (azero_from 0 g)) k 1 i * tau g 0 j i)) by (intros; unfold azero_from at 2; rewrite tau_zero_adj; reflexivity).
  rewrite (sumn_one _ k); auto.
  - unfold nupd. rewrite Nat.eqb_refl. rring.
  - intros i Hi Hne. unfold nupd. replace (Nat.eqb i k) with false by lia. unfold azero_from. cbn [set_gadj g_adj].
    replace (Nat.leb 0 i && Nat.ltb i (gsize g))%bool with true by lia. apply Rmult_0_l.
Qed.

(* ---- start of the tracking: registers that exist before x ---- *)

Lemma tracks_start (g : graph) j t0 ke : gwf g -> (gsize g <= j)%nat -> Forall (fun k => (k < gsize g)%nat) ke ->
  tracks j t0 g (map (fun k (_ : R) => gval g k) ke) ke.
Proof.
  intros W Hj. induction 1 as [|k ke Hk _ IH]; cbn [map]; constructor; auto.
  split; auto. split; auto. rewrite (tau_below g 0 j k W) by lia. apply (d_const (gval g k) t0).
Qed.


(* the registers of a program run: everything the theorems need *)
Lemma run_tracks_at s (g : graph) env ws (p : list (@op N)) env' s' x h : @practical N C -> Rel s g -> sound g ->
  Forall (alive s) env -> mapM (var_val s) env = Ok ws -> prog_dom p ws -> exec p env s = Ok (env', s') ->
  nth_error env' x = Some h -> ~ alive s h -> (forall r, (r < x)%nat -> nth_error env' r <> Some h) ->
  exists (g' : graph) ke' fs j t0, Rel s' g' /\ sound g' /\ h = hd j /\ (j < gsize g')%nat /\
    var_val s' h = Ok t0 /\ env' = map hd ke' /\ tracks j t0 g' fs ke' /\
    (forall t, eval_with x t p ws = map (fun f : R -> R => f t) fs) /\
    (gsize g <= j)%nat /\ grows g g' /\ (exists l, ke' = map (fun h => Z.to_nat (h - 1)) env ++ l /\
        forall k, (gsize g <= k < gsize g')%nat -> In k l).
Proof.
  intros [HC HJ] R0 HG HA HW HD HX Hx Hn Hf.
  destruct (alive_nodes s g env R0 HA) as (ke & -> & HB).
  rewrite (vals_nodes s g ke R0 HB) in HW.
  assert (EW : ws = map (gval g) ke) by congruence. subst ws. clear HW.
  destruct (prog_values HC p s g ke env' s' R0 HG HB HD HX) as (g' & ke' & R' & G' & GR & -> & B' & EV & l & EL & HL).
  rewrite nth_error_map in Hx. destruct (nth_error ke' x) as [j|] eqn:Ex; [|discriminate]. cbn [option_map] in Hx.
  assert (Eh : h = hd j) by congruence. clear Hx. subst h.
  assert (Hj : (j < gsize g')%nat) by (rewrite Forall_forall in B'; apply B'; eapply nth_error_In; eauto).
  assert (Hj0 : (gsize g <= j)%nat).
  { destruct (Nat.ltb_spec j (gsize g)) as [L|L]; auto. exfalso. apply Hn. apply (node_alive s g j R0 L). }
  pose proof (rel_var_val s' g' R' j Hj) as Hv. set (t0 := gval g' j) in *.
  set (fs := map (fun k (_ : R) => gval g k) ke).
  assert (EF : forall t, map (fun f : R -> R => f t) fs = map (gval g) ke) by (intros t; unfold fs; rewrite map_map; reflexivity).
  pose proof (tracks_start g j t0 ke (r_wf _ _ R0) Hj0 HB) as T0. fold fs in T0.
  assert (Hx : nth_error (map hd ke') x = Some (hd j)) by (rewrite nth_error_map, Ex; reflexivity).
  assert (HD' : prog_dom p (map (fun f : R -> R => f t0) fs)) by (rewrite EF; exact HD).
  destruct (prog_track x j t0 HC p s g ke fs (map hd ke') s' R0 HG T0 HD' HX Hx Hf Hv) as (fs' & g2 & ke2 & R2 & G2 & GR2 & E2 & T2 & EV2).
  assert (EK : ke' = ke2).
  { clear - E2. revert ke2 E2. induction ke' as [|a l IH]; intros [|b l2] E; cbn [map] in E; try discriminate; auto.
    inversion E. f_equal; [unfold hd in *; lia|auto]. }
  subst ke2. exists g2, ke', fs', j, t0. split; auto. split; auto. split; auto.
  assert (SZ : gsize g2 = gsize g').
  { pose proof (r_head _ _ R2) as A. pose proof (r_head _ _ R') as B. lia. }
  split; [lia|]. split; auto. split; auto. split; auto. split; [intros t; rewrite <- EV2, EF; reflexivity|].
  split; auto. split; auto. exists l. split.
  - rewrite EL. f_equal. rewrite map_map. symmetry. rewrite <- (map_id ke) at 2. apply map_ext. intros k. unfold hd. lia.
  - intros k Hk. apply HL. lia.
Qed.

Lemma run_tracks s env ws (p : list (@op N)) env' s' x h : @practical N C -> (exists g : graph, Rel s g /\ sound g) ->
  Forall (alive s) env -> mapM (var_val s) env = Ok ws -> prog_dom p ws -> exec p env s = Ok (env', s') ->
  nth_error env' x = Some h -> ~ alive s h -> (forall r, (r < x)%nat -> nth_error env' r <> Some h) ->
  exists (g' : graph) ke' fs j t0, Rel s' g' /\ sound g' /\ h = hd j /\ (j < gsize g')%nat /\
    var_val s' h = Ok t0 /\ env' = map hd ke' /\ tracks j t0 g' fs ke' /\
    (forall t, eval_with x t p ws = map (fun f : R -> R => f t) fs) /\
    (exists g : graph, Rel s g /\ (gsize g <= j)%nat /\ grows g g' /\ exists l, ke' = map (fun h => Z.to_nat (h - 1)) env ++ l /\
        forall k, (gsize g <= k < gsize g')%nat -> In k l).
Proof.
  intros HP (g & R0 & HG) HA HW HD HX Hx Hn Hf.
  destruct (run_tracks_at s g env ws p env' s' x h HP R0 HG HA HW HD HX Hx Hn Hf)
    as (g' & ke' & fs & j & t0 & Q1 & Q2 & Q3 & Q4 & Q5 & Q6 & Q7 & Q8 & Q9 & Q10 & Q11).
  exists g', ke', fs, j, t0. split; auto. split; auto. split; auto. split; auto. split; auto. split; auto. split; auto. split; auto.
  exists g. auto.
Qed.

(* C08, C09 *)
Theorem grad_derivative s env ws (p : list (@op N)) env' s' x h y hy : @practical N C -> (exists g : graph, Rel s g /\ sound g) ->
  Forall (alive s) env -> mapM (var_val s) env = Ok ws -> prog_dom p ws -> exec p env s = Ok (env', s') ->
  nth_error env' x = Some h -> ~ alive s h -> (forall r, (r < x)%nat -> nth_error env' r <> Some h) ->
  nth_error env' y = Some hy ->
  exists s1 s2 t0 d, set_zero_all_adj s' = Ok (tt, s1) /\ grad hy s1 = Ok (tt, s2) /\
    var_val s' h = Ok t0 /\ var_adj s2 h = Ok d /\ is_derive (fun t => nth y (eval_with x t p ws) 0) t0 d.
Proof.
  intros HP HV HA HW HD HX Hx Hn Hf Hy.
  destruct (run_tracks s env ws p env' s' x h HP HV HA HW HD HX Hx Hn Hf) as (g' & ke' & fs & j & t0 & R' & G' & -> & Hj & Hv & -> & T & EV & _).
  rewrite nth_error_map in Hy. destruct (nth_error ke' y) as [k|] eqn:Ey; [|discriminate]. cbn [option_map] in Hy.
  assert (Eh : hy = hd k) by congruence. subst hy. destruct HP as [HC HJ].
  pose proof (Forall2_nth_r _ _ _ _ _ (fun _ => 0) T Ey) as [Hk [V D]].
  destruct (reset_grad HJ s' g' k R' G' Hk) as (s1 & s2 & E1 & E2 & HA2).
  exists s1, s2, t0, (tau g' 0 j k). split; auto. split; auto. split; auto. split; auto.
  eapply deriv_ext; [|exact D]. intros t. cbv beta. rewrite EV.
  rewrite <- (map_nth (fun c : R -> R => c t) fs (fun _ => 0)). reflexivity.
Qed.

(* C12 *)
Definition handle_range (a b : Z) : list Z := map (fun i => (a + Z.of_nat i)%Z) (seq 0 (Z.to_nat (b - a))).

Lemma grads_run (HJ : exists j, @junk N C = Some j) hs : forall s (g : graph), Rel s g -> sound g -> Forall (alive s) hs ->
  exists s1 f, grads hs s = Ok (tt, s1) /\ Rel s1 (set_gadj g f).
Proof.
  induction hs as [|h hs IH]; intros s g R0 HG HA.
  - exists s, (g_adj g). split; [reflexivity|]. destruct g; exact R0.
  - inversion HA as [|? ? H1 H2]; subst. destruct (alive_node s g h R0 H1) as (k & -> & Hk).
    destruct (sound_sweep HJ g HG (gsize g) 0 ltac:(lia) (nupd (g_adj g) k f1)) as (g2 & E2).
    assert (EG : agrad k g = Some g2).
    { unfold agrad. replace (Nat.ltb k (gsize g)) with true by lia. exact E2. }
    destruct (grad_ok s g k g2 R0 EG) as (s2 & E3 & R2). apply asweep_form in E2. destruct E2 as [f ->].
    destruct (IH s2 _ R2) as (s3 & f3 & E4 & R3).
    + apply (good_set_gadj (unnest g)); exact HG.
    + eapply Forall_impl; [|exact H2]. intros x. unfold alive. rewrite (r_head _ _ R0), (r_head _ _ R2). auto.
    + exists s3, f3. split; [|exact R3]. cbn [grads]. rewrite (mbind_ok _ _ _ _ _ E3). exact E4.
Qed.

Lemma rsum_tail n m (f : nat -> R) : (forall i, (i < n)%nat -> f i = 0) -> (n <= m)%nat ->
  sumn m f = rsum (map f (seq n (m - n))).
Proof.
  intros H L. unfold sumn. replace m with (n + (m - n))%nat at 1 by lia. rewrite seq_app, map_app, rsum_app.
  fold (sumn n f). rewrite (sumn_zero n f H). cbn [Nat.add]. ring.
Qed.

Theorem grad_superposes s env ws (p : list (@op N)) env' s' x h hs hy s1 : @practical N C -> (exists g : graph, Rel s g /\ sound g) ->
  Forall (alive s) env -> mapM (var_val s) env = Ok ws -> prog_dom p ws -> exec p env s = Ok (env', s') ->
  nth_error env' x = Some h -> ~ alive s h -> (forall r, (r < x)%nat -> nth_error env' r <> Some h) ->
  Forall (alive s') hs -> grads hs s' = Ok (tt, s1) -> In hy env' ->
  exists s2 t0 (a D : Z -> R), grad hy s1 = Ok (tt, s2) /\ var_val s' h = Ok t0 /\
    (forall z, alive s' z -> var_adj s1 z = Ok (a z)) /\
    (forall r z, nth_error env' r = Some z -> is_derive (fun t => nth r (eval_with x t p ws) 0) t0 (D z)) /\
    (forall z, In z (handle_range (s_head s) (s_head s')) -> In z env') /\
    var_adj s2 h = Ok (rsum (map (fun z => (if Z.eqb z hy then 1 else a z) * D z) (handle_range (s_head s) (s_head s')))).
Proof.
  intros HP HV HA HW HD HX Hx Hn Hf HS HG1 Hy.
  destruct (run_tracks s env ws p env' s' x h HP HV HA HW HD HX Hx Hn Hf)
    as (g' & ke' & fs & j & t0 & R' & G' & -> & Hj & Hv & -> & T & EV & g & R0 & Hj0 & GR & l & EL & HL).
  apply in_map_iff in Hy. destruct Hy as (k & <- & Hk). destruct HP as [HC HJ].
  pose proof (tracks_live _ _ _ _ _ T) as TL. assert (Hk' : (k < gsize g')%nat) by (rewrite Forall_forall in TL; auto).
  destruct (grads_run HJ hs s' g' R' G' HS) as (s1' & f & E1 & R1). rewrite HG1 in E1.
  assert (ES : s1 = s1') by congruence. subst s1'.
  assert (G1 : sound (set_gadj g' f)) by (apply (good_set_gadj (unnest g')); exact G').
  destruct (grad_run HJ s1 _ k R1 G1 Hk') as (s2 & E2 & H2).
  exists s2, t0, (fun z => f (Z.to_nat (z - 1))), (fun z => tau g' 0 j (Z.to_nat (z - 1))).
  split; auto. split; auto. split; [|split; [|split]].
  - intros z Hz. destruct (alive_node s' g' z R' Hz) as (i & -> & Hi). rewrite (rel_var_adj s1 _ R1 i Hi).
    f_equal. cbn [set_gadj g_adj]. f_equal. unfold hd. lia.
  - intros r z Hr. rewrite nth_error_map in Hr. destruct (nth_error ke' r) as [i|] eqn:Er; [|discriminate]. cbn [option_map] in Hr.
    assert (Ez : z = hd i) by congruence. subst z. replace (Z.to_nat (hd i - 1)) with i by (unfold hd; lia).
    pose proof (Forall2_nth_r _ _ _ _ _ (fun _ => 0) T Er) as [Hi [V D]].
    eapply deriv_ext; [|exact D]. intros t. cbv beta. rewrite EV.
    rewrite <- (map_nth (fun c : R -> R => c t) fs (fun _ => 0)). reflexivity.
  - intros z Hz. unfold handle_range in Hz. apply in_map_iff in Hz. destruct Hz as (i & <- & Hi). apply in_seq in Hi.
    rewrite (r_head _ _ R0), (r_head _ _ R') in *. rewrite EL. apply in_map_iff. exists (gsize g + i)%nat. split; [unfold hd; lia|].
    apply in_or_app. right. apply HL. lia.
  - rewrite (H2 j Hj). f_equal. change (gsize (set_gadj g' f)) with (gsize g').
    rewrite (sumn_ext _ _ (fun i => nupd (g_adj (set_gadj g' f)) k 1 i * tau g' 0 j i)) by (intros; rewrite tau_zero_adj; reflexivity).
    rewrite (rsum_tail (gsize g)).
    + unfold handle_range. rewrite map_map. rewrite (r_head _ _ R0), (r_head _ _ R').
      replace (Z.to_nat (Z.of_nat (gsize g') + 1 - (Z.of_nat (gsize g) + 1))) with (gsize g' - gsize g)%nat by lia.
      f_equal. rewrite <- (Nat.add_0_r (gsize g)) at 1. 
      assert (SH : forall n a, seq a n = map (fun i => (a + i)%nat) (seq 0 n)).
      { induction n as [|n IH]; intros a; cbn [seq map]; auto. rewrite Nat.add_0_r. f_equal. rewrite IH, <- (seq_shift n 0), map_map.
        apply map_ext. intros; lia. }
      rewrite Nat.add_0_r, (SH _ (gsize g)), map_map. apply map_ext. intros i. cbn [set_gadj g_adj].
      replace (Z.to_nat (Z.of_nat (gsize g) + 1 + Z.of_nat i - 1)) with (gsize g + i)%nat by lia.
      unfold nupd. destruct (Nat.eqb_spec (gsize g + i) k) as [E|E]; destruct (Z.eqb_spec (Z.of_nat (gsize g) + 1 + Z.of_nat i) (hd k)) as [E'|E'];
        unfold hd in *; try lia; reflexivity.
    + intros i Hi. rewrite (tau_below g' 0 j i (r_wf _ _ R')) by lia. rring.
    + apply (grows_size _ _ GR).
Qed.

End ClaimsDeriv.
