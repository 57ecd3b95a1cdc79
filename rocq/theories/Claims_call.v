(* Lemmas behind C14-C23, C26 and C29: what one call adds to the adjoints of its
   operands, and the gradient of a single call in its independent variables. *)
From Verif Require Import TapeFacts.
From Coq Require Import ZifyBool ZifyNat.
From Verif Require Export Claims_leaf.
Local Open Scope R_scope.

Section ClaimsCall.
Context {lg : R -> R} {C : Cfg (RNum lg)}.
Notation N := (RNum lg).
Notation graph := (@graph N).

(* operand values when variable hx is at t and the others stay *)
Definition moved (env : list Z) (ws : list R) (hx : Z) (t : R) (l : list nat) : list R :=
  map (fun r => if Z.eqb (nth r env 0%Z) hx then t else nth r ws 0) l.

Definition delta (j i : nat) : R := if Nat.eqb i j then 1 else 0.

Lemma apply_at l : forall (f : nat -> R) j, @apply_effect N l f j = f j + lsum l (delta j).
Proof.
  induction l as [|p l IH]; intros f j; [unfold lsum; cbn; rring|].
  change (@apply_effect N (p :: l) f) with (@apply_effect N l (@addto N f p)). rewrite IH.
  change (lsum (p :: l) (delta j)) with (snd p * delta j (fst p) + lsum l (delta j)).
  unfold addto, nupd, delta. rewrite (Nat.eqb_sym j). destruct (Nat.eqb_spec (fst p) j) as [->|].
  - cbn [fadd RNum]. rring.
  - rring.
Qed.

(* one call, seen from variable j *)
Lemma call_curve (g g' : graph) ke (o : @op N) kk ks j t0 : aregs g ke (op_regs o) = Some kk ->
  Forall (fun k => (k < gsize g)%nat) ke -> gval g j = t0 ->
  op_dom o (at_regs (map (gval g) ke) (op_regs o)) -> op_shape o -> neutral o = false ->
  aexec_op g ke o = AOk (ks, g') ->
  forall q k, nth_error ks q = Some k ->
    result_right g g' (delta j) t0 kk
      (fun t => nth q (denote o (moved (map hd ke) (map (gval g) ke) (hd j) t (op_regs o))) 0) q k.
Proof.
  intros EK HB HT HD HS HN HX q k Hq.
  set (fs := map (fun k (t : R) => if Nat.eqb k j then t else gval g k) ke).
  assert (T : Forall2 (track t0 g (delta j)) fs ke).
  { unfold fs. clear - HB HT. induction HB as [|k ke Hk _ IH]; cbn [map]; constructor; auto.
    split; auto. unfold moves, delta. destruct (Nat.eqb_spec k j) as [->|].
    - split; auto. apply (is_derive_id t0).
    - split; auto. apply (d_const (gval g k) t0). }
  pose proof (tracks_curves t0 g (delta j) fs ke (op_regs o) kk T EK) as F.
  assert (EV : forall t, moved (map hd ke) (map (gval g) ke) (hd j) t (op_regs o) = map (fun c : R -> R => c t) (curves fs (op_regs o))).
  { intros t. rewrite <- curves_at. unfold moved, at_regs. apply map_ext_in. intros r Hr.
    assert (HL : (r < length ke)%nat).
    { clear - EK Hr. revert kk EK. induction (op_regs o) as [|a l IH]; intros kk EK; [destruct Hr|]. cbn [aregs] in EK.
      destruct (areg g ke a) as [k|] eqn:E1; [|discriminate]. destruct (aregs g ke l) as [ks|]; [|discriminate].
      destruct Hr as [->|Hr]; [|eapply IH; eauto]. unfold areg in E1. apply nth_error_Some. intros E. rewrite E in E1. discriminate. }
    unfold fs. rewrite map_map. rewrite !(nth_map_in _ ke r _ O) by auto.
    unfold hd. destruct (Nat.eqb_spec (nth r ke O) j); destruct (Z.eqb_spec (Z.of_nat (nth r ke O) + 1) (Z.of_nat j + 1)); try lia; auto. }
  assert (EV0 : at_regs (map (gval g) ke) (op_regs o) = map (fun c : R -> R => c t0) (curves fs (op_regs o))).
  { rewrite <- curves_at. f_equal. unfold fs. rewrite map_map. apply map_ext. intros i. destruct (Nat.eqb_spec i j); congruence. }
  assert (HD' : op_dom o (map (fun c : R -> R => c t0) (curves fs (op_regs o)))) by (rewrite <- EV0; exact HD).
  destruct (op_right g g' (delta j) t0 ke o kk (curves fs (op_regs o)) ks EK F HD' HS HN HX) as [_ Q].
  destruct (Q q k Hq) as [Q1 Q2]. split.
  - cbv beta. rewrite EV. exact Q1.
  - destruct Q2 as [(A1 & A2 & A3)|(A1 & A3)]; [left|right].
    + split; auto. split; auto. eapply deriv_ext; [|exact A3]. intros t. cbv beta. rewrite EV. reflexivity.
    + split; auto. eapply deriv_ext; [|exact A3]. intros t. cbv beta. rewrite EV. reflexivity.
Qed.

(* the chain step of the result adds (its adjoint) * (partial derivative) to the
   adjoint of every variable, and leaves values and other results alone *)
Theorem call_adds s env ws (o : @op N) hs s' q h : @practical N C -> (exists g : graph, Rel s g /\ sound g) ->
  Forall (alive s) env -> mapM (var_val s) env = Ok ws -> op_dom o (at_regs ws (op_regs o)) -> op_shape o -> neutral o = false ->
  exec_op env o s = Ok (hs, s') -> nth_error hs q = Some h -> ~ alive s h ->
  var_val s' h = Ok (nth q (denote o (at_regs ws (op_regs o))) 0) /\
  forall x v, alive s x -> var_val s x = Ok v ->
    exists d, is_derive (fun t => nth q (denote o (moved env ws x t (op_regs o))) 0) v d /\
      forall a s1 b, set_var_adj h (a : @F N) s' = Ok s1 -> var_adj s1 x = Ok b ->
      exists s2, chain_at s1 h = Ok s2 /\ var_adj s2 x = Ok (b + a * d) /\
        forall z, alive s' z -> var_val s2 z = var_val s' z.
Proof.
  intros HP (g & R0 & HG) HA HW HD HS HN HX Hq Hn. destruct HP as [HC HJ].
  destruct (alive_nodes s g env R0 HA) as (ke & -> & HB).
  rewrite (vals_nodes s g ke R0 HB) in HW. assert (EW : ws = map (gval g) ke) by congruence. subst ws.
  destruct (op_run HC s g ke o hs s' R0 HG HB HS HN HX) as (kk & ks & g' & EK & AX & R' & G' & GR & -> & HB').
  rewrite nth_error_map in Hq. destruct (nth_error ks q) as [k|] eqn:Ek; [|discriminate]. cbn [option_map] in Hq. apply some_eq in Hq. subst h.
  assert (Hk : (k < gsize g')%nat).
  { rewrite Forall_forall in HB'. apply HB'. apply in_or_app. right. apply (nth_error_In _ _ Ek). }
  assert (Hk0 : (gsize g <= k)%nat).
  { destruct (Nat.leb_spec (gsize g) k); auto. exfalso. apply Hn. unfold alive. rewrite (r_head _ _ R0). unfold hd. lia. }
  split.
  { rewrite (rel_var_val s' g' R' k Hk). f_equal. pose proof (op_denote g g' ke o kk ks EK HB HD HS HN AX) as ED.
    rewrite ED. symmetry. apply nth_error_nth. rewrite nth_error_map, Ek. reflexivity. }
  intros x v Hx Hv. destruct (alive_node s g x R0 Hx) as (j & -> & Hj).
  rewrite (rel_var_val s g R0 j Hj) in Hv. assert (Ev : gval g j = v) by congruence.
  assert (Hj' : (j < gsize g')%nat) by (pose proof (grows_size _ _ GR); lia).
  destruct (call_curve g g' ke o kk ks j v EK HB Ev HD HS HN AX q k Ek) as [Q1 Q2].
  exists (lsum (unit_eff g' k) (delta j)). split.
  { destruct Q2 as [(A1 & A2 & A3)|(A1 & A3)]; [|exact A3]. exfalso.
    pose proof (aregs_lt g ke (op_regs o) kk EK) as HL. rewrite A1 in HL. inversion HL; subst. lia. }
  intros a s1 b HS1 Hb.
  destruct (rel_set_var_adj s' g' k a R' Hk) as (s1' & E1 & R1). assert (s1' = s1) by congruence. subst s1'.
  set (f := nupd (g_adj g') k a) in *.
  assert (FT : exists l, effect (set_gadj g' f) k = Some l).
  { apply (effect_some HJ). apply (gd_fit _ G'). exact Hk. }
  destruct FT as [l El]. destruct (rel_chain_at s1 (set_gadj g' f) k l R1 Hk El) as (s2 & E2 & R2).
  exists s2. split; auto. split.
  - rewrite (rel_var_adj s1 _ R1 j Hj') in Hb. assert (Eb : b = f j) by (cbn [set_gadj g_adj] in Hb; congruence).
    rewrite (rel_var_adj s2 _ R2 j Hj'). cbn [set_gadj g_adj]. f_equal. rewrite apply_at. rewrite <- Eb. f_equal.
    rewrite (effect_scale _ _ _ _ El), lsum_scaled. f_equal. unfold f, nupd. rewrite Nat.eqb_refl. reflexivity.
  - intros z Hz. destruct (alive_node s' g' z R' Hz) as (kz & -> & Hkz). rewrite (rel_var_val s' g' R' kz Hkz).
    rewrite (rel_var_val s2 _ R2 kz) by exact Hkz. reflexivity.
Qed.

(* a call whose result is the operand itself: x%adj is the adjoint of both *)
Theorem call_same s env ws (o : @op N) hs s' q h : @practical N C -> (exists g : graph, Rel s g /\ sound g) ->
  Forall (alive s) env -> mapM (var_val s) env = Ok ws -> op_dom o (at_regs ws (op_regs o)) -> op_shape o -> neutral o = false ->
  exec_op env o s = Ok (hs, s') -> nth_error hs q = Some h -> alive s h ->
  exists v, var_val s h = Ok v /\ var_val s' h = Ok v /\ nth q (denote o (at_regs ws (op_regs o))) 0 = v /\
    (exists r, op_regs o = [r] /\ nth_error env r = Some h) /\
    is_derive (fun t => nth q (denote o (moved env ws h t (op_regs o))) 0) v 1.
Proof.
  intros HP (g & R0 & HG) HA HW HD HS HN HX Hq Hn. destruct HP as [HC HJ].
  destruct (alive_nodes s g env R0 HA) as (ke & -> & HB).
  rewrite (vals_nodes s g ke R0 HB) in HW. assert (EW : ws = map (gval g) ke) by congruence. subst ws.
  destruct (op_run HC s g ke o hs s' R0 HG HB HS HN HX) as (kk & ks & g' & EK & AX & R' & G' & GR & -> & HB').
  rewrite nth_error_map in Hq. destruct (nth_error ks q) as [k|] eqn:Ek; [|discriminate]. cbn [option_map] in Hq. apply some_eq in Hq. subst h.
  destruct (alive_node s g _ R0 Hn) as (k' & Ekk & Hk). assert (k' = k) by (unfold hd in Ekk; lia). subst k'.
  pose proof (grows_size _ _ GR) as SZ.
  exists (gval g k). split; [apply (rel_var_val s g R0 k Hk)|]. split.
  { rewrite (rel_var_val s' g' R' k) by lia. rewrite (grows_gval g g' k GR Hk). reflexivity. }
  split.
  { pose proof (op_denote g g' ke o kk ks EK HB HD HS HN AX) as ED. rewrite ED.
    rewrite <- (grows_gval g g' k GR Hk). apply nth_error_nth. rewrite nth_error_map, Ek. reflexivity. }
  destruct (call_curve g g' ke o kk ks k (gval g k) EK HB eq_refl HD HS HN AX q k Ek) as [Q1 Q2].
  destruct Q2 as [(A1 & A2 & A3)|(A1 & A3)].
  - split.
    + rewrite A1 in EK. destruct (op_regs o) as [|r [|r2 l]]; cbn [aregs] in EK.
      * discriminate.
      * exists r. split; auto. destruct (areg g ke r) as [k1|] eqn:E1; [|discriminate]. unfold areg in E1.
        destruct (nth_error ke r) as [k2|] eqn:E2; [|discriminate]. rewrite nth_error_map, E2. cbn [option_map].
        destruct (Nat.ltb k2 (gsize g)); [|discriminate]. congruence.
      * destruct (areg g ke r); [|discriminate]. destruct (areg g ke r2); [|discriminate]. destruct (aregs g ke l); discriminate.
    + replace 1 with (delta k k) by (unfold delta; rewrite Nat.eqb_refl; auto). exact A3.
  - exfalso. lia.
Qed.

End ClaimsCall.
