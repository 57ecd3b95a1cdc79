(* Exact storage cost of a call. *)
From Verif Require Import TapeFacts.
From Coq Require Import ZifyBool ZifyNat.
From Verif Require Export CostSpec Claims_idle.
Local Open Scope Z_scope.

Section CostFacts.
Context {N : Num} {RL : RepLaws N} {C : Cfg N}.

Lemma aregs_len g env : forall l ks, aregs g env l = Some ks -> zlen ks = zlen l.
Proof.
  induction l as [|r l IH]; simpl; intros k0.
  - intros H; inversion H; reflexivity.
  - destruct (areg g env r); [|discriminate]. destruct (aregs g env l) as [k1|]; [|discriminate].
    intros H; inversion H; subst. specialize (IH _ eq_refl). unfold zlen in *. simpl length. lia.
Qed.

Lemma mat_nodes_words ch ia ib : forall ps g, g_top (mat_nodes ch ia ib ps g) = g_top g + 10 * zlen ps /\
  gsize (mat_nodes ch ia ib ps g) = (gsize g + length ps)%nat /\
  g_peak (mat_nodes ch ia ib ps g) = Z.max (g_peak g) (g_top g + 10 * zlen ps) \/
  ps = [] /\ mat_nodes ch ia ib ps g = g.
Proof.
  induction ps as [|q ps IH]; intros g; [right; auto|left].
  rewrite mat_nodes_cons. set (g0 := a_new g (snd q) (BMat (fst (fst q)) (snd (fst q)) ia ib) (Some ch)).
  assert (T : g_top g0 = g_top g + 10 /\ gsize g0 = S (gsize g) /\ g_peak g0 = Z.max (g_peak g) (g_top g + 10)).
  { unfold g0. cbn. unfold gsize. cbn. rewrite app_length. cbn. lia. }
  destruct T as (T1 & T2 & T3). unfold zlen in *. cbn [length].
  destruct (IH g0) as [(I1 & I2 & I3)|(-> & ->)].
  - rewrite I1, I2, I3. lia.
  - cbn [length]. lia.
Qed.

Definition cost_is (g g' : graph) (w n : Z) : Prop :=
  g_top g' = g_top g + w /\ Z.of_nat (gsize g') = Z.of_nat (gsize g) + n /\ g_peak g' = Z.max (g_peak g) (g_top g').

Lemma graph_words g env o kk ks g' : gwf g -> aregs g env (op_regs o) = Some kk -> aexec_op g env o = AOk (ks, g') ->
  cost_is g g' (words o (map (gval g) kk)) (created o (map (gval g) kk)).
Proof.
  intros W EK.
  pose proof (w_top g W) as [W1 W2].
  assert (ACT : forall a w, (match a with ANew v ops ds _ => 6 + zlen ops + 2 * zlen ds = w /\ w <> 0 | AAlias _ _ => w = 0 | _ => True end) ->
    abind (do_act g a) (fun p => AOk ([fst p], snd p)) = AOk (ks, g') -> cost_is g g' w (if w =? 0 then 0 else 1)).
  { intros [v ops ds ch|k [c|]| |] w Ha; simpl; intros H; inversion H; subst; clear H; unfold cost_is; simpl.
    - destruct Ha as [Ha Hb]. replace (w =? 0) with false by lia. unfold gsize. simpl. rewrite app_length. simpl. unfold bwidth. lia.
    - unfold gsize. simpl. lia.
    - lia. }
  assert (MAT : forall ch m k n ca cb av bv w, amat ch m k n ca cb av bv g = AOk (ks, g') ->
    alen (mkArr m k ca 0) + alen (mkArr k n cb 0) + 10 * Z.of_nat (m * n) = w -> cost_is g g' w (if w =? 0 then 0 else Z.of_nat (m * n))).
  { intros until w. unfold amat. destruct (_ && _ && _); [|discriminate]. intros H HW; inversion H; subst; clear H.
    pose proof (alen_pos (mkArr m k ca 0)). pose proof (alen_pos (mkArr k n cb 0)).
    match goal with |- context [mat_nodes ?c ?a ?b ?p ?g0] => pose proof (mat_nodes_words c a b p g0) as M; set (ps := p) in *; set (g2 := g0) in * end.
    assert (LP : length ps = (m * n)%nat).
    { unfold ps. rewrite combine_length. unfold mat_vals. rewrite map_length, mpairs_len. lia. }
    assert (T : g_top g2 = g_top g + alen (mkArr m k ca 0) + alen (mkArr k n cb 0) /\ gsize g2 = gsize g /\ g_peak g2 = Z.max (g_peak g) (g_top g2)).
    { unfold g2. cbn. unfold alen in *. cbn [a_c] in *. split; [lia|]. split; [reflexivity|lia]. }
    destruct T as (T1 & T2 & T3). unfold cost_is, zlen in *.
    replace (_ =? 0) with false by lia.
    destruct M as [(M1 & M2 & M3)|(E & M)].
    - rewrite M1, M2, M3, LP. lia.
    - rewrite M. rewrite E in LP. cbn [length] in LP. lia. }
  assert (R1 : forall a, aregs g env [a] = Some kk -> exists k, areg g env a = Some k /\ nth 0 (map (gval g) kk) f0 = gval g k).
  { intros a. simpl. destruct (areg g env a) as [k|]; [|discriminate]. intros H. inversion H. exists k. auto. }
  assert (AB : forall k ch, match act_abs g k ch with ANew v ops ds _ => 6 + zlen ops + 2 * zlen ds = abs_words (gval g k) /\ abs_words (gval g k) <> 0
    | AAlias _ _ => abs_words (gval g k) = 0 | _ => True end).
  { intros k ch. unfold act_abs, abs_words. repeat (destruct (fgt _ _) || destruct (flt _ _) || destruct (feq _ _)); unfold zlen; cbn; lia. }
  unfold created. destruct o; cbn [aexec_op op_results op_regs] in *.
  - apply ACT. cbn. unfold zlen; cbn. lia.
  - apply ACT. cbn. unfold zlen; cbn. lia.
  - destruct (R1 _ EK) as (k & E1 & E2). apply ACT. cbn [act_op words]. rewrite E1, E2.
    destruct u; cbn [act_un anew1]; unfold zlen; cbn [length]; try (split; lia); try reflexivity.
    + destruct (is_nan_d _); [reflexivity|]. destruct (fle _ _); [exact Logic.I|]. cbn; lia.
    + destruct (is_nan_d _); [reflexivity|]. destruct (_ || _); [exact Logic.I|]. cbn; lia.
    + apply AB.
  - apply ACT. cbn [act_op words]. destruct (areg g env x); [|exact Logic.I]. destruct (areg g env y); [|exact Logic.I].
    destruct b; cbn [act_vv]; unfold zlen; cbn; lia.
  - destruct (R1 _ EK) as (k & E1 & E2). apply ACT. cbn [act_op words]. rewrite E1, E2.
    destruct b; cbn [act_vd]; unfold zlen.
    + destruct (fne d f0); cbn; lia.
    + destruct (fne d f0); cbn; lia.
    + destruct (fne d f1); cbn; lia.
    + destruct (fne d f1); cbn; lia.
    + destruct (feq d fhalf); [cbn; lia|]. destruct (feq d f1); [cbn; lia|].
      destruct (feq d f2); [cbn; lia|]. destruct (feq d (fneg f2)); [cbn; lia|].
      destruct (feq d (fneg f1)); [cbn; lia|]. destruct (feq d (fneg fhalf)); cbn; lia.
    + destruct (fne d f0); [cbn; lia|]. apply AB.
  - destruct (R1 _ EK) as (k & E1 & E2). apply ACT. cbn [act_op words]. rewrite E1.
    destruct b; cbn [act_dv]; unfold zlen; try (cbn; lia).
    + destruct (fne d f0); cbn; lia.
    + destruct (fne d f1); cbn; lia.
    + destruct (fne d f0); cbn; lia.
  - pose proof (aregs_len _ _ _ _ EK). pose proof (zlen_nonneg l). apply ACT. cbn [act_op words]. rewrite EK. change (zlen (@nil F)) with 0. lia.
  - pose proof (aregs_len _ _ _ _ EK). pose proof (zlen_nonneg l). apply ACT. cbn [act_op words]. rewrite EK. change (zlen (@nil F)) with 0. lia.
  - pose proof (aregs_len _ _ _ _ EK). pose proof (zlen_nonneg l). apply ACT. cbn [act_op words]. rewrite EK. change (zlen (@nil F)) with 0. lia.
  - pose proof (zlen_nonneg l1). pose proof (zlen_nonneg l2). apply ACT. cbn [act_op words].
    destruct (aregs g env l1) eqn:E1; [|exact Logic.I]. destruct (aregs g env l2) eqn:E2; [|exact Logic.I].
    apply aregs_len in E1. apply aregs_len in E2. destruct (Nat.eqb _ _); [|exact Logic.I].
    change (zlen (@nil F)) with 0. unfold zlen in *. rewrite app_length. lia.
  - pose proof (aregs_len _ _ _ _ EK). pose proof (zlen_nonneg l). apply ACT. cbn [act_op words]. rewrite EK.
    destruct (Nat.eqb_spec (length kk) (length d)); [|exact Logic.I]. unfold zlen in *. lia.
  - pose proof (aregs_len _ _ _ _ EK). pose proof (zlen_nonneg l). apply ACT. cbn [act_op words]. rewrite EK.
    destruct (Nat.eqb_spec (length d) (length kk)); [|exact Logic.I]. unfold zlen in *. lia.
  - destruct (aregs g env a) eqn:E1; [|discriminate]. destruct (aregs g env b) eqn:E2; [|discriminate].
    apply aregs_len in E1. apply aregs_len in E2. intros H. eapply MAT; [exact H|]. unfold alen; cbn [a_c words]. lia.
  - destruct (aregs g env a) eqn:E1; [|discriminate].
    apply aregs_len in E1. intros H. eapply MAT; [exact H|]. unfold alen; cbn [a_c words]. lia.
  - destruct (aregs g env b) eqn:E1; [|discriminate].
    apply aregs_len in E1. intros H. eapply MAT; [exact H|]. unfold alen; cbn [a_c words]. lia.
  - pose proof (aregs_len _ _ _ _ EK). pose proof (zlen_nonneg l). apply ACT. cbn [act_op words]. rewrite EK.
    destruct (Nat.eqb_spec (length (p (map (gval g) kk))) (length kk)); [|exact Logic.I]. unfold zlen in *. lia.
Qed.

Lemma storage_ok (HC : cfg_ok C) size peak size' peak' head : size_ok size peak -> size_ok size' peak' ->
  peak' = Z.max peak head -> 1 < head -> storage size head size'.
Proof.
  intros S1 S2 EP HH. assert (HI : 1 <= init_tape_size) by (destruct HC; unfold init_tape_size, min_rec_size in *; lia).
  assert (PW : forall a b : nat, (a < b)%nat -> 2 * (init_tape_size * 2 ^ Z.of_nat a) <= init_tape_size * 2 ^ Z.of_nat b).
  { intros a b Hab. replace (2 * (init_tape_size * 2 ^ Z.of_nat a)) with (init_tape_size * 2 ^ (Z.of_nat a + 1)) by (rewrite Z.pow_add_r by lia; ring).
    apply Z.mul_le_mono_nonneg_l; [lia|]. apply Z.pow_le_mono_r; lia. }
  destruct S2 as [[A B]|(j' & A' & B' & C')]; [lia|]. split; intros HS.
  - destruct S1 as [[A B]|(j & A & B & D)]; [lia|].
    destruct (lt_eq_lt_dec j j') as [[L|E]|L]; [|subst j'; lia|]; apply PW in L; rewrite <- A, <- A' in L.
    + destruct B' as [->|B']; [|lia]. subst. pose proof (Z.pow_pos_nonneg 2 (Z.of_nat j) ltac:(lia) ltac:(lia)).
      cbn [Z.of_nat Z.pow Z.pow_pos] in *. destruct j; [lia|]. exfalso. nia.
    + destruct B as [->|B]; [|lia]. subst. exfalso. pose proof (Z.pow_pos_nonneg 2 (Z.of_nat j') ltac:(lia) ltac:(lia)). nia.
  - exists j'. split; [auto|]. assert (E : peak' = head).
    { destruct S1 as [[A B]|(j & A & B & D)]; lia. }
    split; [lia|]. intros Hj. destruct B' as [->|B']; [lia|].
    assert (Q : size' = 2 * (init_tape_size * 2 ^ (Z.of_nat j' - 1))).
    { rewrite A'. replace (Z.of_nat j') with (1 + (Z.of_nat j' - 1)) at 1 by lia. rewrite Z.pow_add_r by lia. ring. }
    lia.
Qed.

Lemma vals_of s g ke : Rel s g -> Forall (fun k => (k < gsize g)%nat) ke -> mapM (var_val s) (map hd ke) = Ok (map (gval g) ke).
Proof.
  intros R HB. induction HB as [|k ke Hk _ IH]; cbn [map mapM]; auto. rewrite (rel_var_val s g R k Hk). cbn [bind]. rewrite IH. reflexivity.
Qed.

Lemma args_vals s g ke : Rel s g -> Forall (fun k => (k < gsize g)%nat) ke -> forall l kk as_ , aregs g ke l = Some kk ->
  Forall2 (fun r h => nth_error (map hd ke) r = Some h) l as_ -> mapM (var_val s) as_ = Ok (map (gval g) kk).
Proof.
  intros R HB. induction l as [|r l IH]; intros kk as_ EK HF; simpl in EK.
  - inversion EK; inversion HF; subst. reflexivity.
  - unfold areg in EK. destruct (nth_error ke r) as [k|] eqn:E; [|discriminate].
    destruct (Nat.ltb_spec k (gsize g)); [|discriminate]. destruct (aregs g ke l) as [k1|] eqn:E1; [|discriminate]. inversion EK; subst.
    inversion HF as [|? h ? t Hh Ht]; subst. rewrite nth_error_map, E in Hh. cbn [option_map] in Hh. injection Hh as <-.
    cbn [mapM map]. rewrite (rel_var_val s g R k) by auto. cbn [bind]. rewrite (IH k1 t eq_refl Ht). reflexivity.
Qed.

(* C52 *)
Theorem call_cost s env o hs s' args xs : practical -> (exists g, Rel s g /\ sound g) ->
  Forall (alive s) env -> op_shape o -> neutral o = false -> exec_op env o s = Ok (hs, s') ->
  Forall2 (fun r h => nth_error env r = Some h) (op_regs o) args -> mapM (var_val s) args = Ok xs ->
  t_head (s_tape s') = t_head (s_tape s) + words o xs /\ s_head s' = s_head s + created o xs /\
  storage (t_size (s_tape s)) (t_head (s_tape s')) (t_size (s_tape s')).
Proof.
  intros [HC HJ] (g & R0 & HG) HA HS HN HX HF HV. destruct (live_nodes s g env R0 HA) as (ke & -> & HB).
  destruct (op_run HC s g ke o hs s' R0 HG HB HS HN HX) as (kk & ks & g' & EK & EX & R' & G' & GR & -> & B').
  rewrite (args_vals s g ke R0 HB _ kk args EK HF) in HV. injection HV as <-.
  destruct (graph_words g ke o kk ks g' (r_wf _ _ R0) EK EX) as (C1 & C2 & C3).
  rewrite (r_thead _ _ R0), (r_thead _ _ R'), (r_head _ _ R0), (r_head _ _ R').
  split; [exact C1|]. split; [lia|]. apply (storage_ok HC _ _ _ _ _ (r_size s g R0) (r_size s' g' R') C3).
  - destruct (Nat.eq_dec (op_results o) 0) as [Z0|Z0].
    + pose proof (w_top g (r_wf _ _ R0)). assert (4 <= words o (map (gval g) kk)); [|lia].
      destruct o; cbn [op_results] in Z0; try discriminate; cbn [words];
        repeat match goal with |- context [zlen ?l] => pose proof (zlen_nonneg l); generalize dependent (zlen l); intros end; lia.
    + pose proof (gsize_top g' (r_wf _ _ R')). pose proof (aexec_results _ _ _ _ _ EX) as L.
      apply Forall_app in B'. destruct B' as [_ B2]. destruct ks as [|k ks]; [cbn [length] in L; lia|].
      inversion B2; subst. lia.
Qed.
End CostFacts.
