(* Facts behind C46 and C47, any arithmetic: a sensitivity callback leaves the
   caller's variables alone. *)
From Verif Require Import TapeFacts.
From Coq Require Import ZifyBool ZifyNat.
From Verif Require Export Cvodes Nested Claims_exact Exact_mat.

Section Facts.
Context {N : Num} {RL : RepLaws N} {C : Cfg N}.

(* ---- the calls set_sens_rhs makes ---- *)

Lemma mmap_cat {A B} (f : A -> M B) xs : forall ys s a s1 b s2, mmap f xs s = Ok (a, s1) -> mmap f ys s1 = Ok (b, s2) ->
  mmap f (xs ++ ys) s = Ok (a ++ b, s2).
Proof.
  induction xs as [|x xs IH]; intros ys s a s1 b s2 H1 H2; cbn [mmap app] in *.
  - unfold mret in H1. assert (a = []) by congruence. assert (s1 = s) by congruence. subst. exact H2.
  - unfold mbind in *. destruct (f x s) as [[h sm]| | |]; try discriminate. cbn [bind] in *.
    destruct (mmap f xs sm) as [[hs s3]| | |] eqn:E; try discriminate. cbn [bind] in H1. unfold mret in *.
    assert (a = h :: hs) by congruence. assert (s3 = s1) by congruence. subst.
    rewrite (IH ys sm hs s1 b s2 E H2). reflexivity.
Qed.
Lemma mmap_len {A B} (f : A -> M B) xs : forall s a s1, mmap f xs s = Ok (a, s1) -> length a = length xs.
Proof.
  induction xs as [|x xs IH]; intros s a s1 H; cbn [mmap] in H.
  - unfold mret in H. assert (a = []) by congruence. subst. reflexivity.
  - unfold mbind in H. destruct (f x s) as [[h sm]| | |]; try discriminate. cbn [bind] in H.
    destruct (mmap f xs sm) as [[hs s3]| | |] eqn:E; try discriminate. cbn [bind] in H. unfold mret in H.
    assert (a = h :: hs) by congruence. subst. cbn [length]. f_equal. eauto.
Qed.
Lemma new_vals_app xs ys s a s1 b s2 : new_var_vals xs s = Ok (a, s1) -> new_var_vals ys s1 = Ok (b, s2) ->
  new_var_vals (xs ++ ys) s = Ok (a ++ b, s2).
Proof. exact (mmap_cat new_var_val xs ys s a s1 b s2). Qed.
Lemma new_vals_len xs s a s1 : new_var_vals xs s = Ok (a, s1) -> length a = length xs.
Proof. exact (mmap_len new_var_val xs s a s1). Qed.

(* the values pvar is made from *)
Definition par_vals (o : cvs_rhs) (n : nat) : list F := if par_is_var o n then ode_pval o else [].

Lemma body_split t y (o : cvs_rhs) q outs s b s' : ode_f o = rhs_prog q outs -> sens_body t y o s = Ok (b, s') ->
  exists yv fv pv s2 env' hs, b = (yv, pv, hs) /\ new_var_vals (y ++ repeat f0 (length y) ++ par_vals o (length y)) s = Ok (yv ++ fv ++ pv, s2) /\
    length yv = length y /\ length fv = length y /\ length pv = length (par_vals o (length y)) /\
    exec (q t) (yv ++ fv ++ pv) s2 = Ok (env', s') /\ Forall2 (fun r h => nth_error env' r = Some h) outs hs /\
    (par_is_var o (length y) = true -> length (ode_pval o) = pvar_size).
Proof.
  intros EF H. unfold sens_body, mbind in H. rewrite EF in H.
  destruct (new_var_vals y s) as [[yv s1]| | |] eqn:E1; try discriminate. cbn [bind] in H.
  destruct (new_var_vals (repeat f0 (length y)) s1) as [[fv s2]| | |] eqn:E2; try discriminate. cbn [bind] in H.
  pose proof (new_vals_len _ _ _ _ E1) as L1. pose proof (new_vals_len _ _ _ _ E2) as L2. rewrite repeat_length in L2.
  unfold par_vals. destruct (par_is_var o (length y)).
  - destruct (Nat.eqb_spec (length (ode_pval o)) pvar_size) as [EP|]; [|discriminate].
    destruct (new_var_vals (ode_pval o) s2) as [[pv s3]| | |] eqn:E3; try discriminate. cbn [bind] in H.
    pose proof (new_vals_len _ _ _ _ E3) as L3. unfold rhs_prog, mbind in H.
    destruct (exec (q t) (yv ++ fv ++ pv) s3) as [[e s4]| | |] eqn:E4; try discriminate. cbn [bind] in H.
    destruct (regs e outs s4) as [[hs s5]| | |] eqn:E5; try discriminate. cbn [bind] in H. unfold mret in H.
    destruct (regs_inv _ _ _ _ _ E5) as [-> FR]. exists yv, fv, pv, s3, e, hs.
    split; [congruence|]. split; [eapply new_vals_app; eauto; eapply new_vals_app; eauto|].
    split; auto. split; auto. split; auto. split; [congruence|]. auto.
  - unfold rhs_prog, mbind in H.
    destruct (exec (q t) (yv ++ fv ++ []) s2) as [[e s4]| | |] eqn:E4; try discriminate. cbn [bind] in H.
    destruct (regs e outs s4) as [[hs s5]| | |] eqn:E5; try discriminate. cbn [bind] in H. unfold mret in H.
    destruct (regs_inv _ _ _ _ _ E5) as [-> FR]. exists yv, fv, [], s2, e, hs.
    split; [congruence|]. split; [eapply new_vals_app; eauto; rewrite !app_nil_r; auto|].
    split; auto. split; auto. split; auto. split; [congruence|]. split; auto. discriminate.
Qed.

(* what one pass of the loop computes from the adjoints *)
Definition srow_of (o : cvs_rhs) (n : nat) (yS : list (list F)) (a b : list F) : list F :=
  if par_is_var o n then add_from (ode_ns o - par_count o n) (map (fdot a) yS) b else map (fdot a) yS.

(* the passes of the loop, and the adjoints each of them reads *)
Fixpoint srows (o : cvs_rhs) (n : nat) (yv pv : list Z) (hs : list Z) (s : st) (rs : list (list F * list F)) (s' : st) : Prop :=
  match hs, rs with
  | [], [] => s = s'
  | h :: t, r :: u => exists s1 s2, grad_nested h s = Ok (tt, s1) /\ mapM (var_adj s1) yv = Ok (fst r) /\
      (par_is_var o n = true -> (par_count o n <= length pv)%nat /\ mapM (var_adj s1) (firstn (par_count o n) pv) = Ok (snd r)) /\
      set_zero_nested_adj s1 = Ok (tt, s2) /\ srows o n yv pv t s2 u s'
  | _, _ => False
  end.

Lemma srows_inv o n yv pv yS hs : forall s rs s', mmap (sens_row o n yv pv yS) hs s = Ok (rs, s') ->
  exists ab, srows o n yv pv hs s ab s' /\ rs = map (fun p => srow_of o n yS (fst p) (snd p)) ab.
Proof.
  induction hs as [|h hs IH]; intros s rs s' H; cbn [mmap] in H.
  - unfold mret in H. assert (rs = []) by congruence. assert (s = s') by congruence. subst. exists []. split; reflexivity.
  - unfold mbind in H. destruct (sens_row o n yv pv yS h s) as [[r s2]| | |] eqn:E; try discriminate. cbn [bind] in H.
    destruct (mmap (sens_row o n yv pv yS) hs s2) as [[rs' s3]| | |] eqn:E2; try discriminate. cbn [bind] in H. unfold mret in H.
    assert (rs = r :: rs') by congruence. assert (s3 = s') by congruence. subst. destruct (IH _ _ _ E2) as (ab & HS & ->).
    unfold sens_row, mbind, vadjs, mget in E.
    destruct (grad_nested h s) as [[[] s1]| | |] eqn:F1; try discriminate. cbn [bind] in E.
    destruct (mapM (var_adj s1) yv) as [a| | |] eqn:F2; try discriminate. cbn [bind] in E.
    destruct (par_is_var o n) eqn:EP.
    + destruct (Nat.leb_spec (par_count o n) (length pv)) as [LP|]; [|discriminate].
      destruct (mapM (var_adj s1) (firstn (par_count o n) pv)) as [b| | |] eqn:F3; try discriminate. cbn [bind mret] in E. unfold mret in E. cbn [bind] in E.
      destruct (set_zero_nested_adj s1) as [[[] s4]| | |] eqn:F4; try discriminate. cbn [bind] in E.
      exists ((a, b) :: ab). assert (s4 = s2) by congruence. subst. cbn [srows map fst snd]. split.
      * exists s1, s2. repeat (split; auto).
      * assert (ER : r = srow_of o n yS a b) by (unfold srow_of; rewrite EP; congruence). rewrite <- ER. reflexivity.
    + unfold mret in E. cbn [bind] in E.
      destruct (set_zero_nested_adj s1) as [[[] s4]| | |] eqn:F4; try discriminate. cbn [bind] in E.
      exists ((a, []) :: ab). assert (s4 = s2) by congruence. subst. cbn [srows map fst snd]. split.
      * exists s1, s2. split; auto. split; auto. split; [intros X; rewrite EP in X; discriminate X|]. split; auto.
      * assert (ER : r = srow_of o n yS a []) by (unfold srow_of; rewrite EP; congruence). rewrite <- ER. reflexivity.
Qed.

Lemma sens_inv t y yS (o : cvs_rhs) q outs s r s' : ode_f o = rhs_prog q outs -> set_sens_rhs t y yS o s = Ok (r, s') ->
  exists s1 yv fv pv s2 env' s3 hs ab s4, begin_nested s = Ok (tt, s1) /\
    new_var_vals (y ++ repeat f0 (length y) ++ par_vals o (length y)) s1 = Ok (yv ++ fv ++ pv, s2) /\
    length yv = length y /\ length fv = length y /\ length pv = length (par_vals o (length y)) /\
    exec (q t) (yv ++ fv ++ pv) s2 = Ok (env', s3) /\ Forall2 (fun r h => nth_error env' r = Some h) outs hs /\
    (par_is_var o (length y) = true -> length (ode_pval o) = pvar_size) /\
    srows o (length y) yv pv hs s3 ab s4 /\ end_nested s4 = Ok (tt, s') /\
    r = columns (ode_ns o) (map (fun p => srow_of o (length y) yS (fst p) (snd p)) ab).
Proof.
  intros EF H. unfold set_sens_rhs, mbind in H.
  destruct (begin_nested s) as [[[] s1]| | |] eqn:E1; try discriminate. cbn [bind] in H.
  destruct (sens_body t y o s1) as [[b s3]| | |] eqn:E2; try discriminate. cbn [bind] in H.
  destruct (body_split t y o q outs s1 b s3 EF E2) as (yv & fv & pv & s2 & env' & hs & -> & Q1 & Q2 & Q3 & Q4 & Q5 & Q6 & Q7).
  cbn [fst snd] in H.
  destruct (mmap (sens_row o (length y) yv pv yS) hs s3) as [[rs s4]| | |] eqn:E3; try discriminate. cbn [bind] in H.
  destruct (end_nested s4) as [[[] s5]| | |] eqn:E4; try discriminate. cbn [bind] in H. unfold mret in H.
  destruct (srows_inv _ _ _ _ _ _ _ _ _ E3) as (ab & HS & ->).
  exists s1, yv, fv, pv, s2, env', s3, hs, ab, s4. assert (s5 = s') by congruence. subst.
  split; auto. split; auto. split; auto. split; auto. split; auto. split; auto. split; auto. split; auto.
  split; auto. split; auto. congruence.
Qed.

(* ---- a block whose records refer to the block only ---- *)

(* node k is a record with operands from n0 on *)
Definition stays (n0 : nat) (g : graph) (k : nat) : Prop :=
  match nth_error (g_nodes g) k with
  | Some nd => match n_body nd with BRec ops _ => Forall (fun i => (n0 <= i)%nat) ops | _ => False end
  | None => False
  end.

Lemma stays_grows n0 g g' k : grows g g' -> stays n0 g k -> stays n0 g' k.
Proof.
  intros G. unfold stays. destruct (nth_error (g_nodes g) k) as [nd|] eqn:E; [|tauto].
  destruct (gr_nodes _ _ G) as [l ->]. rewrite nth_error_app1 by (apply nth_error_lt in E; exact E). rewrite E. auto.
Qed.

Lemma stays_effect n0 g k l : stays n0 g k -> effect g k = Some l -> Forall (fun p => (n0 <= fst p)%nat) l.
Proof.
  unfold stays, effect. destruct (nth_error (g_nodes g) k) as [nd|]; [|discriminate]. destruct (n_body nd) as [ops ds|]; [|tauto].
  intros HF. destruct (contrib _ _ _ _ _) as [cl|]; [|discriminate]. cbn [option_map]. intros E.
  assert (El : l = combine ops cl) by congruence. subst. apply Forall_forall. intros [i v] Hp. apply in_combine_l in Hp. cbn [fst].
  rewrite Forall_forall in HF. apply HF. exact Hp.
Qed.

Lemma stays_adj n0 g k f : stays n0 (set_gadj g f) k <-> stays n0 g k.
Proof. reflexivity. Qed.

(* such a block adds nothing to the adjoints of the caller's variables *)
Lemma sweep_low lo : forall n g g', (forall i, (lo <= i < lo + n)%nat -> stays lo g i) -> asweep lo n g = Some g' ->
  forall j, (j < lo)%nat -> g_adj g' j = g_adj g j.
Proof.
  induction n as [|n IH]; intros g g' HS E j Hj; cbn [asweep] in E.
  - assert (g = g') by congruence. subst. reflexivity.
  - destruct (effect g (lo + n)) as [l|] eqn:EE; [|discriminate].
    rewrite (IH (set_gadj g (apply_effect l (g_adj g))) g').
    + cbn [set_gadj g_adj]. apply apply_other_any. eapply Forall_impl; [|eapply (stays_effect lo g (lo + n)); [apply HS; lia|exact EE]].
      cbv beta. intros; lia.
    + intros i Hi. apply stays_adj. apply HS. lia.
    + exact E.
    + exact Hj.
Qed.

(* ---- operands of the records a program makes ---- *)
Definition act_over (kk : list nat) (a : act) : Prop :=
  match a with
  | ANew _ ops _ _ => incl ops kk
  | AAlias k ch => kk = k :: nil /\ ch = None
  | _ => True
  end.

Lemma aregs_both g env l1 l2 : aregs g env (l1 ++ l2) =
  match aregs g env l1, aregs g env l2 with Some a, Some b => Some (a ++ b) | _, _ => None end.
Proof.
  induction l1 as [|r l1 IH]; cbn [app aregs]; [destruct (aregs g env l2); auto|].
  destruct (areg g env r); auto. rewrite IH. destruct (aregs g env l1); auto. destruct (aregs g env l2); auto.
Qed.

Lemma act_op_over g env o kk : aregs g env (op_regs o) = Some kk -> neutral o = false -> act_over kk (act_op g env o).
Proof.
  intros EK HN.
  assert (ONE : forall a, aregs g env (a :: nil) = Some kk -> exists k, areg g env a = Some k /\ kk = k :: nil).
  { intros a H. cbn [aregs] in H. destruct (areg g env a) as [k|]; [|discriminate]. exists k. split; congruence. }
  assert (IR : forall l : list nat, incl l l) by (intros l; apply incl_refl).
  assert (IN : forall l : list nat, incl [] l) by (intros l; apply incl_nil_l).
  destruct o; cbn [op_regs] in EK; cbn [act_op]; try exact Logic.I.
  - apply IN.
  - apply IN.
  - destruct (ONE _ EK) as (k & -> & ->). destruct u; cbn [act_un act_over anew1]; auto.
    + destruct (is_nan_d _); cbn [act_over]; auto. destruct (fle _ _); cbn [act_over anew1]; auto.
    + destruct (is_nan_d _); cbn [act_over]; auto. destruct (_ || _); cbn [act_over anew1]; auto.
    + unfold act_abs. destruct (fgt _ _); cbn [act_over]; auto. destruct (flt _ _); cbn [act_over]; auto.
      destruct (feq _ _); cbn [act_over]; auto.
  - cbn [aregs] in EK. destruct (areg g env x) as [k1|]; [|discriminate]. destruct (areg g env y) as [k2|]; [|discriminate].
    assert (kk = [k1; k2]) by congruence; subst. destruct b; cbn [act_vv act_over]; auto.
  - destruct (ONE _ EK) as (k & -> & ->). cbn [neutral] in HN.
    destruct b; cbn [act_vd]; unfold fne; try (rewrite HN; cbn [negb act_over]; auto).
    repeat match goal with |- context [if ?c then _ else _] => destruct c; cbn [act_over anew1]; auto end.
  - destruct (ONE _ EK) as (k & -> & ->). cbn [neutral] in HN.
    destruct b; cbn [act_dv]; unfold fne; try (rewrite HN); cbn [negb act_over]; auto.
  - rewrite EK. cbn [act_over]. auto.
  - rewrite EK. cbn [act_over]. auto.
  - rewrite EK. cbn [act_over]. auto.
  - rewrite aregs_both in EK. destruct (aregs g env l1); [|discriminate]. destruct (aregs g env l2); [|discriminate].
    assert (kk = l ++ l0) by congruence; subst. destruct (Nat.eqb _ _); cbn [act_over]; auto.
  - rewrite EK. destruct (Nat.eqb _ _); cbn [act_over]; auto.
  - rewrite EK. destruct (Nat.eqb _ _); cbn [act_over]; auto.
  - rewrite EK. destruct (Nat.eqb _ _); cbn [act_over]; auto.
Qed.

(* no matrix product *)
Definition mat_free (p : list op) : Prop := Forall (fun o => is_matmul o = false) p.

Lemma areg_in g ke r k : areg g ke r = Some k -> In k ke.
Proof.
  unfold areg. destruct (nth_error ke r) as [k3|] eqn:E3; [|discriminate].
  destruct (Nat.ltb k3 (gsize g)); [|discriminate]. intros E. assert (k3 = k) by congruence. subst. eapply nth_error_In; eauto.
Qed.
Lemma aregs_in g ke l : forall kk, aregs g ke l = Some kk -> incl kk ke.
Proof.
  induction l as [|r l IH]; intros kk H; cbn [aregs] in H; [assert (kk = []) by congruence; subst; apply incl_nil_l|].
  destruct (areg g ke r) as [k|] eqn:E1; [|discriminate]. destruct (aregs g ke l) as [k2|]; [|discriminate].
  assert (kk = k :: k2) by congruence; subst. apply incl_cons; [eapply areg_in; eauto|auto].
Qed.

Lemma op_inside (HC : cfg_ok C) n0 s g ke o hs s1 : Rel s g -> good g -> (n0 <= gsize g)%nat ->
  Forall (fun k => (n0 <= k < gsize g)%nat) ke -> op_shape o -> neutral o = false -> is_matmul o = false ->
  exec_op (map hd ke) o s = Ok (hs, s1) ->
  exists ks g1, hs = map hd ks /\ Rel s1 g1 /\ good g1 /\ grows g g1 /\
    Forall (fun k => (n0 <= k < gsize g1)%nat) (ke ++ ks) /\ forall k, (gsize g <= k < gsize g1)%nat -> stays n0 g1 k.
Proof.
  intros R0 HG HN HB O1 O2 O3 E.
  assert (HB0 : Forall (fun k => (k < gsize g)%nat) ke) by (eapply Forall_impl; [|exact HB]; cbv beta; intros; lia).
  destruct (op_run HC s g ke o hs s1 R0 (good_sound g HG) HB0 O1 O2 E) as (kk & ks & g1 & EK & EX & R1 & _ & GR1 & -> & B1).
  exists ks, g1. split; auto. split; auto.
  assert (HN' : Forall (has_node g ke) (op_regs o)).
  { clear - EK. revert kk EK. induction (op_regs o) as [|r l IH]; intros kk EK; constructor; cbn [aregs] in EK;
      destruct (areg g ke r) as [k|] eqn:E1; try discriminate; [exists k; auto|].
    destruct (aregs g ke l) as [k2|]; [|discriminate]. eapply IH; eauto. }
  split.
  { apply (proj2 (op_accept_g g ke o HG HN' O1 O2 ltac:(congruence)) ks g1 EX). }
  split; auto. pose proof (grows_size _ _ GR1) as SG.
  assert (HX2 : abind (do_act g (act_op g ke o)) (fun p => AOk (fst p :: nil, snd p)) = AOk (ks, g1)).
  { destruct o; try discriminate O3; exact EX. }
  pose proof (act_op_over g ke o kk EK O2) as HW. pose proof (aregs_in _ _ _ _ EK) as HI.
  assert (HBin : forall k, In k kk -> (n0 <= k < gsize g)%nat).
  { intros k Hk. rewrite Forall_forall in HB. apply HB. apply HI. exact Hk. }
  apply Forall_app in B1. destruct B1 as [_ B1].
  destruct (act_op g ke o) as [v ops ds ch|k ch| |]; cbn [do_act abind fst snd act_over] in *; try discriminate.
  - assert (ks = gsize g :: nil) by congruence. assert (g1 = a_new g v (BRec ops ds) ch) by congruence. subst ks g1.
    rewrite new_size in *. split.
    + apply Forall_app. split; [eapply Forall_impl; [|exact HB]; cbv beta; intros; lia|]. repeat constructor; lia.
    + intros k Hk. assert (k = gsize g) by lia. subst k. unfold stays, a_new, push_top. cbn [g_nodes].
      rewrite nth_error_app2 by (unfold gsize; lia). unfold gsize at 1. rewrite Nat.sub_diag. cbn [nth_error n_body].
      apply Forall_forall. intros i Hi. apply (HBin i). apply HW. exact Hi.
  - destruct HW as [-> ->]. cbn [abind fst snd] in HX2. assert (ks = k :: nil) by congruence. assert (g1 = g) by congruence. subst ks g1. split.
    + apply Forall_app. split; [exact HB|]. constructor; [|constructor]. apply HBin. left. reflexivity.
    + intros; lia.
Qed.

Lemma run_inside (HC : cfg_ok C) n0 p : forall s g ke env' s', Rel s g -> good g -> (n0 <= gsize g)%nat ->
  Forall (fun k => (n0 <= k < gsize g)%nat) ke -> prog_ok' p -> mat_free p -> exec p (map hd ke) s = Ok (env', s') ->
  exists g' ke', Rel s' g' /\ good g' /\ grows g g' /\ env' = map hd ke' /\ Forall (fun k => (n0 <= k < gsize g')%nat) ke' /\
    forall k, (gsize g <= k < gsize g')%nat -> stays n0 g' k.
Proof.
  induction p as [|o p IH]; intros s g ke env' s' R0 HG HN HB HO HM HX.
  - cbn [exec] in HX. unfold mret in HX. assert (env' = map hd ke) by congruence. assert (s' = s) by congruence. subst.
    exists g, ke. split; auto. split; auto. split; [apply grows_refl|]. split; auto. split; auto. intros; lia.
  - inversion HO as [|? ? [O1 O2] O3]; subst. inversion HM as [|? ? M1 M2]; subst. cbn [exec] in HX. unfold mbind in HX.
    destruct (exec_op (map hd ke) o s) as [[hs s1]| | |] eqn:E; try discriminate. cbn [bind] in HX.
    destruct (op_inside HC n0 s g ke o hs s1 R0 HG HN HB O1 O2 M1 E) as (ks & g1 & -> & R1 & G1 & GR1 & B1 & S1).
    rewrite <- map_app in HX. pose proof (grows_size _ _ GR1) as SG.
    destruct (IH s1 g1 (ke ++ ks) env' s' R1 G1 ltac:(lia) B1 O3 M2 HX) as (g' & ke' & Q1 & Q2 & Q3 & Q4 & Q5 & Q6).
    exists g', ke'. split; auto. split; auto. split; [eapply grows_trans; eauto|]. split; auto. split; auto.
    intros k Hk. destruct (Nat.ltb_spec k (gsize g1)) as [L|L]; [|apply Q6; lia]. apply (stays_grows n0 g1 g' k Q3). apply S1. lia.
Qed.

Lemma leaves_inside (HC : cfg_ok C) n0 xs : forall s g xv s1, Rel s g -> good g -> (n0 <= gsize g)%nat -> new_var_vals xs s = Ok (xv, s1) ->
  exists g1, Rel s1 g1 /\ good g1 /\ grows g g1 /\ xv = map hd (seq (gsize g) (length xs)) /\ gsize g1 = (gsize g + length xs)%nat /\
    forall k, (gsize g <= k < gsize g1)%nat -> stays n0 g1 k.
Proof.
  induction xs as [|x xs IH]; intros s g xv s1 R0 HG HN HX.
  - destruct (new_vals_nil _ _ _ HX) as [-> ->]. exists g. split; auto. split; auto.
    split; [apply grows_refl|]. cbn [length seq map]. split; auto. split; [lia|]. intros; lia.
  - destruct (new_vals_cons _ _ _ _ _ HX) as (h & sm & hs & E1 & E2 & ->). clear HX.
    pose proof (new_var_val_ok HC _ s g x R0 (fun H => H)) as Y.
    rewrite E1 in Y. unfold yields, wp in Y. cbn [fst snd] in Y. destruct Y as [Eh Rm].
    set (gm := a_new g x (BRec [] []) None) in *. assert (SM : gsize gm = S (gsize g)) by apply new_size.
    destruct (IH sm gm hs s1 Rm (good_leaf g x HG) ltac:(lia) E2) as (g1 & Q1 & Q2 & Q3 & Q4 & Q5 & Q6). rewrite SM in *.
    exists g1. split; auto. split; auto. split; [apply (grows_trans g gm g1); [apply grows_new|exact Q3]|]. cbn [length seq map].
    split; [rewrite Eh, Q4; reflexivity|]. split; [lia|].
    intros k Hk. destruct (Nat.eqb_spec k (gsize g)) as [->|]; [|apply Q6; lia]. apply (stays_grows n0 gm g1 _ Q3).
    unfold stays, gm, a_new, push_top. cbn [g_nodes]. rewrite nth_error_app2 by (unfold gsize; lia). unfold gsize. rewrite Nat.sub_diag.
    cbn [nth_error n_body]. constructor.
Qed.

(* ---- one sweep inside the block ---- *)
Lemma nested_step (HJ : exists j, junk = Some j) s g m r k : Rel s g -> sound g -> g_nest g = m :: r -> (k < gsize g)%nat ->
  exists s1 f, grad_nested (hd k) s = Ok (tt, s1) /\ Rel s1 (set_gadj g f) /\
    asweep (mk_n m) (gsize g - mk_n m) (a_seed g k) = Some (set_gadj g f).
Proof.
  intros R0 HG HN Hk. destruct (trunc_facts g m r (r_wf s g R0) HN) as (F1 & _).
  destruct (sound_sweep HJ g HG (gsize g - mk_n m) (mk_n m) ltac:(lia) (nupd (g_adj g) k f1)) as (g2 & E2).
  assert (AN : agrad_nested k g = Some g2).
  { unfold agrad_nested. rewrite HN. replace (Nat.ltb k (gsize g)) with true by lia. exact E2. }
  destruct (grad_nested_ok s g k g2 R0 AN) as (s1 & E1 & R1). pose proof (asweep_form _ _ _ _ E2) as [f Ef].
  change (set_gadj (set_gadj g (nupd (g_adj g) k f1)) f) with (set_gadj g f) in Ef. subst g2.
  exists s1, f. auto.
Qed.

Lemma srows_outer (HJ : exists j, junk = Some j) g m r o n yv pv : sound g -> g_nest g = m :: r ->
  (forall i, (mk_n m <= i < gsize g)%nat -> stays (mk_n m) g i) ->
  forall ks s f rs s', Rel s (set_gadj g f) -> Forall (fun k => (mk_n m <= k < gsize g)%nat) ks ->
  srows o n yv pv (map hd ks) s rs s' ->
  exists f', Rel s' (set_gadj g f') /\ forall j, (j < mk_n m)%nat -> f' j = f j.
Proof.
  intros HG HN HS. induction ks as [|k ks IH]; intros s f rs s' R0 HB HR; cbn [map srows] in HR.
  - destruct rs; [|tauto]. subst. eauto.
  - destruct rs as [|row rs]; [tauto|]. destruct HR as (s1 & s2 & E1 & _ & _ & E2 & HR).
    inversion HB as [|? ? Hk HB']; subst.
    assert (HG' : sound (set_gadj g f)) by (apply (good_set_gadj (unnest g)); exact HG).
    destruct (nested_step HJ s (set_gadj g f) m r k R0 HG' HN) as (s1' & f1' & E1' & R1 & ES); [exact (proj2 Hk)|].
    assert (s1' = s1) by congruence. subst s1'.
    destruct (zero_nested_ok s1 _ m r R1 HN) as (s2' & E2' & R2). assert (s2' = s2) by congruence. subst s2'.
    destruct (IH s2 _ rs s' R2 HB' HR) as (f' & R' & HF). exists f'. split; auto. intros j Hj. rewrite (HF j Hj). cbn [set_gadj g_adj].
    replace (Nat.leb (mk_n m) j) with false by lia. cbn [andb].
    change (f1' j) with (g_adj (set_gadj (set_gadj g f) f1') j).
    assert (HS' : forall i, (mk_n m <= i < mk_n m + (gsize g - mk_n m))%nat -> stays (mk_n m) (a_seed (set_gadj g f) k) i).
    { intros i Hi. apply HS. lia. }
    rewrite (sweep_low (mk_n m) _ _ _ HS' ES j Hj).
    unfold a_seed, nupd. cbn [set_gadj g_adj]. replace (Nat.eqb j k) with false by lia. reflexivity.
Qed.

(* a callback that returns: the graph of the caller, with unchanged adjoints *)
Lemma callback_keeps t y yS (o : cvs_rhs) q outs s g r s' : practical -> ode_f o = rhs_prog q outs ->
  prog_ok' (q t) -> mat_free (q t) -> Rel s g -> good g -> set_sens_rhs t y yS o s = Ok (r, s') ->
  exists g', Rel s' g' /\ good g' /\ grows g g' /\ gsize g' = gsize g.
Proof.
  intros [HC HJ] EF HO HM R0 HG HX.
  destruct (sens_inv t y yS o q outs s r s' EF HX) as (s1 & yv & fv & pv & s2 & env' & s3 & hs & rs & s4 & E1 & E2 & _ & _ & _ & E3 & E4 & _ & E5 & E6 & _).
  destruct (abegin g) as [g1|] eqn:AB; [|rewrite (begin_deep s g R0 AB) in E1; discriminate].
  destruct (begin_ok s g g1 R0 AB) as (s1' & EB' & R1). assert (s1' = s1) by congruence. subst s1'. clear EB'.
  pose proof (good_begin g g1 HG AB) as G1.
  assert (SB : gsize g1 = gsize g /\ g_nodes g1 = g_nodes g /\ g_arrs g1 = g_arrs g /\ g_ch g1 = g_ch g /\ g_adj g1 = g_adj g /\
     g_nest g1 = mkMark (gsize g) (length (g_arrs g)) (g_top g) :: g_nest g).
  { unfold abegin in AB. destruct (Nat.ltb _ _); [|discriminate]. injection AB as <-. cbn [g_nodes g_adj g_arrs g_ch g_nest].
    split; [reflexivity|]. auto 8. }
  destruct SB as (SZ & SN & SA & SC & SJ & NE).
  set (xs := y ++ repeat f0 (length y) ++ par_vals o (length y)) in *.
  destruct (leaves_inside HC (gsize g) xs s1 g1 _ s2 R1 G1 ltac:(lia) E2) as (g2 & R2 & G2 & GR2 & EX & SZ2 & S2).
  rewrite EX, SZ in E3. rewrite SZ in SZ2.
  assert (HB2 : Forall (fun k => (gsize g <= k < gsize g2)%nat) (seq (gsize g) (length xs))).
  { apply Forall_forall. intros k Hk. apply in_seq in Hk. lia. }
  destruct (run_inside HC (gsize g) (q t) s2 g2 _ env' s3 R2 G2 ltac:(lia) HB2 HO HM E3) as (g3 & ke' & R3 & G3 & GR3 & -> & B3 & S3).
  assert (FK : exists ks, hs = map hd ks /\ Forall (fun k => (gsize g <= k < gsize g3)%nat) ks).
  { clear - E4 B3. induction E4 as [|y h ys hs E _ (ks & -> & IH)]; [exists []; split; auto|].
    rewrite nth_error_map in E. destruct (nth_error ke' y) as [k|] eqn:Ek; [|discriminate]. cbn [option_map] in E.
    exists (k :: ks). split; [cbn [map]; congruence|]. constructor; auto. rewrite Forall_forall in B3. apply B3. eapply nth_error_In; eauto. }
  destruct FK as (ks & -> & BK).
  pose proof (grows_trans _ _ _ GR2 GR3) as GR. pose proof (gr_nest _ _ GR) as NE3. rewrite NE in NE3.
  pose proof (grows_size _ _ GR3) as SG3.
  assert (HS : forall i, (gsize g <= i < gsize g3)%nat -> stays (gsize g) g3 i).
  { intros i Hi. destruct (Nat.ltb_spec i (gsize g2)) as [L|L]; [|apply S3; lia]. apply (stays_grows _ g2 g3 i GR3). apply S2. lia. }
  assert (R3' : Rel s3 (set_gadj g3 (g_adj g3))) by (destruct g3; exact R3).
  destruct (srows_outer HJ g3 _ _ o (length y) yv pv (good_sound g3 G3) NE3 HS ks s3 (g_adj g3) rs s4 R3' BK E5) as (f & R4 & HF).
  cbn [mk_n] in HF.
  pose proof (end_inv s4 _ _ _ s' R4 NE3 E6) as R5.
  eexists. split; [exact R5|].
  assert (SZ5 : gsize (atrunc (mkMark (gsize g) (length (g_arrs g)) (g_top g)) (g_nest g) (set_gadj g3 f)) = gsize g).
  { rewrite trunc_size; [reflexivity|]. cbn [mk_n]. change (gsize (set_gadj g3 f)) with (gsize g3). lia. }
  split; [|split; [|exact SZ5]].
  - apply good_trunc; [apply (r_wf _ _ R4)|apply good_set_gadj; exact G3|exact NE3].
  - constructor.
    + exists []. rewrite app_nil_r. cbn [atrunc g_nodes set_gadj mk_n]. destruct (gr_nodes _ _ GR) as [l ->]. rewrite SN.
      unfold gsize. rewrite firstn_app, Nat.sub_diag, firstn_all. cbn [firstn]. apply app_nil_r.
    + exists []. rewrite app_nil_r. cbn [atrunc g_arrs set_gadj mk_a]. destruct (gr_arrs _ _ GR) as [l ->]. rewrite SA.
      rewrite firstn_app, Nat.sub_diag, firstn_all. cbn [firstn]. apply app_nil_r.
    + intros k Hk. cbn [atrunc g_adj set_gadj]. rewrite HF by exact Hk. rewrite (gr_adj _ _ GR) by lia. rewrite SJ. reflexivity.
    + intros k Hk. rewrite SZ5 in Hk. lia.
    + intros k Hk. cbn [atrunc g_ch set_gadj]. rewrite (gr_ch _ _ GR) by lia. rewrite SC. reflexivity.
    + reflexivity.
Qed.

End Facts.
