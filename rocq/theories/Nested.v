(* gradient and jacobian taken apart, and grad_nested against grad (C37-C40);
   any arithmetic. *)
From Coq Require Import ZifyBool ZifyNat.
From Verif Require Import TapeFacts.
From Verif Require Export Blocks Storage Reach.

Section Nested.
Context {N : Num} {RL : RepLaws N} {C : Cfg N}.

(* ---- the calls gradient and jacobian make ---- *)

Lemma gradient_inv f x s r s5 : gradient f x s = Ok (r, s5) ->
  exists s1 xv s2 fv s3 v s4 g, begin_nested s = Ok (tt, s1) /\ new_var_vals x s1 = Ok (xv, s2) /\
    f xv s2 = Ok (fv, s3) /\ var_val s3 fv = Ok v /\ grad fv s3 = Ok (tt, s4) /\
    mapM (var_adj s4) xv = Ok g /\ end_nested s4 = Ok (tt, s5) /\ r = v :: g.
Proof.
  unfold gradient, mbind, vval, vadjs, mget, mret. intros H.
  destruct (begin_nested s) as [[[] s1]| | |] eqn:E1; try discriminate. cbn [bind] in H.
  destruct (new_var_vals x s1) as [[xv s2]| | |] eqn:E2; try discriminate. cbn [bind] in H.
  destruct (f xv s2) as [[fv s3]| | |] eqn:E3; try discriminate. cbn [bind] in H.
  destruct (var_val s3 fv) as [v| | |] eqn:E4; try discriminate. cbn [bind] in H.
  destruct (grad fv s3) as [[[] s4]| | |] eqn:E5; try discriminate. cbn [bind] in H.
  destruct (mapM (var_adj s4) xv) as [g| | |] eqn:E6; try discriminate. cbn [bind] in H.
  destruct (end_nested s4) as [[[] s6]| | |] eqn:E7; try discriminate. cbn [bind] in H.
  exists s1, xv, s2, fv, s3, v, s4, g. assert (r = v :: g) by congruence. assert (s6 = s5) by congruence. subst s6.
  repeat split; auto.
Qed.

Fixpoint rows (xv hs : list Z) (s : st) (gs : list (list F)) (s' : st) : Prop :=
  match hs, gs with
  | [], [] => s = s'
  | h :: t, g :: u => exists s1 s2, set_zero_nested_adj s = Ok (tt, s1) /\ grad h s1 = Ok (tt, s2) /\
      mapM (var_adj s2) xv = Ok g /\ rows xv t s2 u s'
  | _, _ => False
  end.

Lemma rows_inv xv hs : forall s gs s', mmap (jac_row xv) hs s = Ok (gs, s') -> rows xv hs s gs s'.
Proof.
  induction hs as [|h hs IH]; intros s gs s' H; cbn [mmap] in H.
  - unfold mret in H. assert (gs = []) by congruence. assert (s = s') by congruence. subst. reflexivity.
  - unfold mbind in H. destruct (jac_row xv h s) as [[g s2]| | |] eqn:E; try discriminate. cbn [bind] in H.
    destruct (mmap (jac_row xv) hs s2) as [[gs' s3]| | |] eqn:E2; try discriminate. cbn [bind] in H. unfold mret in H.
    assert (gs = g :: gs') by congruence. assert (s3 = s') by congruence. subst. cbn [rows].
    unfold jac_row, mbind, vadjs, mget in E.
    destruct (set_zero_nested_adj s) as [[[] s1]| | |] eqn:F1; try discriminate. cbn [bind] in E.
    destruct (grad h s1) as [[[] s4]| | |] eqn:F2; try discriminate. cbn [bind] in E.
    destruct (mapM (var_adj s4) xv) as [g'| | |] eqn:F3; try discriminate. cbn [bind] in E.
    assert (g' = g) by congruence. assert (s4 = s2) by congruence. subst g' s4.
    exists s1, s2. repeat split; auto.
Qed.

Lemma jacobian_inv f x s r s5 : jacobian f x s = Ok (r, s5) ->
  exists s1 xv s2 fv s3 vs gs s4, begin_nested s = Ok (tt, s1) /\ new_var_vals x s1 = Ok (xv, s2) /\
    f xv s2 = Ok (fv, s3) /\ mapM (var_val s3) fv = Ok vs /\ rows xv fv s3 gs s4 /\
    end_nested s4 = Ok (tt, s5) /\ r = map (fun p => fst p :: snd p) (combine vs gs).
Proof.
  unfold jacobian, mbind, vvals, mget. intros H.
  destruct (begin_nested s) as [[[] s1]| | |] eqn:E1; try discriminate. cbn [bind] in H.
  destruct (new_var_vals x s1) as [[xv s2]| | |] eqn:E2; try discriminate. cbn [bind] in H.
  destruct (f xv s2) as [[fv s3]| | |] eqn:E3; try discriminate. cbn [bind] in H.
  destruct (mapM (var_val s3) fv) as [vs| | |] eqn:E4; try discriminate. cbn [bind] in H.
  destruct (mmap (jac_row xv) fv s3) as [[gs s4]| | |] eqn:E5; try discriminate. cbn [bind] in H.
  destruct (end_nested s4) as [[[] s6]| | |] eqn:E7; try discriminate. cbn [bind] in H. unfold mret in H.
  exists s1, xv, s2, fv, s3, vs, gs, s4. assert (s6 = s5) by congruence. subst s6.
  split; auto. split; auto. split; auto. split; auto. split; [apply rows_inv; auto|]. split; auto. congruence.
Qed.

(* the function handed to gradient / jacobian: a program over the caller's
   variables followed by the new ones *)
Definition user_fn (q : list op) (env : list Z) (y : nat) (xv : list Z) : M Z :=
  env' <~ exec q (env ++ xv) ;; reg env' y.
Definition user_fns (q : list op) (env : list Z) (ys : list nat) (xv : list Z) : M (list Z) :=
  env' <~ exec q (env ++ xv) ;; regs env' ys.

Lemma body_inv q env y xv s h s' : user_fn q env y xv s = Ok (h, s') ->
  exists env', exec q (env ++ xv) s = Ok (env', s') /\ nth_error env' y = Some h.
Proof.
  unfold user_fn, mbind. destruct (exec q (env ++ xv) s) as [[e s1]| | |]; try discriminate. cbn [bind]. unfold reg.
  destruct (nth_error e y) as [h'|] eqn:E; unfold mret, mlift; cbn [bind]; [|discriminate]. intros H.
  exists e. assert (s1 = s') by congruence. subst. split; auto. congruence.
Qed.

Lemma regs_inv env ys : forall s hs s', regs env ys s = Ok (hs, s') -> s = s' /\ Forall2 (fun y h => nth_error env y = Some h) ys hs.
Proof.
  unfold regs. induction ys as [|y ys IH]; intros s hs s' H; cbn [mmap] in H.
  - unfold mret in H. split; [congruence|]. assert (hs = []) by congruence. subst. constructor.
  - unfold mbind in H. unfold reg at 1 in H. destruct (nth_error env y) as [h|] eqn:E; unfold mret, mlift in H; cbn [bind] in H; [|discriminate].
    destruct (mmap (reg env) ys s) as [[hs' s2]| | |] eqn:E2; try discriminate. cbn [bind] in H.
    destruct (IH _ _ _ E2) as [-> F]. assert (hs = h :: hs') by congruence. subst. split; [congruence|]. constructor; auto.
Qed.

Lemma bodies_inv q env ys xv s hs s' : user_fns q env ys xv s = Ok (hs, s') ->
  exists env', exec q (env ++ xv) s = Ok (env', s') /\ Forall2 (fun y h => nth_error env' y = Some h) ys hs.
Proof.
  unfold user_fns, mbind. destruct (exec q (env ++ xv) s) as [[e s1]| | |]; try discriminate. cbn [bind]. intros H.
  destruct (regs_inv _ _ _ _ _ H) as [-> F]. eauto.
Qed.

(* ---- grad_nested is the first part of grad ---- *)

Lemma asweep_split lo : forall n g, asweep 0 (lo + n) g =
  match asweep lo n g with Some g1 => asweep 0 lo g1 | None => None end.
Proof.
  induction n as [|n IH]; intros g; cbn [asweep].
  - rewrite Nat.add_0_r. reflexivity.
  - replace (lo + S n)%nat with (S (lo + n)) by lia. cbn [asweep]. cbn [Nat.add].
    destruct (effect g (lo + n)); auto.
Qed.

Lemma apply_other_any l : forall (f : nat -> F) i, Forall (fun p => fst p <> i) l -> apply_effect l f i = f i.
Proof.
  induction l as [|p l IH]; intros f i HF; auto. inversion HF; subst.
  change (apply_effect (p :: l) f) with (apply_effect l (addto f p)). rewrite IH by auto. unfold addto, nupd.
  destruct (Nat.eqb_spec i (fst p)); [congruence|reflexivity].
Qed.

Lemma sweep_high lo : forall n g g', gwf g -> asweep lo n g = Some g' ->
  forall i, (lo + n <= S i)%nat -> g_adj g' i = g_adj g i.
Proof.
  induction n as [|n IH]; intros g g' W E i Hi; cbn [asweep] in E.
  - inversion E; subst. reflexivity.
  - destruct (effect g (lo + n)) as [l|] eqn:EE; [|discriminate].
    rewrite (IH _ g' (gwf_set_gadj g _ W) E i) by lia. cbn [set_gadj g_adj]. apply apply_other_any.
    eapply Forall_impl; [|apply (effect_lt g (lo + n) l W EE)]. cbv beta. intros; lia.
Qed.

Lemma nested_same s h lo : practical -> valid s -> alive s h -> 1 <= s_lvl s -> curr_nested_vari_head s = Ok lo ->
  exists s1 s2, grad h s = Ok (tt, s1) /\ grad_nested h s = Ok (tt, s2) /\
    only_adjoints s s2 /\ forall z, alive s z -> lo <= z -> var_adj s2 z = var_adj s1 z.
Proof.
  intros [HC HJ] (g & R & HG) Hh HL Hlo. destruct (alive_node s g h R Hh) as (k & -> & Hk).
  destruct (g_nest g) as [|m r] eqn:EN.
  { rewrite (r_lvl s g R), EN in HL. unfold zlen in HL. cbn [length] in HL. lia. }
  destruct (trunc_facts g m r (r_wf s g R) EN) as (F1 & _).
  assert (Elo : lo = Z.of_nat (mk_n m) + 1).
  { unfold curr_nested_vari_head, nest_get in Hlo. pose proof (r_nest s g R) as HNS. pose proof (r_lvl10 s g R) as H10.
    rewrite (r_lvl s g R), EN in Hlo. rewrite EN in HNS, H10. set (L := zlen (m :: r)) in *.
    assert (1 <= L <= 10) by (unfold L, zlen; simpl in H10 |- *; lia).
    replace (0 <? L) with true in Hlo by lia.
    replace ((1 <=? L) && (L <=? max_nested_stack)) with true in Hlo by (unfold max_nested_stack; lia).
    cbn [nest_at] in HNS. fold L in HNS. destruct HNS as (N1 & _). rewrite N1 in Hlo. congruence. }
  destruct (agrad_total HJ g k HG Hk) as (g1 & EG & _).
  destruct (grad_ok s g k g1 R EG) as (s1 & E1 & R1).
  unfold agrad in EG. destruct (Nat.ltb_spec k (gsize g)); [|discriminate].
  replace (gsize g) with (mk_n m + (gsize g - mk_n m))%nat in EG by lia. rewrite asweep_split in EG.
  destruct (asweep (mk_n m) (gsize g - mk_n m) (a_seed g k)) as [g2|] eqn:ES; [|discriminate].
  assert (AN : agrad_nested k g = Some g2).
  { unfold agrad_nested. rewrite EN. replace (Nat.ltb k (gsize g)) with true by lia. exact ES. }
  destruct (grad_nested_ok s g k g2 R AN) as (s2 & E2 & R2).
  exists s1, s2. split; auto. split; auto.
  pose proof (asweep_form _ _ _ _ ES) as [f2 ->]. pose proof (asweep_form _ _ _ _ EG) as [f1' ->].
  split; [apply (adj_only s s2 g f2 R); exact R2|].
  intros z Hz Hzl. destruct (alive_node s g z R Hz) as (j & -> & Hj).
  rewrite (rel_var_adj s1 _ R1 j) by exact Hj. rewrite (rel_var_adj s2 _ R2 j) by exact Hj. f_equal.
  symmetry. apply (sweep_high 0 (mk_n m) (set_gadj (a_seed g k) f2)); auto.
  - apply gwf_set_gadj, gwf_set_gadj. apply (r_wf s g R).
  - unfold hd in Hzl. lia.
Qed.

(* a block that ended normally *)
Lemma end_inv s g m r s' : Rel s g -> g_nest g = m :: r -> end_nested s = Ok (tt, s') -> Rel s' (atrunc m r g).
Proof.
  intros R EN EE. destruct (r_twf s g R) as (T1 & _ & _). rewrite (r_thead s g R) in T1.
  destruct (Z.eq_dec (t_size (s_tape s)) (g_top g - 1)) as [E|E].
  - rewrite (end_full s g m r R EN E) in EE. discriminate.
  - destruct (end_fits s g m r R EN) as (s2 & E2 & R2); [lia|]. assert (s2 = s') by congruence. subst. exact R2.
Qed.

End Nested.
