(* Proofs of the storage, call-frame and session claims, on reachable states. *)
From Coq Require Import ZifyBool ZifyNat.
From Flocq Require Import IEEE754.BinarySingleNaN IEEE754.Binary IEEE754.Bits.
From Verif Require Import TapeFacts.
From Verif Require Export B64Facts Reach.

Section Claims.
Context {N : Num} {RL : RepLaws N} {C : Cfg N}.

(* ---- values, adjoints and data come back (C01, C02) ---- *)

Lemma exec_var d s : exec_op [] (OVar d) s = one (new_var_val d) s.
Proof. reflexivity. Qed.

Lemma new_var_spec env s d h s' : practical -> reachable env s ->
  new_var_val d s = Ok (h, s') ->
  h = s_head s /\ ~ alive s h /\ alive s' h /\ var_val s' h = Ok d /\ var_adj s' h = Ok f0 /\
  (forall x, alive s x -> untouched s s' x).
Proof.
  intros HP HR HX. destruct (reach_valid env s HP HR) as [HV _].
  assert (HO : op_ok s [] (OVar d)).
  { split; [constructor|]. split; [exact Logic.I|]. split; [reflexivity|]. discriminate. }
  assert (HE : exec_op [] (OVar d) s = Ok ([h], s')).
  { rewrite exec_var. unfold one. rewrite (mbind_ok _ _ _ _ _ HX). reflexivity. }
  pose proof (op_frame_concrete s [] (OVar d) HP HV (Forall_nil _) HO) as HF. rewrite HE in HF.
  destruct HF as (V' & _ & HU & [[HA _]|(H1 & H2 & H3)]); [discriminate|].
  destruct (H3 h (or_introl eq_refl)) as (A1 & A2 & A3).
  destruct (op_value s [] (OVar d) [h] s' HP HV (Forall_nil _) HO eq_refl HE) as (xs & ys & X1 & X2 & X3).
  cbn in X3. inversion X3; subst ys. cbn [mapM] in X2.
  destruct (var_val s' h) as [v| | |] eqn:EV; cbn [bind] in X2; try discriminate.
  inversion X2; subst v. cbn in H1. inversion H1; subst h. split; [auto|]. split; [exact A2|]. split; [exact A1|]. auto.
Qed.

Lemma set_adj_spec env s h d s' : practical -> reachable env s -> alive s h ->
  set_var_adj h d s = Ok s' ->
  var_adj s' h = Ok d /\ var_val s' h = var_val s h /\ (forall x, x <> h -> alive s x -> untouched s s' x).
Proof.
  intros HP HR Hh HX. destruct (reach_valid env s HP HR) as [(g & R & HG) _].
  destruct (alive_node s g h R Hh) as (k & -> & Hk).
  destruct (rel_set_var_adj s g k d R Hk) as (s1 & E1 & R1). rewrite HX in E1. inversion E1; subst s1; clear E1.
  split; [rewrite (rel_var_adj s' _ R1) by exact Hk; cbn; unfold nupd; rewrite Nat.eqb_refl; reflexivity|].
  split; [eapply node_same_val; [exact R|exact R1|exact Hk|exact Hk|reflexivity]|].
  intros x Hx Hax. destruct (alive_node s g x R Hax) as (j & -> & Hj).
  assert (j <> k) by (intros ->; tauto).
  split; [eapply node_alive; [exact R1|exact Hj]|].
  split; [eapply node_same_val; [exact R|exact R1|exact Hj|exact Hj|reflexivity]|].
  split; [eapply node_same_adj; [exact R|exact R1|exact Hj|exact Hj|]|].
  - cbn. unfold nupd. replace (Nat.eqb j k) with false by lia. reflexivity.
  - eapply node_same_op; [exact R|exact R1|]. unfold same_node. cbn [set_gadj g_nodes].
    destruct (lt_nth_error _ _ Hj) as [nd E]. rewrite E. repeat split; auto.
Qed.

(* data operands: the partials given to var_with_partials are what is recorded *)
Lemma part_spec env s v p l hs s' : practical -> reachable env s ->
  op_ok s env (OPart v p l) -> exec_op env (OPart v p l) s = Ok (hs, s') ->
  exists h xs, hs = [h] /\ op_vals s env (OPart v p l) = Ok xs /\
    var_val s' h = Ok (v xs) /\ var_data s' h = Ok (p xs).
Proof.
  intros HP HR HO HX. destruct (reach_valid env s HP HR) as [HV HH].
  destruct (op_value s env (OPart v p l) hs s' HP HV HH HO eq_refl HX) as (xs & ys & X1 & X2 & X3).
  destruct HV as (g & R & HG). destruct HP as [HC HJ].
  pose proof (exec_op_ok HC s g (nodes_of env) (OPart v p l) R) as HQ. rewrite nodes_of_hd in HQ by auto.
  destruct (op_accept s g env (OPart v p l) R HG HO) as [A1 A2].
  cbn [aexec_op act_op] in *.
  destruct (aregs g (nodes_of env) l) as [ks|] eqn:EA; [|cbn in A1; tauto].
  destruct (Nat.eqb (length (p (map (gval g) ks))) (length ks)) eqn:EL; [|cbn in A1; tauto].
  cbn [do_act abind fst snd] in HQ. specialize (HQ True (fun _ => Logic.I)). rewrite HX in HQ. simpl in HQ.
  destruct HQ as [Q1 Q2]. subst hs.
  cbn [plain] in X3. inversion X3; subst ys. cbn [mapM] in X2.
  destruct (var_val s' (hd (gsize g))) as [y| | |] eqn:EV; cbn [bind] in X2; try discriminate.
  inversion X2; subst y. exists (hd (gsize g)), xs. split; auto. split; auto. split; [auto|].
  assert (EN : nth_error (g_nodes (a_new g (v (map (gval g) ks)) (BRec ks (p (map (gval g) ks))) (Some ChEager)))
     (gsize g) = Some (mkNode (v (map (gval g) ks)) (BRec ks (p (map (gval g) ks))) (g_top g))).
  { cbn [a_new push_top g_nodes]. unfold gsize. rewrite nth_error_app2, Nat.sub_diag by lia. reflexivity. }
  rewrite (rel_var_data s' _ (gsize g) _ Q2 EN). cbn [n_body bdata].
  assert (xs = map (gval g) ks) as ->; [|reflexivity].
  cut (op_vals s env (OPart v p l) = Ok (map (gval g) ks)); [intros Q; rewrite X1 in Q; inversion Q; auto|].
  unfold op_vals. cbn [op_regs]. clear - EA R HH.
  revert ks EA. induction l as [|r l IH]; intros ks EA; cbn [aregs mapM] in *.
  - inversion EA; subst. reflexivity.
  - destruct (areg g (nodes_of env) r) as [k|] eqn:Er; [|discriminate].
    destruct (aregs g (nodes_of env) l) as [ks'|]; [|discriminate]. inversion EA; subst; clear EA.
    unfold reg_val at 1. unfold areg, nodes_of in Er. rewrite nth_error_map in Er.
    destruct (nth_error env r) as [h|] eqn:Eh; cbn [option_map] in Er; [|discriminate].
    destruct (Nat.ltb_spec (Z.to_nat (h - 1)) (gsize g)) as [Hk|]; [|discriminate]. inversion Er; subst k.
    assert (1 <= h) by (unfold handles in HH; rewrite Forall_forall in HH; apply HH; eapply nth_error_In; eauto).
    replace h with (hd (Z.to_nat (h - 1))) by (unfold hd; lia).
    rewrite (rel_var_val s g R) by exact Hk. cbn [bind]. rewrite (IH ks' eq_refl). cbn [bind map].
    unfold hd. do 3 f_equal. lia.
Qed.

(* ---- C02 ---- *)
Lemma call_frame env s o : practical -> reachable env s -> op_ok s env o ->
  match exec_op env o s with
  | Ok (hs, s') =>
      s_lvl s' = s_lvl s /\
      (forall h, alive s h -> untouched s s' h) /\
      ((may_alias o = true /\ (exists h, hs = [h] /\ alive s h) /\ s_head s' = s_head s) \/
       (hs = zseq (s_head s) (length hs) /\ s_head s' = s_head s + zlen hs /\
        forall h, In h hs -> alive s' h /\ ~ alive s h /\ var_adj s' h = Ok f0))
  | ErrStop => exists u r, o = OUn u r /\ (u = UAcosh \/ u = UAtanh)
  | Undef IntOverflow => ~ roomy s (op_words o)
  | _ => False
  end.
Proof.
  intros HP HR HO. destruct (reach_valid env s HP HR) as [HV HH].
  pose proof (op_frame_concrete s env o HP HV HH HO) as HF.
  destruct (exec_op env o s) as [[hs s']| |[]|] eqn:E; auto; [tauto|].
  destruct HV as (g & R & HG). destruct HP as [HC HJ].
  pose proof (exec_op_ok HC s g (nodes_of env) o R) as HQ. rewrite nodes_of_hd in HQ by auto.
  destruct (op_accept s g env o R HG HO) as [A1 A2].
  destruct (aexec_op g (nodes_of env) o) as [[ks g']| |] eqn:EA; simpl in HQ.
  - specialize (HQ True (fun _ => Logic.I)). rewrite E in HQ. simpl in HQ. tauto.
  - clear - EA. destruct o; cbn [aexec_op] in EA.
    all: try (destruct (aregs g (nodes_of env) _); try discriminate).
    all: try (destruct (aregs g (nodes_of env) _); try discriminate).
    all: try (unfold amat in EA; destruct (_ && _ && _); discriminate).
    all: cbn [act_op] in EA.
    all: try (cbn [do_act abind] in EA; discriminate).
    all: try (destruct (areg g (nodes_of env) _) as [k|]; cbn [do_act abind] in EA; try discriminate).
    all: try (destruct (areg g (nodes_of env) _) as [k2|]; cbn [do_act abind] in EA; try discriminate).
    all: try (destruct (aregs g (nodes_of env) _) as [kk|]; cbn [do_act abind] in EA; try discriminate).
    all: try (destruct (aregs g (nodes_of env) _) as [kk2|]; cbn [do_act abind] in EA; try discriminate).
    all: try (destruct (Nat.eqb _ _); cbn [do_act abind] in EA; discriminate).
    + exists u, a. split; auto. destruct u; auto; cbn [act_un anew1 do_act abind] in EA; try discriminate.
      unfold act_abs in EA. destruct (fgt _ _); [discriminate|]. destruct (flt _ _); [discriminate|].
      destruct (feq _ _); discriminate.
    + destruct b; cbn [act_vv do_act abind] in EA; discriminate.
    + destruct b; cbn [act_vd do_act abind] in EA.
      all: try (destruct (fne d _); discriminate).
      * destruct (feq d fhalf); [discriminate|]. destruct (feq d f1); [discriminate|].
        destruct (feq d f2); [discriminate|]. destruct (feq d (fneg f2)); [discriminate|].
        destruct (feq d (fneg f1)); [discriminate|]. destruct (feq d (fneg fhalf)); discriminate.
      * destruct (fne d _); [discriminate|].
        unfold act_abs in EA. destruct (fgt _ _); [discriminate|]. destruct (flt _ _); [discriminate|].
        destruct (feq _ _); discriminate.
    + destruct b; cbn [act_dv do_act abind] in EA; try discriminate; destruct (fne d _); discriminate.
  - tauto.
Qed.

Lemma reach_twf env s : practical -> reachable env s -> twf (s_tape s).
Proof. intros HP HR. destruct (reach_valid env s HP HR) as [(g & R & _) _]. exact (r_twf s g R). Qed.

(* ---- C05 ---- *)
Lemma no_oob p : practical -> client_ok p [] st_init ->
  match run p [] st_init with
  | Ok _ => True | ErrStop => True | Undef IntOverflow => True | _ => False
  end.
Proof.
  intros HP HC. pose proof (client_valid p HP [] st_init valid_init (Forall_nil _) HC) as H.
  destruct (run p [] st_init) as [[[e o] s]| |[]|]; auto.
Qed.

(* ---- C10, C11 ---- *)
Lemma grad_call env s h : practical -> reachable env s -> alive s h ->
  exists s', grad h s = Ok (tt, s') /\ only_adjoints s s'.
Proof.
  intros HP HR Hh. destruct (reach_valid env s HP HR) as [HV _].
  destruct (grad_frame s h HP HV Hh) as (s' & A & _ & B). eauto.
Qed.

Lemma zero_call env s : practical -> reachable env s ->
  exists s', set_zero_all_adj s = Ok (tt, s') /\ only_adjoints s s' /\
    forall h, alive s h -> var_adj s' h = Ok f0.
Proof.
  intros HP HR. destruct (reach_valid env s HP HR) as [HV _].
  destruct (zero_frame s (proj1 HP) HV) as (s' & A & _ & B & D). eauto.
Qed.

Lemma repeat_call env s hs y s1 s2 s3 s4 : practical -> reachable env s ->
  Forall (alive s) hs -> alive s y ->
  (forall h, alive s h -> var_adj s h = Ok f0) ->
  grads hs s = Ok (tt, s1) -> set_zero_all_adj s1 = Ok (tt, s2) -> grad y s2 = Ok (tt, s3) ->
  grad y s = Ok (tt, s4) ->
  forall x, alive s x -> var_adj s3 x = var_adj s4 x.
Proof.
  intros HP HR. destruct (reach_valid env s HP HR) as [HV _]. apply repeat_grad; auto.
Qed.

(* ---- C42 ---- *)
Lemma assign_call env s h d : practical -> reachable env s -> alive s h ->
  exists s', set_var h d s = Ok (tt, s') /\ s_head s' = s_head s /\
    t_head (s_tape s') = t_head (s_tape s) /\ var_val s' h = Ok d /\
    forall x, alive s x -> same_adj s s' x /\ same_op s s' x /\ (x <> h -> same_val s s' x).
Proof.
  intros HP HR Hh. destruct (reach_valid env s HP HR) as [HV _].
  destruct (set_frame s h d HV Hh) as (s' & A & _ & B & _ & D & E & F). exists s'. auto.
Qed.

End Claims.

(* ---- C04 ---- *)
(* Two runs that no caller can tell apart: the same returned numbers, truth
   values and variables, and the same value, adjoint and record of every
   variable; or both stop.  A run that overflows the int32 index range is
   compared with nothing. *)
Definition same_outcome {N : Num} {A} (r1 r2 : res (A * st)) : Prop :=
  match r1, r2 with
  | Ok (x1, s1), Ok (x2, s2) => x1 = x2 /\
      s_head s1 = s_head s2 /\ t_head (s_tape s1) = t_head (s_tape s2) /\
      forall h, alive s1 h -> var_val s1 h = var_val s2 h /\ var_adj s1 h = var_adj s2 h /\
        var_operands s1 h = var_operands s2 h /\ var_data s1 h = var_data s2 h
  | ErrStop, ErrStop => True
  | Undef IntOverflow, _ => True
  | _, Undef IntOverflow => True
  | _, _ => False
  end.

Lemma agree_same {N : Num} {RL : RepLaws N} (C1 C2 : Cfg N) {A} (r1 r2 : res (A * st)) :
  agree (@twins N C1 C2) r1 r2 -> same_outcome r1 r2.
Proof.
  unfold agree, same_outcome. destruct r1 as [[x1 s1]| |[]|], r2 as [[x2 s2]| |[]|]; auto.
  intros [-> T]. split; auto. destruct (twins_look s1 s2 T) as (L1 & L2 & L3 & L4).
  split; auto. split; auto. intros h Hh. destruct (L4 h Hh) as (Q1 & Q2 & Q3 & Q4). auto.
Qed.

Lemma twin_start {N : Num} {RL : RepLaws N} (C1 C2 : Cfg N) p :
  @practical N C1 -> @practical N C2 ->
  @client_ok N C1 p [] st_init -> @client_ok N C2 p [] st_init ->
  same_outcome (@run N C1 p [] st_init) (@run N C2 p [] st_init).
Proof.
  intros P1 P2 K1 K2. apply (agree_same C1 C2).
  apply (@twin_run N RL C1 C2 p P1 P2 [] st_init st_init twins_init (Forall_nil _) K1 K2).
Qed.


(* ---- C01: bits ---- *)
Lemma bits_inj (x y : binary64) : bits_of_b64 x = bits_of_b64 y -> x = y.
Proof.
  intros H. rewrite <- (binary_float_of_bits_of_binary_float 52 11 eq_refl eq_refl eq_refl x).
  rewrite <- (binary_float_of_bits_of_binary_float 52 11 eq_refl eq_refl eq_refl y).
  unfold bits_of_b64 in H. rewrite H. reflexivity.
Qed.
