(* C16: what a neutral constant does to a computed operand, in any arithmetic. *)
From Coq Require Import ZifyBool ZifyNat.
From Verif Require Import TapeFacts.
From Verif Require Export Claims_session Claims_exact.
Import ListNotations.
Local Open Scope Z_scope.

Section Neutral.
Context {N : Num} {RL : RepLaws N} {C : Cfg N}.

(* the derivative rule of a call x op d or d op x with a real d *)
Definition rule_of (o : op) : option chain :=
  match o with
  | OVD BAdd _ _ | ODV BAdd _ _ => Some ChAddVD
  | OVD BSub _ _ => Some ChSubVD
  | OVD BMul _ _ | ODV BMul _ _ => Some ChMulVD
  | OVD BDiv _ _ => Some ChDivVD
  | _ => None
  end.

Lemma neutral_alias o r env h s : adds_nothing o r -> nth_error env r = Some h ->
  exists ch, rule_of o = Some ch /\ exec_op env o s = one (alias_op h ch) s.
Proof.
  intros H E.
  destruct H as [(d & Hd & [-> | [-> | ->]])|(d & Hd & [-> | [-> | ->]])]; cbn [exec_op bin_vd bin_dv];
  rewrite (mbind_ok _ _ s h s) by (unfold reg; rewrite E; reflexivity);
  unfold add_vd, add_dv, sub_vd, mul_vd, mul_dv, div_vd, fne; rewrite Hd; cbn [negb];
  eexists; (split; [|reflexivity]); reflexivity.
Qed.

Lemma alias_go s g k ch : Rel s g -> (k < gsize g)%nat ->
  exists s', alias_op (hd k) ch s = Ok (hd k, s') /\ Rel s' (set_gch g (nupd (g_ch g) k ch)).
Proof.
  intros R Hk. pose proof (alias_ok True s g k ch R Hk) as Y. unfold yields in Y. apply wp_elim in Y.
  assert (YN : alias_op (hd k) ch s <> Undef IntOverflow).
  { pose proof (alias_ok False s g k ch R Hk) as Y2. unfold yields in Y2. apply wp_elim in Y2.
    intros Q. rewrite Q in Y2. exact Y2. }
  destruct (alias_op (hd k) ch s) as [[h' s']| |[]|] eqn:EA; try tauto.
  cbn [fst snd] in Y. destruct Y as [-> R']. eauto.
Qed.

(* the operand was recorded by the same operator: nothing changes *)
Theorem same_rule_neutral env s o r h vr : practical -> reachable env s -> adds_nothing o r ->
  nth_error env r = Some h -> alive s h -> vget s h = Ok vr -> rule_of o = Some (v_chain vr) ->
  exists s', exec_op env o s = Ok (h :: nil, s') /\
    forall q, client_ok q (env ++ h :: nil) s -> client_ok q (env ++ h :: nil) s' ->
      same_outcome (run q (env ++ h :: nil) s) (run q (env ++ h :: nil) s').
Proof.
  intros HP HR HA E Hh HV HU. destruct (reach_valid env s HP HR) as [(g & R & HG) HH].
  destruct (neutral_alias o r env h s HA E) as (ch & Hch & HX). assert (ch = v_chain vr) as -> by congruence.
  destruct (alive_node s g h R Hh) as (k & -> & Hk).
  rewrite (rel_vget s g R) in HV by auto. injection HV as <-. cbn [v_chain] in *.
  destruct (alias_go s g k (g_ch g k) R Hk) as (s' & EA & R').
  exists s'. split.
  { rewrite HX. unfold one. rewrite (mbind_ok _ _ _ _ _ EA). reflexivity. }
  assert (EC : forall j, nupd (g_ch g) k (g_ch g k) j = g_ch g j).
  { intros j. unfold nupd. destruct (Nat.eqb_spec j k); congruence. }
  intros q K1 K2. apply (agree_same C C). apply twin_run; auto.
  - exists g, (set_gch g (nupd (g_ch g) k (g_ch g k))). split; auto. split; auto. split; auto. split.
    + destruct HG as [A B D]. constructor; cbn [set_gch g_nest].
      * intros j Hj. specialize (A j Hj). unfold fits in *. cbn [set_gch g_nodes g_arrs g_ch]. rewrite EC. exact A.
      * intros j Hj. cbn [set_gch g_ch]. rewrite EC. auto.
      * intros m Hm j Hj. cbn [set_gch g_ch]. rewrite EC. eauto.
    + constructor; cbn [set_gch g_nodes g_arrs g_nest g_top g_adj g_ch]; auto.
  - apply handles_app; auto. apply (handles_hd (k :: nil)).
Qed.

(* one operand, any rule: + 0 and - 0 make the step pass the adjoint on unchanged *)
Theorem one_operand_neutral env s o r h x vx : practical -> reachable env s -> adds_nothing o r ->
  rule_of o = Some ChAddVD \/ rule_of o = Some ChSubVD ->
  nth_error env r = Some h -> alive s h -> alive s x -> vget s x = Ok vx -> var_operands s h = Ok (v_i vx :: nil) ->
  exists s', exec_op env o s = Ok (h :: nil, s') /\
    (forall z, alive s z -> alive s' z /\ var_val s' z = var_val s z /\ var_adj s' z = var_adj s z) /\
    forall ps a s1, Forall (fun p => alive s' (fst p)) ps -> set_adjoints ps s' = Ok s1 -> var_adj s1 h = Ok a ->
      exists s2, chain_at s1 h = Ok s2 /\
        forall z b, alive s' z -> var_adj s1 z = Ok b -> var_adj s2 z = Ok (if Z.eqb x z then fadd b a else b).
Proof.
  intros HP HR HA HU E Hh Hx HV HO. destruct (reach_valid env s HP HR) as [(g & R & HG) HH].
  destruct (neutral_alias o r env h s HA E) as (ch & Hch & HX).
  destruct (alive_node s g h R Hh) as (k & -> & Hk). destruct (alive_node s g x R Hx) as (j & -> & Hj).
  destruct (alias_go s g k ch R Hk) as (s' & EA & R').
  exists s'. split.
  { rewrite HX. unfold one. rewrite (mbind_ok _ _ _ _ _ EA). reflexivity. }
  split.
  { intros z Hz. destruct (alive_node s g z R Hz) as (i & -> & Hi).
    split; [unfold alive in *; rewrite (r_head _ _ R'), (r_head _ _ R) in *; exact Hz|].
    rewrite (rel_var_val s' _ R' i Hi), (rel_var_val s g R i Hi), (rel_var_adj s' _ R' i Hi), (rel_var_adj s g R i Hi). split; reflexivity. }
  rewrite (rel_vget s g R) in HV by auto. injection HV as <-. cbn [v_i] in HO.
  destruct (lt_nth_error _ _ Hk) as [nd En].
  assert (HB : exists ds, n_body nd = BRec (j :: nil) ds).
  { rewrite (rel_var_operands s g k nd R En) in HO.
    destruct (n_body nd) as [ops ds|i1 i2 ia ib] eqn:EB; cbn in HO; [|discriminate].
    injection HO as HO. destruct ops as [|i [|i' ops]]; try discriminate. injection HO as HO. exists ds. repeat f_equal.
    assert (Hi : (i < gsize g)%nat).
    { destruct (w_node g (r_wf s g R) _ _ En) as (_ & _ & W). unfold body_ok in W. rewrite EB in W. inversion W; lia. }
    assert (Hn : forall a b : nat, (a < b)%nat -> (b < gsize g)%nat -> gloc g a < gloc g b).
    { intros a b Hab Hb. destruct (lt_nth_error _ _ Hb) as [nb Eb]. destruct (lt_nth_error (g_nodes g) a ltac:(unfold gsize in *; lia)) as [na Ea].
      pose proof (w_order g (r_wf s g R) a b na nb Hab Ea Eb). rewrite (gloc_eq g _ _ Ea), (gloc_eq g _ _ Eb).
      pose proof (bwidth_pos (n_body na)); unfold nwidth in *; lia. }
    destruct (Nat.lt_trichotomy i j) as [Q|[Q|Q]]; auto; exfalso; pose proof (Hn _ _ Q ltac:(lia)); lia. }
  destruct HB as (ds & HB). intros ps a s1 HF HS Ha.
  destruct (set_adjoints_rel ps s' _ s1 R' HF HS) as [f R1].
  assert (Hk' : (k < gsize (set_gadj (set_gch g (nupd (g_ch g) k ch)) f))%nat) by exact Hk.
  rewrite (rel_var_adj s1 _ R1 k Hk') in Ha. cbn [set_gadj g_adj] in Ha. injection Ha as Ha.
  assert (EF : effect (set_gadj (set_gch g (nupd (g_ch g) k ch)) f) k = Some ((j, a) :: nil)).
  { unfold effect. cbn [set_gadj set_gch g_nodes g_adj g_ch g_arrs]. rewrite En, HB.
    unfold nupd. rewrite Nat.eqb_refl. destruct HU as [HU|HU]; rewrite Hch in HU; injection HU as ->; cbn [contrib map]; rewrite Ha; reflexivity. }
  destruct (rel_chain_at s1 _ k _ R1 Hk' EF) as (s2 & E2 & R2). exists s2. split; auto.
  intros z b Hz Hb. destruct (alive_node s' _ z R' Hz) as (i & -> & Hi).
  rewrite (rel_var_adj s1 _ R1 i Hi) in Hb. cbn [set_gadj g_adj] in Hb. injection Hb as Hb.
  rewrite (rel_var_adj s2 _ R2 i Hi). cbn [set_gadj g_adj]. f_equal. unfold apply_effect. cbn [fold_left]. unfold addto, nupd. cbn [fst snd].
  destruct (Nat.eqb_spec i j) as [->|Hne]; [rewrite Z.eqb_refl|destruct (Z.eqb_spec (hd j) (hd i)) as [Q|Q]; [unfold hd in Q; lia|]]; congruence.
Qed.

Theorem zero_neutral env s o r d h x vx : practical -> reachable env s ->
  feq d f0 = true -> o = OVD BAdd r d \/ o = ODV BAdd d r \/ o = OVD BSub r d ->
  nth_error env r = Some h -> alive s h -> alive s x -> vget s x = Ok vx -> var_operands s h = Ok (v_i vx :: nil) ->
  exists s', exec_op env o s = Ok (h :: nil, s') /\
    (forall z, alive s z -> alive s' z /\ var_val s' z = var_val s z /\ var_adj s' z = var_adj s z) /\
    forall ps a s1, Forall (fun p => alive s' (fst p)) ps -> set_adjoints ps s' = Ok s1 -> var_adj s1 h = Ok a ->
      exists s2, chain_at s1 h = Ok s2 /\
        forall z b, alive s' z -> var_adj s1 z = Ok b -> var_adj s2 z = Ok (if Z.eqb x z then fadd b a else b).
Proof.
  intros HP HR HD HO. apply (one_operand_neutral env s o r); auto.
  - left. exists d. auto.
  - destruct HO as [-> | [-> | ->]]; cbn [rule_of]; auto.
Qed.
End Neutral.
