(* What a call records, in any arithmetic: the value of the new variable and, to
   the last bit, what its step in the gradient pass adds to each variable. *)
From Coq Require Import ZifyBool ZifyNat.
From Verif Require Import TapeFacts.
From Verif Require Export Claims_total ExactSpec.

Section Exact.
Context {N : Num} {RL : RepLaws N} {C : Cfg N}.

Lemma apply_due ops : forall cs (f : nat -> F) k,
  apply_effect (combine ops cs) f k = fold_left fadd (due (hd k) (combine (map hd ops) cs)) (f k).
Proof.
  induction ops as [|o ops IH]; intros [|c cs] f k; try reflexivity.
  cbn [combine map]. unfold apply_effect. cbn [fold_left]. fold (apply_effect (combine ops cs) (addto f (o, c))). rewrite IH.
  unfold due at 2. cbn [filter fst]. unfold addto. cbn [fst snd]. unfold nupd.
  destruct (Nat.eqb_spec k o) as [->|Hne].
  - rewrite Z.eqb_refl. reflexivity.
  - destruct (Z.eqb_spec (hd o) (hd k)) as [E|E]; [unfold hd in E; lia|]. reflexivity.
Qed.

Lemma set_adjoints_rel ps : forall s g s1, Rel s g -> Forall (fun p => alive s (fst p)) ps -> set_adjoints ps s = Ok s1 ->
  exists f, Rel s1 (set_gadj g f).
Proof.
  induction ps as [|[z a] ps IH]; intros s g s1 R HA HS; unfold set_adjoints in HS; cbn [foldM fst snd] in HS.
  - inversion HS; subst. exists (g_adj g). destruct g; exact R.
  - inversion HA as [|? ? Hz HA']; subst. cbn [fst] in Hz. destruct (alive_node s g z R Hz) as (k & -> & Hk).
    destruct (rel_set_var_adj s g k a R Hk) as (s' & E & R'). rewrite E in HS. cbn [bind] in HS.
    assert (HA2 : Forall (fun p => alive s' (fst p)) ps).
    { eapply Forall_impl; [|exact HA']. intros p Hp. unfold alive in *. rewrite (r_head s' _ R'). rewrite (r_head s g R) in Hp. exact Hp. }
    destruct (IH s' _ s1 R' HA2 HS) as [f Rf]. exists f. exact Rf.
Qed.

Lemma node_records s g s' (g1 : graph) k v es l : Rel s g -> Rel s' g1 -> (gsize g <= k < gsize g1)%nat -> gval g1 k = v ->
  (forall f, effect (set_gadj g1 f) k = Some (es (f k))) ->
  (forall a (f : nat -> F) j, apply_effect (es a) f j = fold_left fadd (due (hd j) (l a)) (f j)) ->
  records s s' (hd k) v l.
Proof.
  intros R0 R1 [Hg Hk0] HV HE HD.
  split; [unfold alive; rewrite (r_head s g R0); unfold hd; lia|].
  split; [rewrite (rel_var_val s' g1 R1) by exact Hk0; congruence|].
  intros ps a s1 HP HS Ha. destruct (set_adjoints_rel ps s' g1 s1 R1 HP HS) as [f R1'].
  rewrite (rel_var_adj s1 _ R1' k Hk0) in Ha. assert (Hf : f k = a) by (cbn [set_gadj g_adj] in Ha; congruence). clear Ha.
  destruct (rel_chain_at s1 _ k _ R1' Hk0 (HE f)) as (s2 & E2 & R2). exists s2. split; auto. split.
  - intros z Hz. destruct (alive_node s' g1 z R1 Hz) as (k1 & -> & Hk). rewrite (rel_var_val s2 _ R2 k1 Hk), (rel_var_val s' g1 R1 k1 Hk). reflexivity.
  - intros z b Hz Hb. destruct (alive_node s' g1 z R1 Hz) as (k1 & -> & Hk1).
    rewrite (rel_var_adj s1 _ R1' k1 Hk1) in Hb. rewrite (rel_var_adj s2 _ R2 k1 Hk1). f_equal.
    cbn [set_gadj g_adj] in Hb |- *. rewrite HD, Hf. f_equal. congruence.
Qed.

Lemma new_records s g v1 ops ds ch s' cs : Rel s g -> Forall (fun k => (k < gsize g)%nat) ops ->
  Rel s' (a_new g v1 (BRec ops ds) (Some ch)) -> (forall a, contrib ch v1 a (map (gval g) ops) ds = Some (cs a)) ->
  records s s' (hd (gsize g)) v1 (fun a => combine (map hd ops) (cs a)).
Proof.
  intros R0 HB R1 HE. set (g1 := a_new g v1 (BRec ops ds) (Some ch)) in *.
  assert (Hs : (gsize g < gsize g1)%nat) by (unfold gsize; simpl; rewrite app_length; simpl; lia).
  apply (node_records s g s' g1 (gsize g) v1 (fun a => combine ops (cs a))); auto.
  - unfold g1. rewrite gval_new, Nat.eqb_refl. reflexivity.
  - intros f. unfold effect.
    assert (ND : nth_error (g_nodes (set_gadj g1 f)) (gsize g) = Some (mkNode v1 (BRec ops ds) (g_top g))).
    { simpl. rewrite nth_error_app2 by (unfold gsize; lia). unfold gsize. rewrite Nat.sub_diag. reflexivity. }
    assert (EM : map (gval (set_gadj g1 f)) ops = map (gval g) ops).
    { apply map_ext_in. intros k Hk. rewrite Forall_forall in HB. specialize (HB k Hk).
      change (gval g1 k = gval g k). unfold g1. rewrite gval_new. destruct (Nat.eqb_spec k (gsize g)); [lia|reflexivity]. }
    rewrite ND. cbn [n_body n_val]. rewrite EM. cbn [n_body n_val set_gadj g_adj g_ch g1 a_new push_top]. unfold nupd. rewrite !Nat.eqb_refl. rewrite HE. reflexivity.
  - intros a f j. apply apply_due.
Qed.

(* a call that appends a node returns when there is room *)
Lemma perf_go m s g v1 ops ds ch w : Rel s g -> performs m s g (ANew v1 ops ds ch) -> bwidth (BRec ops ds) <= w -> roomy s w ->
  exists s', m s = Ok (hd (gsize g), s') /\ Rel s' (a_new g v1 (BRec ops ds) ch).
Proof.
  intros R0 HP Hw HM. destruct (roomy_peak s g w R0 ltac:(pose proof (bwidth_pos (BRec ops ds)); lia) HM) as [P1 P2].
  unfold performs in HP. cbn [do_act] in HP. specialize (HP False).
  assert (HX : excused False (a_new g v1 (BRec ops ds) ch)) by (unfold excused; cbn [a_new push_top g_peak]; lia).
  specialize (HP HX). unfold yields in HP. destruct (m s) as [[h s']| |[]|]; cbn in HP; try tauto.
  destruct HP as [E R1]. exists s'. split; [congruence|exact R1].
Qed.

Lemma act_records m s g v1 ops ds ch cs w : Rel s g -> Forall (fun k => (k < gsize g)%nat) ops ->
  performs m s g (ANew v1 ops ds (Some ch)) -> bwidth (BRec ops ds) <= w -> roomy s w ->
  (forall a, contrib ch v1 a (map (gval g) ops) ds = Some (cs a)) ->
  exists h s', m s = Ok (h, s') /\ records s s' h v1 (fun a => combine (map hd ops) (cs a)).
Proof.
  intros R0 HB HP Hw HM HE. destruct (perf_go m s g v1 ops ds (Some ch) w R0 HP Hw HM) as (s' & E & R1).
  exists (hd (gsize g)), s'. split; auto. eapply new_records; eauto.
Qed.
End Exact.
