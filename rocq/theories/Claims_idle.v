(* C44: calls whose results the dependent does not use, in any arithmetic. *)
From Coq Require Import ZifyBool ZifyNat.
From Flocq Require Import IEEE754.BinarySingleNaN IEEE754.Binary IEEE754.Bits.
From Verif Require Import TapeFacts.
From Verif Require Export B64Facts Exact_mat.

Section Idle.
Context {N : Num} {RL : RepLaws N} {C : Cfg N}.

(* with the adjoint of y one and all others zero, the step of h in the gradient pass
   leaves every adjoint as it is *)
Definition idle (s : st) (y h : Z) : Prop :=
  forall s1 s2, set_zero_all_adj s = Ok (tt, s1) -> set_var_adj y f1 s1 = Ok s2 ->
    exists s3, chain_at s2 h = Ok s3 /\ forall z, alive s z -> var_adj s3 z = var_adj s2 z.

(* set_zero_all_adj and grad on y give every variable of s the same adjoint in s and s' *)
Definition same_gradient (s s' : st) (y : Z) : Prop :=
  exists s1 s2 r1 r2,
    set_zero_all_adj s = Ok (tt, s1) /\ grad y s1 = Ok (tt, s2) /\
    set_zero_all_adj s' = Ok (tt, r1) /\ grad y r1 = Ok (tt, r2) /\
    forall z, alive s z -> var_adj r2 z = var_adj s2 z.

Lemma grows_val (g g' : graph) i : grows g g' -> (i < gsize g)%nat -> gval g' i = gval g i.
Proof.
  intros G Hi. destruct (gr_nodes _ _ G) as [l E]. unfold gval. rewrite E, nth_error_app1 by exact Hi. reflexivity.
Qed.

Lemma grows_effect (g g' : graph) f f' k : gwf g -> grows g g' -> (k < gsize g)%nat -> f k = f' k ->
  effect (set_gadj g' f') k = effect (set_gadj g f) k.
Proof.
  intros W G Hk HF0. unfold effect. cbn [set_gadj g_nodes g_adj g_ch g_arrs].
  destruct (gr_nodes _ _ G) as [l En]. destruct (gr_arrs _ _ G) as [la Ea].
  rewrite En, nth_error_app1 by exact Hk. rewrite (gr_ch _ _ G) by auto. rewrite HF0.
  destruct (nth_error (g_nodes g) k) as [nd|] eqn:E; [|reflexivity].
  destruct (w_node g W _ _ E) as (_ & W2 & W3). unfold body_ok in W3.
  assert (GV : forall ops, Forall (fun i => (i < gsize g)%nat) ops ->
    map (gval (set_gadj g' f')) ops = map (gval (set_gadj g f)) ops).
  { intros ops HF. apply map_ext_in. intros i Hi. rewrite Forall_forall in HF. apply (grows_val g g' i G). auto. }
  destruct (n_body nd) as [ops ds|i j ia ib].
  - rewrite GV; auto. eapply Forall_impl; [|exact W3]. cbv beta. intros; lia.
  - destruct W3 as (_ & _ & (ra & Era & La) & (rb & Erb & Lb)). rewrite Ea.
    rewrite !nth_error_app1 by (eapply nth_error_lt; eauto). rewrite Era, Erb.
    assert (AV : forall a ar ids, nth_error (g_arrs g) a = Some ar -> a_c ar = AVar ids ->
       length ids = (a_m ar * a_n ar)%nat /\ Forall (fun j => (j < gsize g)%nat) ids).
    { intros a ar ids Ear Ec. destruct (w_arr g W _ _ Ear) as (_ & _ & _ & _ & X). rewrite Ec in X.
      destruct X as [X1 X2]. split; auto. eapply Forall_impl; [|exact X2]. cbv beta. tauto. }
    destruct (g_ch g k); auto; destruct ra as [m kk [l1|d1] p1]; auto; destruct rb as [kk' n [l2|d2] p2]; auto.
    destruct (_ && _ && _) eqn:B; auto. apply andb_prop in B. destruct B as [B B3]. apply andb_prop in B. destruct B as [B1 B2].
    assert (M1 : forall x, In x (mcol O kk' j l2) -> gval g' x = gval g x).
    { intros x Hx. destruct (AV _ _ _ Erb eq_refl) as [X1 X2]. cbn [a_m a_n] in *.
      apply (grows_val g g' x G). rewrite Forall_forall in X2. apply X2. eapply mcol_in; eauto. lia. }
    assert (M2 : forall x, In x (mrow O m kk i l1) -> gval g' x = gval g x).
    { intros x Hx. destruct (AV _ _ _ Era eq_refl) as [X1 X2]. cbn [a_m a_n] in *.
      apply (grows_val g g' x G). rewrite Forall_forall in X2. apply X2. eapply mrow_in; eauto. lia. }
    do 3 f_equal; apply map_ext_in; intros x Hx; apply f_equal; [apply M1|apply M2]; auto.
Qed.

(* the passes over the older nodes agree *)
Lemma sweep_old (g g' : graph) : gwf g -> gwf g' -> grows g g' -> forall n (f f' : nat -> F) g1, (n <= gsize g)%nat ->
  (forall j, (j < gsize g)%nat -> f j = f' j) -> asweep 0 n (set_gadj g f) = Some g1 ->
  exists g2, asweep 0 n (set_gadj g' f') = Some g2 /\ forall j, (j < gsize g)%nat -> g_adj g2 j = g_adj g1 j.
Proof.
  intros W W' G. induction n as [|n IH]; intros f f' g1 Hn HF E; cbn [asweep Nat.add] in E |- *.
  - inversion E; subst. exists (set_gadj g' f'). split; auto. intros j Hj. cbn [set_gadj g_adj]. symmetry. auto.
  - rewrite (grows_effect g g' f f' n W G) by (auto; lia).
    destruct (effect (set_gadj g f) n) as [l|] eqn:EL; [|discriminate].
    apply (IH _ _ g1 ltac:(lia)) with (2 := E). cbn [set_gadj g_adj]. apply apply_effect_ext; auto.
    eapply Forall_impl; [|apply (effect_lt _ _ _ (gwf_set_gadj g f W) EL)]. cbv beta. intros; lia.
Qed.

(* steps that change nothing *)
Lemma sweep_idle (g : graph) (f0 : nat -> F) lo : gwf g -> forall n, (lo + n <= gsize g)%nat ->
  (forall i, (lo <= i < lo + n)%nat -> exists l, effect (set_gadj g f0) i = Some l /\
     forall j, (j < gsize g)%nat -> apply_effect l f0 j = f0 j) ->
  forall f, (forall j, (j < gsize g)%nat -> f j = f0 j) ->
  exists f', asweep lo n (set_gadj g f) = Some (set_gadj g f') /\ forall j, (j < gsize g)%nat -> f' j = f0 j.
Proof.
  intros W. induction n as [|n IH]; intros Hn HI f HF; cbn [asweep].
  - eauto.
  - destruct (HI (lo + n)%nat ltac:(lia)) as (l & EL & HL).
    assert (EL' : effect (set_gadj g f) (lo + n) = Some l).
    { rewrite <- EL. unfold effect. cbn [set_gadj g_nodes g_adj g_ch g_arrs]. rewrite (HF (lo + n)%nat) by lia. reflexivity. }
    rewrite EL'. apply (IH ltac:(lia)).
    + intros i Hi. apply HI. lia.
    + intros j Hj. cbn [set_gadj g_adj]. rewrite <- (HL j Hj). apply apply_effect_ext with (n := gsize g); auto.
      eapply Forall_impl; [|apply (effect_lt _ _ _ (gwf_set_gadj g f0 W) EL)]. cbv beta. intros; lia.
Qed.

Lemma live_nodes s g env : Rel s g -> Forall (alive s) env -> exists ke, env = map hd ke /\ Forall (fun k => (k < gsize g)%nat) ke.
Proof.
  intros R HA. induction HA as [|h t Hh _ (ke & -> & HB)]; [exists []; auto|].
  destruct (alive_node s g h R Hh) as (k & -> & Hk). exists (k :: ke). split; auto.
Qed.

Theorem idle_calls s env p env' s' y : practical -> (exists g, Rel s g /\ sound g) ->
  Forall (alive s) env -> prog_ok' p -> exec p env s = Ok (env', s') -> alive s y ->
  (forall h, alive s' h -> ~ alive s h -> idle s' y h) -> same_gradient s s' y.
Proof.
  intros [HC HJ] (g & R0 & HG) HA HO HX HY HI.
  destruct (live_nodes s g env R0 HA) as (ke & -> & HB).
  destruct (prog_run HC p s g ke env' s' R0 HG HB HO HX) as (l & g' & R' & G' & GR & _ & _).
  pose proof (r_wf _ _ R0) as W. pose proof (r_wf _ _ R') as W'. pose proof (grows_size _ _ GR) as SZ.
  destruct (alive_node s g y R0 HY) as (k & -> & Hk).
  destruct (zero_all_ok s g R0) as (s1 & E1 & R1). destruct (zero_all_ok s' g' R') as (r1 & F1 & Q1).
  set (z := fun j => if Nat.leb 0 j && Nat.ltb j (gsize g) then f0 else g_adj g j) in *.
  set (z' := fun j => if Nat.leb 0 j && Nat.ltb j (gsize g') then f0 else g_adj g' j) in *.
  change (azero_from 0 g) with (set_gadj g z) in R1. change (azero_from 0 g') with (set_gadj g' z') in Q1.
  destruct (sound_sweep HJ g HG (gsize g) 0 ltac:(lia) (nupd z k f1)) as (g2 & E2).
  assert (EG : agrad k (set_gadj g z) = Some g2).
  { unfold agrad. change (gsize (set_gadj g z)) with (gsize g). replace (Nat.ltb k (gsize g)) with true by lia. exact E2. }
  destruct (grad_ok s1 _ k g2 R1 EG) as (s2 & E3 & R2).
  destruct (rel_set_var_adj r1 _ k f1 Q1 ltac:(change (gsize (set_gadj g' z')) with (gsize g'); lia)) as (r2 & F2 & Q2).
  change (set_gadj (set_gadj g' z') (nupd (g_adj (set_gadj g' z')) k f1)) with (set_gadj g' (nupd z' k f1)) in Q2.
  destruct (sweep_idle g' (nupd z' k f1) (gsize g) W' (gsize g' - gsize g) ltac:(lia)) with (f := nupd z' k f1) as (f' & F3 & HF'); auto.
  { intros i Hi. destruct (effect_some HJ (set_gadj g' (nupd z' k f1)) i) as [es EE].
    { apply (gd_fit _ G'). unfold gsize in *. cbn [unnest g_nodes]. lia. }
    exists es. split; auto. intros j Hj.
    assert (Hi' : (i < gsize g')%nat) by lia.
    destruct (rel_chain_at r2 _ i es Q2 Hi' EE) as (r3 & F4 & Q3).
    destruct (HI (hd i)) with (s1 := r1) (s2 := r2) as (r3' & F4' & HS); auto.
    - apply (node_alive s' g' i R'). lia.
    - unfold alive. rewrite (r_head s g R0). unfold hd. lia.
    - rewrite F4 in F4'. inversion F4'; subst r3'. specialize (HS (hd j) (node_alive s' g' j R' Hj)).
      rewrite (rel_var_adj r3 _ Q3 j Hj), (rel_var_adj r2 _ Q2 j Hj) in HS. cbn [set_gadj g_adj] in HS. congruence. }
  destruct (sweep_old g g' W W' GR (gsize g) (nupd z k f1) f' g2 ltac:(lia)) as (g3 & F5 & HE); auto.
  { intros j Hj. rewrite HF' by lia. unfold nupd, z, z'. destruct (Nat.eqb j k); auto.
    replace (Nat.ltb j (gsize g)) with true by lia. replace (Nat.ltb j (gsize g')) with true by lia. reflexivity. }
  assert (FG : agrad k (set_gadj g' z') = Some g3).
  { unfold agrad. change (gsize (set_gadj g' z')) with (gsize g'). replace (Nat.ltb k (gsize g')) with true by lia.
    change (a_seed (set_gadj g' z') k) with (set_gadj g' (nupd z' k f1)).
    replace (gsize g') with (gsize g + (gsize g' - gsize g))%nat by lia. rewrite asweep_split, F3. exact F5. }
  destruct (grad_ok r1 _ k g3 Q1 FG) as (r4 & F6 & Q4).
  exists s1, s2, r1, r4. repeat (split; [assumption|]). intros x Hx.
  destruct (alive_node s g x R0 Hx) as (j & -> & Hj).
  assert (S2 : gsize g2 = gsize g /\ gsize g3 = gsize g').
  { apply asweep_form in E2. apply asweep_form in F5. destruct E2 as [? ->], F5 as [? ->]. auto. }
  rewrite (rel_var_adj s2 g2 R2), (rel_var_adj r4 g3 Q4) by lia. f_equal. apply HE. exact Hj.
Qed.

(* amounts that vanish when added to 0 or to 1 *)
Definition negligible (c : F) : Prop := fadd f0 c = f0 /\ fadd f1 c = f1.

Lemma due_negligible z l b : Forall (fun p => negligible (snd p)) l -> b = f0 \/ b = f1 -> fold_left fadd (due z l) b = b.
Proof.
  intros HF Hb. induction HF as [|[x c] l [H0 H1] _ IH]; auto. unfold due. cbn [filter fst snd] in *.
  destruct (Z.eqb x z); [|exact IH]. cbn [map snd fold_left].
  assert (E : fadd b c = b) by (destruct Hb; subst; auto). rewrite E. exact IH.
Qed.

(* every adjoint zero, then that of y one *)
Lemma seed_by_hand s g k : Rel s g -> (k < gsize g)%nat ->
  exists ps s1 f, Forall (fun p => alive s (fst p)) ps /\ set_adjoints ps s = Ok s1 /\ Rel s1 (set_gadj g f) /\
    forall j, (j < gsize g)%nat -> f j = if Nat.eqb j k then f1 else f0.
Proof.
  intros R Hk.
  assert (A : forall n, (n <= gsize g)%nat -> exists s1 f, set_adjoints (map (fun j => (hd j, f0)) (seq 0 n)) s = Ok s1 /\ Rel s1 (set_gadj g f) /\
    forall j, (j < n)%nat -> f j = f0).
  { induction n as [|n IH]; intros Hn.
    - exists s, (g_adj g). split; [reflexivity|]. split; [destruct g; exact R|]. intros; lia.
    - destruct (IH ltac:(lia)) as (s1 & f & E & R1 & HF). rewrite seq_S, map_app. cbn [map].
      destruct (rel_set_var_adj s1 _ n f0 R1 ltac:(change (gsize (set_gadj g f)) with (gsize g); lia)) as (s2 & E2 & R2).
      exists s2, (nupd f n f0). split.
      + unfold set_adjoints in *. rewrite foldM_app, E. cbn [bind foldM fst snd Nat.add]. rewrite E2. reflexivity.
      + split; [exact R2|]. intros j Hj. unfold nupd. destruct (Nat.eqb_spec j n); auto. apply HF. lia. }
  destruct (A (gsize g) ltac:(lia)) as (s1 & f & E & R1 & HF).
  destruct (rel_set_var_adj s1 _ k f1 R1 Hk) as (s2 & E2 & R2).
  exists (map (fun j => (hd j, f0)) (seq 0 (gsize g)) ++ (hd k, f1) :: nil), s2, (nupd f k f1). split; [|split; [|split]].
  - apply Forall_app. split; [|repeat constructor; apply (node_alive s g k R Hk)].
    apply Forall_forall. intros p Hp. apply in_map_iff in Hp. destruct Hp as (j & <- & Hj). apply in_seq in Hj.
    apply (node_alive s g j R). lia.
  - unfold set_adjoints in *. rewrite foldM_app, E. cbn [bind foldM fst snd]. rewrite E2. reflexivity.
  - exact R2.
  - intros j Hj. unfold nupd. destruct (Nat.eqb j k); auto.
Qed.

Lemma records_idle s s' y h v l : practical -> (exists g, Rel s' g /\ sound g) -> alive s y -> alive s' y -> alive s' h ->
  records s s' h v l -> Forall (fun p => negligible (snd p)) (l f0) -> idle s' y h.
Proof.
  intros [HC HJ] (g & R & HG) Hys Hy Hh (H1 & _ & H3) HF s1 s2 E1 E2.
  pose proof (r_wf _ _ R) as W.
  destruct (alive_node s' g y R Hy) as (k & -> & Hk). destruct (alive_node s' g h R Hh) as (i & -> & Hi).
  destruct (zero_all_ok s' g R) as (s1' & E1' & R1). rewrite E1 in E1'. inversion E1'; subst s1'.
  destruct (rel_set_var_adj s1 _ k f1 R1 Hk) as (s2' & E2' & R2). rewrite E2 in E2'. inversion E2'; subst s2'.
  set (z := nupd (g_adj (azero_from 0 g)) k f1) in *. change (set_gadj (azero_from 0 g) z) with (set_gadj g z) in R2.
  assert (HZ : forall j, (j < gsize g)%nat -> z j = if Nat.eqb j k then f1 else f0).
  { intros j Hj. unfold z, nupd. destruct (Nat.eqb j k); auto. unfold azero_from. cbn [set_gadj g_adj].
    replace (Nat.ltb j (gsize g)) with true by lia. reflexivity. }
  assert (Hik : i <> k).
  { intros ->. tauto. }
  destruct (seed_by_hand s' g k R Hk) as (ps & t1 & f & HP & ET & RT & HFf).
  assert (Ef : forall j, (j < gsize g)%nat -> f j = z j) by (intros j Hj; rewrite HFf, HZ by auto; reflexivity).
  destruct (effect_some HJ (set_gadj g z) i) as [es EE].
  { apply (gd_fit _ HG). unfold gsize in *. cbn [unnest g_nodes]. lia. }
  assert (EF : effect (set_gadj g f) i = Some es).
  { rewrite <- EE. unfold effect. cbn [set_gadj g_nodes g_adj g_ch g_arrs]. rewrite (Ef i) by lia. reflexivity. }
  destruct (rel_chain_at t1 _ i es RT Hi EF) as (t2 & F2 & RT2).
  destruct (rel_chain_at s2 _ i es R2 Hi EE) as (s3 & E3 & R3).
  assert (Ez : f i = f0) by (rewrite HFf by auto; replace (Nat.eqb i k) with false by lia; reflexivity).
  destruct (H3 ps f0 t1 HP ET) as (t2' & F2' & _ & HA).
  { rewrite (rel_var_adj t1 _ RT i Hi). cbn [set_gadj g_adj]. congruence. }
  rewrite F2 in F2'. inversion F2'; subst t2'.
  exists s3. split; auto. intros x Hx. destruct (alive_node s' g x R Hx) as (j & -> & Hj).
  specialize (HA (hd j) (f j) Hx). rewrite (rel_var_adj t1 _ RT j Hj) in HA. specialize (HA eq_refl).
  rewrite due_negligible in HA by (auto; rewrite HFf by auto; destruct (Nat.eqb j k); auto).
  rewrite (rel_var_adj t2 _ RT2 j Hj) in HA. cbn [set_gadj g_adj] in HA.
  rewrite (rel_var_adj s3 _ R3 j Hj), (rel_var_adj s2 _ R2 j Hj). cbn [set_gadj g_adj]. f_equal.
  rewrite <- (Ef j Hj).
  transitivity (apply_effect es f j); [|congruence]. symmetry. apply apply_effect_ext with (n := gsize g); auto.
  eapply Forall_impl; [|apply (effect_lt _ _ _ (gwf_set_gadj g z W) EE)]. cbv beta. intros; lia.
Qed.

(* one call *)
Theorem quiet_call s env o hs s' y : practical -> (exists g, Rel s g /\ sound g) ->
  Forall (alive s) env -> op_shape o -> neutral o = false -> exec_op env o s = Ok (hs, s') -> alive s y ->
  (forall h, alive s' h -> ~ alive s h -> exists v l, records s s' h v l /\ Forall (fun p => negligible (snd p)) (l f0)) ->
  same_gradient s s' y.
Proof.
  intros HP (g & R & HG) HA HS HN HX HY HI.
  apply (idle_calls s env (o :: nil) (env ++ hs) s' y HP); eauto.
  - repeat constructor; auto.
  - cbn [exec]. rewrite (mbind_ok _ _ _ _ _ HX). reflexivity.
  - intros h Hh Hn. destruct (HI h Hh Hn) as (v & l & HR & HF).
    destruct (live_nodes s g env R HA) as (ke & -> & HB).
    destruct (op_run (proj1 HP) s g ke o hs s' R HG HB HS HN HX) as (kk & ks & g' & _ & _ & R' & G' & GR & _).
    apply (records_idle s s' y h v l HP); eauto.
    unfold alive in *. rewrite (r_head _ _ R) in HY. rewrite (r_head _ _ R'). pose proof (grows_size _ _ GR). lia.
Qed.

Lemma same_gradient_trans s s1 s2 y : (forall z, alive s z -> alive s1 z) -> same_gradient s s1 y -> same_gradient s1 s2 y -> same_gradient s s2 y.
Proof.
  intros HA (a & b & c & d & A1 & A2 & A3 & A4 & A5) (a' & b' & c' & d' & B1 & B2 & B3 & B4 & B5).
  rewrite A3 in B1. inversion B1; subst a'. rewrite A4 in B2. inversion B2; subst b'.
  exists a, b, c', d'. repeat (split; [assumption|]). intros z Hz. rewrite B5 by auto. auto.
Qed.
End Idle.

Lemma reach_snd {N : Num} {RL : RepLaws N} {C : Cfg N} env0 s : practical -> reachable env0 s -> exists g, Rel s g /\ sound g.
Proof.
  intros HP HR. destruct (proj1 (reach_valid env0 s HP HR)) as (g & R & HG). exists g. split; auto. apply good_sound; auto.
Qed.

(* binary64: an amount is negligible iff it is a zero, and 0 * d is a zero iff d is finite *)
Definition is_zero64 (c : binary64) : bool := match c with Binary.B754_zero _ => true | _ => false end.

Lemma zero_negligible (L : Libm) (c : binary64) : is_zero64 c = true -> @negligible (B64 L) c.
Proof. destruct c as [b| | |]; try discriminate. intros _. destruct b; split; vm_compute; reflexivity. Qed.

Lemma zero_times (d : binary64) : is_zero64 (b64_mult rne c0 d) = Binary.is_finite 53 1024 d.
Proof. destruct d as [[]|[]|[] p e|[] m e e0]; try reflexivity. Qed.

Theorem zeros_call (L : Libm) {C : Cfg (B64 L)} env0 s env o hs s' y :
  @practical (B64 L) C -> reachable env0 s -> Forall (alive s) env -> op_shape o -> neutral o = false ->
  exec_op env o s = Ok (hs, s') -> alive s y ->
  (forall h, alive s' h -> ~ alive s h -> exists v l, records s s' h v l /\ Forall (fun p => is_zero64 (snd p) = true) (l c0)) ->
  same_gradient s s' y.
Proof.
  intros HP HR HA HS HN HX HY HI. apply (quiet_call s env o hs s' y HP (reach_snd env0 s HP HR)); auto.
  intros h H1 H2. destruct (HI h H1 H2) as (v & l & A & B). exists v, l. split; auto.
  eapply Forall_impl; [|exact B]. cbv beta. intros p. apply zero_negligible.
Qed.
