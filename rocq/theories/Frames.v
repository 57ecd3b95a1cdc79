(* What each call does to every variable, stated on the concrete state. *)
From Verif Require Import TapeFacts.
From Coq Require Import ZifyBool ZifyNat.
From Verif Require Export Observe.

Section Frames.
Context {N : Num} {RL : RepLaws N} {C : Cfg N}.

Lemma hd_seq a n : map hd (seq a n) = zseq (hd a) n.
Proof.
  revert a. induction n as [|n IH]; intros a; simpl; auto. rewrite IH. f_equal. f_equal. unfold hd. lia.
Qed.

(* everything a caller sees of h is the same in s and s' *)
Definition untouched (s s' : st) (h : Z) : Prop :=
  alive s' h /\ same_val s s' h /\ same_adj s s' h /\ same_op s s' h.

Theorem op_frame_concrete s env o : practical -> valid s -> handles env -> op_ok s env o ->
  match exec_op env o s with
  | Ok (hs, s') =>
      valid s' /\ s_lvl s' = s_lvl s /\
      (forall h, alive s h -> untouched s s' h) /\
      ((may_alias o = true /\ (exists h, hs = [h] /\ alive s h) /\ s_head s' = s_head s) \/
       (hs = zseq (s_head s) (length hs) /\ s_head s' = s_head s + zlen hs /\
        forall h, In h hs -> alive s' h /\ ~ alive s h /\ var_adj s' h = Ok f0))
  | ErrStop => True
  | Undef IntOverflow => ~ roomy s (op_words o)
  | _ => False
  end.
Proof.
  intros [HC HJ] (g & R & HG) HH HO.
  pose proof (exec_op_ok HC s g (nodes_of env) o R) as HX. rewrite nodes_of_hd in HX by auto.
  destruct (op_accept s g env o R HG HO) as [A1 A2].
  destruct (aexec_op g (nodes_of env) o) as [[ks g']| |] eqn:E; [| |tauto].
  2:{ simpl in HX. rewrite HX. exact I. }
  simpl in HX. specialize (HX (cap < g_peak g') (fun x => x)). specialize (A2 _ _ eq_refl).
  destruct HO as (HO1 & HO2 & HO3 & HO4).
  destruct (op_frame _ _ _ _ _ HO3 E) as [GR RO]. apply op_top in E.
  destruct (exec_op env o s) as [[hs s']| |[]|]; simpl in HX; auto.
  2:{ intros [Q1 Q2]. destruct (r_size s g R) as [[S1 S2]|(j & S1 & S2 & S3)];
      rewrite (r_thead s g R) in Q2; unfold cap in HX; lia. }
  destruct HX as [Eh R']. cbn [fst snd] in *. subst hs.
  split; [exists g'; auto|]. split; [rewrite (r_lvl s g R), (r_lvl s' g' R'), (gr_nest _ _ GR); auto|].
  split.
  - intros h Hh. destruct (alive_node s g h R Hh) as (k & -> & Hk).
    destruct (grows_old g g' k (r_wf s g R) GR Hk) as (O1 & O2 & O3).
    split; [apply (node_alive s' g'); auto|]. split; [|split].
    + eapply node_same_val; eauto.
    + eapply node_same_adj; eauto. apply (gr_adj _ _ GR); auto.
    + eapply node_same_op; eauto.
  - destruct RO as [(M & k & -> & Hk & ->)|(Es & Sz)].
    + left. split; auto. split; [exists (hd k); split; auto; apply (node_alive s g); auto|].
      rewrite (r_head s g R), (r_head s' g R'). reflexivity.
    + right. rewrite Es at 1. rewrite hd_seq, map_length. unfold hd at 1. rewrite <- (r_head s g R). split; auto.
      split; [rewrite (r_head s' g' R'), Sz, (r_head s g R); unfold zlen; rewrite map_length; lia|].
      intros h Hin. apply in_map_iff in Hin. destruct Hin as (k & <- & Hin). rewrite Es in Hin. apply in_seq in Hin.
      split; [apply (node_alive s' g'); auto; lia|]. split.
      * unfold alive, hd. rewrite (r_head s g R). lia.
      * rewrite (rel_var_adj s' g' R') by lia. f_equal. apply (gr_new _ _ GR). lia.
Qed.

(* ---- adjoint passes ---- *)

(* same variables, same values, same recorded operations *)
Definition only_adjoints (s s' : st) : Prop :=
  s_head s' = s_head s /\ t_head (s_tape s') = t_head (s_tape s) /\ s_lvl s' = s_lvl s /\
  forall h, alive s h -> same_val s s' h /\ same_op s s' h.

Lemma adj_only s s' g f : Rel s g -> Rel s' (set_gadj g f) -> only_adjoints s s'.
Proof.
  intros R R'. split; [|split; [|split]].
  - rewrite (r_head s g R), (r_head s' _ R'). reflexivity.
  - rewrite (r_thead s g R), (r_thead s' _ R'). reflexivity.
  - rewrite (r_lvl s g R), (r_lvl s' _ R'). reflexivity.
  - intros h Hh. destruct (alive_node s g h R Hh) as (k & -> & Hk). split.
    + eapply node_same_val; eauto.
    + eapply node_same_op; eauto. unfold same_node. cbn [set_gadj g_nodes].
      destruct (lt_nth_error _ _ Hk) as [nd E]. rewrite E. repeat split; auto.
Qed.

Lemma asweep_form lo n g g' : asweep lo n g = Some g' -> exists f, g' = set_gadj g f.
Proof.
  revert g. induction n as [|n IH]; intros g; cbn [asweep].
  - intros E; inversion E; subst. exists (g_adj g'). destruct g'; reflexivity.
  - destruct (effect g (lo + n)) as [l|]; [|discriminate]. intros E. destruct (IH _ E) as [f ->]. exists f. reflexivity.
Qed.

Theorem grad_frame s h : practical -> valid s -> alive s h ->
  exists s', grad h s = Ok (tt, s') /\ valid s' /\ only_adjoints s s'.
Proof.
  intros [HC HJ] (g & R & HG) Hh. destruct (alive_node s g h R Hh) as (k & -> & Hk).
  destruct (agrad_total HJ g k HG Hk) as (g' & E & G').
  destruct (grad_ok s g k g' R E) as (s' & E' & R'). exists s'. split; auto. split; [exists g'; auto|].
  unfold agrad in E. destruct (Nat.ltb k (gsize g)); [|discriminate].
  apply asweep_form in E. destruct E as [f ->]. eapply adj_only; [exact R|exact R'].
Qed.

Theorem zero_frame s : cfg_ok C -> valid s ->
  exists s', set_zero_all_adj s = Ok (tt, s') /\ valid s' /\ only_adjoints s s' /\
    forall h, alive s h -> var_adj s' h = Ok f0.
Proof.
  intros HC (g & R & HG). destruct (zero_all_ok s g R) as (s' & E & R'). exists s'. split; auto.
  split; [exists (azero_from 0 g); split; auto; apply good_set_gadj; auto|].
  split; [eapply adj_only; [exact R|exact R']|].
  intros h Hh. destruct (alive_node s g h R Hh) as (k & -> & Hk).
  rewrite (rel_var_adj s' _ R') by exact Hk. simpl. replace (Nat.ltb k (gsize g)) with true by lia. reflexivity.
Qed.

(* a list of gradient passes *)
Fixpoint grads (hs : list Z) : M unit :=
  match hs with
  | [] => mret tt
  | h :: t => _ <~ grad h ;; grads t
  end.

Lemma grads_form (HJ : exists j, junk = Some j) hs : forall s g, Rel s g -> good g -> Forall (alive s) hs ->
  exists s' f, grads hs s = Ok (tt, s') /\ Rel s' (set_gadj g f).
Proof.
  induction hs as [|h t IH]; intros s g R HG HA.
  - exists s, (g_adj g). split; auto. destruct g; exact R.
  - inversion HA as [|? ? H1 H2]; subst. destruct (alive_node s g h R H1) as (k & -> & Hk).
    destruct (agrad_total HJ g k HG Hk) as (g' & E & G').
    destruct (grad_ok s g k g' R E) as (s1 & E1 & R1).
    unfold agrad in E. destruct (Nat.ltb k (gsize g)); [|discriminate].
    apply asweep_form in E. destruct E as [f ->].
    destruct (IH s1 (set_gadj (a_seed g k) f) R1 G') as (s2 & f2 & E2 & R2).
    { eapply Forall_impl; [|exact H2]. intros x. unfold alive. rewrite (r_head s g R), (r_head s1 _ R1). auto. }
    exists s2, f2. split; [|exact R2]. cbn [grads]. rewrite (mbind_ok _ _ _ _ _ E1). exact E2.
Qed.

Lemma nupd_ext {A} (f f' : nat -> A) k x n : (forall j, (j < n)%nat -> f j = f' j) ->
  forall j, (j < n)%nat -> nupd f k x j = nupd f' k x j.
Proof. intros H j Hj. unfold nupd. destruct (Nat.eqb j k); auto. Qed.

Lemma apply_effect_ext l : forall f f' n, (forall j, (j < n)%nat -> f j = f' j) ->
  Forall (fun p => (fst p < n)%nat) l ->
  forall j, (j < n)%nat -> apply_effect l f j = apply_effect l f' j.
Proof.
  induction l as [|p l IH]; intros f f' n H HF j Hj; simpl; auto.
  inversion HF; subst. apply IH with (n := n); auto.
  intros i Hi. unfold addto. rewrite (H (fst p)) by auto. apply (nupd_ext f f' (fst p)  _ n); auto.
Qed.

Lemma mrow_in {A} (d : A) m k i l x : length l = (m * k)%nat -> (i < m)%nat -> In x (mrow d m k i l) -> In x l.
Proof.
  intros HL Hi Hin. unfold mrow in Hin. apply in_map_iff in Hin. destruct Hin as (j & <- & Hj).
  apply in_seq in Hj. apply nth_In. nia.
Qed.
Lemma mcol_in {A} (d : A) k n j l x : length l = (k * n)%nat -> (j < n)%nat -> In x (mcol d k j l) -> In x l.
Proof.
  intros HL Hi Hin. unfold mcol in Hin. apply in_map_iff in Hin. destruct Hin as (i & <- & Hj).
  apply in_seq in Hj. apply nth_In. nia.
Qed.

(* an effect only adds to nodes created earlier *)
Lemma effect_lt g k l : gwf g -> effect g k = Some l -> Forall (fun p => (fst p < k)%nat) l.
Proof.
  intros HW. unfold effect. destruct (nth_error (g_nodes g) k) as [nd|] eqn:E; [|discriminate].
  destruct (w_node g HW _ _ E) as (_ & W2 & W). unfold body_ok in W.
  assert (AV : forall a ar ids, nth_error (g_arrs g) a = Some ar -> a_loc ar + alen ar <= n_loc nd ->
     a_c ar = AVar ids -> length ids = (a_m ar * a_n ar)%nat /\ Forall (fun j => (j < k)%nat) ids).
  { intros a ar ids Ea La Ec. destruct (w_arr g HW _ _ Ea) as (_ & _ & _ & _ & X). rewrite Ec in X.
    destruct X as [X1 X2]. split; auto. eapply Forall_impl; [|exact X2]. cbv beta. intros j [J1 J2].
    destruct (Nat.lt_ge_cases j k) as [|Hge]; auto. exfalso.
    destruct (lt_nth_error _ _ J1) as [ndj Ej]. unfold gloc in J2. rewrite Ej in J2.
    pose proof (alen_pos ar). pose proof (bwidth_pos (n_body nd)). destruct (Nat.eq_dec j k) as [->|].
    - rewrite E in Ej. inversion Ej; subst. lia.
    - pose proof (w_order g HW k j nd ndj ltac:(lia) E Ej). unfold nwidth in *. lia. }
  destruct (n_body nd) as [ops ds|i j ia ib].
  - destruct (contrib _ _ _ _ _) as [c|]; [|discriminate]. simpl. intros H; inversion H; subst; clear H.
    clear - W. revert c. induction W as [|x t Hx Ht IH]; intros [|y c]; simpl; constructor; auto.
  - destruct W as (_ & _ & (ra & Ea & La) & (rb & Eb & Lb)). rewrite Ea, Eb.
    assert (CB : forall (r : list nat) (v : list F), (forall x, In x r -> (x < k)%nat) ->
       Forall (fun p : nat * F => (fst p < k)%nat) (combine r v)).
    { intros r v H. apply Forall_forall. intros [x y] Hin. apply in_combine_l in Hin. apply H; auto. }
    destruct (g_ch g k); try discriminate; [intros H; inversion H; constructor| | |];
    destruct ra as [m kk [la|da] l1]; try discriminate; destruct rb as [kk' n [lb|db] l2]; try discriminate;
    destruct (Nat.ltb_spec i m); try discriminate; destruct (Nat.ltb_spec j n); try discriminate;
    destruct (Nat.eqb kk kk'); try discriminate; cbn [andb]; intros HH; inversion HH; subst; clear HH.
    + destruct (AV _ _ _ Ea La eq_refl) as [V1 V2], (AV _ _ _ Eb Lb eq_refl) as [U1 U2]. cbn [a_m a_n] in *.
      rewrite Forall_forall in V2, U2. apply Forall_app. split; apply CB; intros x Hx.
      * apply V2. eapply mrow_in; eauto.
      * apply U2. eapply mcol_in; eauto.
    + destruct (AV _ _ _ Ea La eq_refl) as [V1 V2]. cbn [a_m a_n] in *.
      rewrite Forall_forall in V2. apply CB; intros x Hx. apply V2. eapply mrow_in; eauto.
    + destruct (AV _ _ _ Eb Lb eq_refl) as [U1 U2]. cbn [a_m a_n] in *.
      rewrite Forall_forall in U2. apply CB; intros x Hx. apply U2. eapply mcol_in; eauto.
Qed.

(* the sweep depends on adjoints of live nodes only *)
Lemma sweep_ext g : gwf g -> forall n lo f f', (lo + n <= gsize g)%nat ->
  (forall j, (j < gsize g)%nat -> f j = f' j) ->
  match asweep lo n (set_gadj g f), asweep lo n (set_gadj g f') with
  | Some g1, Some g2 => forall j, (j < gsize g)%nat -> g_adj g1 j = g_adj g2 j
  | None, None => True
  | _, _ => False
  end.
Proof.
  intros HW. induction n as [|n IH]; intros lo f f' Hn H; cbn [asweep].
  - exact H.
  - assert (EE : effect (set_gadj g f') (lo + n) = effect (set_gadj g f) (lo + n)).
    { unfold effect. cbn [set_gadj g_nodes g_adj g_ch g_arrs]. rewrite (H (lo + n)%nat) by lia. reflexivity. }
    rewrite EE. destruct (effect (set_gadj g f) (lo + n)) as [l|] eqn:EL; [|exact I].
    assert (HL : Forall (fun p => (fst p < gsize g)%nat) l).
    { eapply Forall_impl; [|apply (effect_lt _ _ _ (gwf_set_gadj g f HW) EL)]. cbv beta. intros; lia. }
    apply IH; [lia|]. cbn [set_gadj g_adj]. intros j Hj. eapply apply_effect_ext; eauto.
Qed.

Theorem repeat_grad s hs y s1 s2 s3 s4 : practical -> valid s ->
  Forall (alive s) hs -> alive s y ->
  (forall h, alive s h -> var_adj s h = Ok f0) ->
  grads hs s = Ok (tt, s1) -> set_zero_all_adj s1 = Ok (tt, s2) -> grad y s2 = Ok (tt, s3) ->
  grad y s = Ok (tt, s4) ->
  forall x, alive s x -> var_adj s3 x = var_adj s4 x.
Proof.
  intros [HC HJ] (g & R & HG) HA HY H0 E1 E2 E3 E4 x Hx.
  destruct (grads_form HJ hs s g R HG HA) as (s1' & f & E1' & R1). rewrite E1 in E1'. inversion E1'; subst s1'.
  destruct (zero_all_ok s1 _ R1) as (s2' & E2' & R2). rewrite E2 in E2'. inversion E2'; subst s2'.
  destruct (alive_node s g y R HY) as (k & -> & Hk).
  set (z := fun j => if Nat.ltb j (gsize g) then f0 else f j).
  assert (EZ : azero_from 0 (set_gadj g f) = set_gadj g z) by reflexivity.
  rewrite EZ in R2.
  destruct (agrad_total HJ g k HG Hk) as (g4 & A4 & _).
  destruct (agrad_total HJ (set_gadj g z) k (good_set_gadj g z HG) Hk) as (g3 & A3 & _).
  destruct (grad_ok s g k g4 R A4) as (s4' & E4' & R4). rewrite E4 in E4'. inversion E4'; subst s4'.
  destruct (grad_ok s2 _ k g3 R2 A3) as (s3' & E3' & R3). rewrite E3 in E3'. inversion E3'; subst s3'.
  destruct (alive_node s g x R Hx) as (j & -> & Hj).
  unfold agrad in A3, A4. change (gsize (set_gadj g z)) with (gsize g) in A3.
  destruct (Nat.ltb k (gsize g)); [|discriminate].
  assert (SZ : gsize g3 = gsize g /\ gsize g4 = gsize g).
  { pose proof A3 as B3. pose proof A4 as B4. apply asweep_form in B3. apply asweep_form in B4.
    destruct B3 as [? ->], B4 as [? ->]. auto. }
  rewrite (rel_var_adj s3 g3 R3), (rel_var_adj s4 g4 R4) by lia. f_equal.
  pose proof (sweep_ext g (r_wf s g R) (gsize g) 0 (nupd z k f1) (nupd (g_adj g) k f1) ltac:(lia)) as SE.
  unfold a_seed in A3, A4.
  change (set_gadj (set_gadj g z) (nupd (g_adj (set_gadj g z)) k f1)) with (set_gadj g (nupd z k f1)) in A3.
  rewrite A3, A4 in SE. apply SE; auto.
  apply nupd_ext. intros i Hi. unfold z. replace (Nat.ltb i (gsize g)) with true by lia.
  specialize (H0 (hd i) (node_alive s g i R Hi)). rewrite (rel_var_adj s g R i Hi) in H0. congruence.
Qed.

(* ---- assignment of reals ---- *)

Lemma gval_set g k d j : (j < gsize g)%nat -> gval (set_gval g k d) j = if Nat.eqb j k then d else gval g j.
Proof.
  intros Hj. unfold gval. rewrite set_gval_nth. destruct (lt_nth_error _ _ Hj) as [nd E]. rewrite E.
  destruct (Nat.eqb j k); reflexivity.
Qed.

Lemma same_node_set g k d j : (j < gsize g)%nat -> same_node g (set_gval g k d) j.
Proof.
  intros Hj. unfold same_node. rewrite set_gval_nth. destruct (lt_nth_error _ _ Hj) as [nd E]. rewrite E.
  destruct (Nat.eqb j k); cbn [n_body n_loc]; repeat split; auto; apply set_gval_zops.
Qed.

Theorem set_frame s h d : valid s -> alive s h ->
  exists s', set_var h d s = Ok (tt, s') /\ valid s' /\ s_head s' = s_head s /\ s_lvl s' = s_lvl s /\
    t_head (s_tape s') = t_head (s_tape s) /\
    var_val s' h = Ok d /\
    forall x, alive s x -> same_adj s s' x /\ same_op s s' x /\ (x <> h -> same_val s s' x).
Proof.
  intros (g & R & HG) Hh. destruct (alive_node s g h R Hh) as (k & -> & Hk).
  destruct (rel_set_var s g k d R Hk) as (s' & E & R'). exists s'. split; auto.
  split; [exists (set_gval g k d); split; auto; apply good_set_gval; auto|].
  split; [rewrite (r_head s g R), (r_head s' _ R'), set_gval_size; auto|].
  split; [rewrite (r_lvl s g R), (r_lvl s' _ R'); auto|].
  split; [rewrite (r_thead s g R), (r_thead s' _ R'); auto|].
  split.
  - rewrite (rel_var_val s' _ R') by (rewrite set_gval_size; auto). rewrite gval_set by auto.
    rewrite Nat.eqb_refl. reflexivity.
  - intros x Hx. destruct (alive_node s g x R Hx) as (j & -> & Hj).
    assert (Hj' : (j < gsize (set_gval g k d))%nat) by (rewrite set_gval_size; auto).
    split; [eapply node_same_adj; eauto; reflexivity|].
    split; [eapply node_same_op; eauto; apply same_node_set; auto|].
    intros Hne. eapply node_same_val; eauto. rewrite gval_set by auto.
    destruct (Nat.eqb_spec j k); [subst; tauto|reflexivity].
Qed.

(* x(1:n) = d(1:n) for distinct variables *)
Theorem set_1d_frame hs : forall ds s, valid s -> Forall (alive s) hs -> NoDup hs -> length ds = length hs ->
  exists s', set_var_1d hs ds s = Ok (tt, s') /\ valid s' /\ s_head s' = s_head s /\ s_lvl s' = s_lvl s /\
    t_head (s_tape s') = t_head (s_tape s) /\
    mapM (var_val s') hs = Ok ds /\
    forall x, alive s x -> same_adj s s' x /\ same_op s s' x /\ (~ In x hs -> same_val s s' x).
Proof.
  induction hs as [|h hs IH]; intros ds s HV HA HN HL.
  - destruct ds; [|discriminate]. exists s. cbn. repeat split; auto.
  - destruct ds as [|d ds]; [discriminate|]. inversion HA as [|? ? H1 H2]; subst. inversion HN as [|? ? N1 N2]; subst.
    destruct (set_frame s h d HV H1) as (s1 & E1 & V1 & S1 & S2 & S3 & S4 & S5).
    assert (AL : forall x, alive s x <-> alive s1 x) by (intros; unfold alive; rewrite S1; tauto).
    destruct (IH ds s1 V1) as (s' & E & V & T1 & T2 & T3 & T4 & T5); auto.
    { eapply Forall_impl; [|exact H2]. intros x. apply AL. }
    exists s'. split; [cbn [set_var_1d]; rewrite (mbind_ok _ _ _ _ _ E1); exact E|]. split; auto.
    split; [congruence|]. split; [congruence|]. split; [congruence|]. split.
    + cbn [mapM]. destruct (T5 h (proj1 (AL h) H1)) as (_ & _ & X). specialize (X N1). unfold same_val in X.
      rewrite X, S4. cbn [bind]. rewrite T4. reflexivity.
    + intros x Hx. destruct (S5 x Hx) as (A & B & D). destruct (T5 x (proj1 (AL x) Hx)) as (A' & B' & D').
      unfold same_adj, same_op, same_val in *. destruct B as (B1 & B2 & B3), B' as (B1' & B2' & B3').
      repeat split; try congruence. intros Hn. rewrite D' by (intro; apply Hn; right; auto).
      apply D. intro; subst; apply Hn; left; auto.
Qed.

(* x(1:n) = d *)
Theorem set_1d_from_0d_frame hs d : forall s, valid s -> Forall (alive s) hs ->
  exists s', set_var_1d_from_0d hs d s = Ok (tt, s') /\ valid s' /\ s_head s' = s_head s /\ s_lvl s' = s_lvl s /\
    t_head (s_tape s') = t_head (s_tape s) /\
    (forall x, In x hs -> var_val s' x = Ok d) /\
    forall x, alive s x -> same_adj s s' x /\ same_op s s' x /\ (~ In x hs -> same_val s s' x).
Proof.
  induction hs as [|h hs IH]; intros s HV HA.
  - exists s. cbn. repeat split; auto. intros x [].
  - inversion HA as [|? ? H1 H2]; subst.
    destruct (set_frame s h d HV H1) as (s1 & E1 & V1 & S1 & S2 & S3 & S4 & S5).
    assert (AL : forall x, alive s x <-> alive s1 x) by (intros; unfold alive; rewrite S1; tauto).
    destruct (IH s1 V1) as (s' & E & V & T1 & T2 & T3 & T4 & T5); auto.
    { eapply Forall_impl; [|exact H2]. intros x. apply AL. }
    exists s'. split; [cbn [set_var_1d_from_0d]; rewrite (mbind_ok _ _ _ _ _ E1); exact E|]. split; auto.
    split; [congruence|]. split; [congruence|]. split; [congruence|]. split.
    + intros x [<-|Hin]; [|auto]. destruct (in_dec Z.eq_dec h hs) as [Hi|Hn]; [auto|].
      destruct (T5 h (proj1 (AL h) H1)) as (_ & _ & X). specialize (X Hn). unfold same_val in X. congruence.
    + intros x Hx. destruct (S5 x Hx) as (A & B & D). destruct (T5 x (proj1 (AL x) Hx)) as (A' & B' & D').
      unfold same_adj, same_op, same_val in *. destruct B as (B1 & B2 & B3), B' as (B1' & B2' & B3').
      repeat split; try congruence. intros Hn. rewrite D' by (intro; apply Hn; right; auto).
      apply D. intro; subst; apply Hn; left; auto.
Qed.

End Frames.
