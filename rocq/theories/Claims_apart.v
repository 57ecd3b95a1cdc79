(* Proofs of the claims about matmul inside nested blocks: the invariant of Valid.v with
   the stale chain pointers of the unmarked slots left open. *)
From Coq Require Import ZifyBool ZifyNat.
From Verif Require Import TapeFacts.
From Verif Require Export ApartSpec RelSpec Claims_storage.
Local Open Scope Z_scope.

Section Neat.
Context {N : Num} {RL : RepLaws N} {C : Cfg N} (P : Z -> bool).

Record neat (g : graph) : Prop := {
  nt_fit : forall k, (k < gsize g)%nat -> fits g k = true;
  nt_stale : forall k, (gsize g <= k)%nat -> P (hd k) = true -> is_mat (g_ch g k) = false;
  nt_nest : forall m, In m (g_nest g) -> forall k, (mk_n m <= k)%nat -> P (hd k) = true -> is_mat (g_ch g k) = false
}.
Definition tidy (s : st) : Prop := exists g, Rel s g /\ neat g.

Lemma neat_init : neat g_init.
Proof.
  constructor; simpl.
  - intros k H. inversion H.
  - auto.
  - intros m [].
Qed.
Lemma neat_set_gadj g f : neat g -> neat (set_gadj g f).
Proof. intros [A B D]. constructor; auto. Qed.
Lemma neat_set_gval g k d : neat g -> neat (set_gval g k d).
Proof.
  intros [A B D]. constructor.
  - intros j. rewrite set_gval_size, fits_set_gval. apply A.
  - intros j. rewrite set_gval_size. apply B.
  - exact D.
Qed.
Lemma sweep_neat (HJ : exists j, junk = Some j) g : neat g -> forall n lo, (lo + n <= gsize g)%nat ->
  forall f, exists g', asweep lo n (set_gadj g f) = Some g' /\ g_nodes g' = g_nodes g /\ neat g'.
Proof.
  intros HG. induction n as [|n IH]; intros lo Hn f.
  - exists (set_gadj g f). split; [reflexivity|]. split; [reflexivity|]. apply neat_set_gadj; auto.
  - cbn [asweep].
    destruct (effect_some HJ (set_gadj g f) (lo + n)) as [l E].
    { apply (nt_fit g HG). lia. }
    rewrite E. apply (IH lo ltac:(lia)).
Qed.

Lemma agrad_neat (HJ : exists j, junk = Some j) g k : neat g -> (k < gsize g)%nat ->
  exists g', agrad k g = Some g' /\ neat g'.
Proof.
  intros HG Hk. unfold agrad. replace (Nat.ltb k (gsize g)) with true by lia.
  destruct (sweep_neat HJ g HG (gsize g) 0 ltac:(lia) (nupd (g_adj g) k f1)) as (g' & E & _ & G'). eauto.
Qed.


Lemma neat_new g v b ch : neat g -> is_mat ch = false \/ g_nest g = [] \/ P (hd (gsize g)) = false ->
  fits (a_new g v b (Some ch)) (gsize g) = true -> neat (a_new g v b (Some ch)).
Proof.
  intros [A B D] Hm Hf.
  assert (SZ : gsize (a_new g v b (Some ch)) = S (gsize g)).
  { unfold gsize; simpl. rewrite app_length; simpl. lia. }
  constructor.
  - intros k Hk. rewrite SZ in Hk. destruct (Nat.eq_dec k (gsize g)) as [->|Hne]; auto.
    specialize (A k ltac:(lia)). unfold fits in *. simpl. unfold nupd.
    rewrite nth_error_app1 by (unfold gsize in *; lia). destruct (Nat.eqb_spec k (gsize g)); [lia|]. exact A.
  - intros k Hk HQ. rewrite SZ in Hk. simpl. unfold nupd. destruct (Nat.eqb_spec k (gsize g)); [lia|]. apply B; [lia|exact HQ].
  - intros m Hin k Hk HQ. simpl in Hin |- *. unfold nupd. destruct Hm as [Hm|[Hm|Hm]].
    + destruct (Nat.eqb k (gsize g)); auto. eapply D; eauto.
    + rewrite Hm in Hin. destruct Hin.
    + destruct (Nat.eqb_spec k (gsize g)) as [->|]; [congruence|]. eapply D; eauto.
Qed.
Lemma neat_leaf g v : neat g -> P (hd (gsize g)) = true -> neat (a_new g v (BRec [] []) None).
Proof.
  intros [A B D] HQ.
  assert (SZ : gsize (a_new g v (BRec [] []) None) = S (gsize g)).
  { unfold gsize; simpl. rewrite app_length; simpl. lia. }
  constructor.
  - intros k Hk. rewrite SZ in Hk. destruct (Nat.eq_dec k (gsize g)) as [->|Hne].
    + unfold fits. simpl. rewrite nth_error_app2, Nat.sub_diag by auto. simpl.
      specialize (B (gsize g) (le_n _) HQ). destruct (g_ch g (gsize g)); try discriminate B; reflexivity.
    + specialize (A k ltac:(lia)). unfold fits in *. simpl.
      rewrite nth_error_app1 by (unfold gsize in *; lia). exact A.
  - intros k Hk. rewrite SZ in Hk. simpl. apply B. lia.
  - exact D.
Qed.
Lemma neat_arr g m n c : neat g -> neat (a_arr g m n c).
Proof.
  intros [A B D]. constructor; auto.
  intros k Hk. specialize (A k Hk). unfold fits in *. simpl.
  destruct (nth_error (g_nodes g) k) as [nd|]; auto. destruct (n_body nd) as [|i j ia ib]; auto.
  destruct (nth_error (g_arrs g) ia) as [ra|] eqn:Ea; [|destruct (g_ch g k); discriminate A].
  destruct (nth_error (g_arrs g) ib) as [rb|] eqn:Eb;
    [|destruct (g_ch g k); try discriminate A; destruct ra as [? ? [|] ?]; discriminate A].
  rewrite !nth_error_app1 by (eapply nth_error_lt; eauto). rewrite Ea, Eb. exact A.
Qed.

Lemma neat_begin g g' : neat g -> abegin g = Some g' -> neat g'.
Proof.
  intros [A B D]. unfold abegin. destruct (Nat.ltb _ 10); [|discriminate]. intros E; inversion E; subst.
  constructor; auto. intros m Hin k Hk HQ. simpl in Hin. destruct Hin as [<-|Hin]; [apply B; [exact Hk|exact HQ]|].
  eapply D; eauto.
Qed.

Lemma neat_trunc g m r : gwf g -> neat g -> g_nest g = m :: r -> neat (atrunc m r g).
Proof.
  intros HW [A B D] HN. destruct (trunc_facts g m r HW HN) as (T1 & T2 & T3 & T4 & T5).
  constructor.
  - intros k Hk. rewrite trunc_size in Hk by auto. specialize (A k ltac:(lia)).
    unfold fits in *. simpl. rewrite nth_firstn by auto.
    destruct (nth_error (g_nodes g) k) as [nd|] eqn:E; auto.
    destruct (w_node g HW _ _ E) as (_ & _ & W3). destruct (proj1 T4 _ _ E) as [S1 _]. specialize (S1 Hk).
    pose proof (bwidth_pos (n_body nd)). unfold body_ok, nwidth in *.
    destruct (n_body nd) as [|i j ia ib]; auto.
    destruct W3 as (_ & _ & (ra & Ea & La) & (rb & Eb & Lb)).
    pose proof (alen_pos ra). pose proof (alen_pos rb).
    rewrite !nth_firstn; auto.
    + eapply trunc_arr_live; [exact HW|exact HN|exact Eb|lia].
    + eapply trunc_arr_live; [exact HW|exact HN|exact Ea|lia].
  - intros k Hk HQ. rewrite trunc_size in Hk by auto. simpl. eapply D; [rewrite HN; left; reflexivity|exact Hk|exact HQ].
  - intros m' Hin k Hk HQ. simpl in *. eapply D; [rewrite HN; right; exact Hin|exact Hk|exact HQ].
Qed.


Definition act_neat (g : graph) (a : act) : Prop :=
  match a with
  | ANew v ops ds None => P (hd (gsize g)) = true
  | _ => True
  end.
Lemma do_act_neat g a k g' : neat g -> act_fine g a -> act_neat g a -> do_act g a = AOk (k, g') -> neat g'.
Proof.
  intros HG. destruct a as [v ops ds [ch|]|j [ch|]| |]; simpl; try discriminate; try tauto.
  - intros [H1 H2] _ E. inversion E; subst. apply neat_new; auto.
    unfold fits; simpl. rewrite nth_error_app2, Nat.sub_diag by auto. simpl.
    unfold nupd. rewrite Nat.eqb_refl. exact H1.
  - intros [-> ->] HQ E. inversion E; subst. apply neat_leaf; auto.
  - intros _ _ E. inversion E; subst. auto.
Qed.
(* the slots of the call, on the graph *)
Definition gleaf (g : graph) (env : list nat) (o : op) : Prop :=
  match o with
  | OVar _ | OVar0 => True
  | OUn UAbs r => exists k, areg g env r = Some k /\ feq (gval g k) f0 = true
  | _ => False
  end.
Lemma act_op_neat g env o : neutral o = false -> (gleaf g env o -> P (hd (gsize g)) = true) -> act_neat g (act_op g env o).
Proof.
  intros HN HL. destruct o; cbn [act_op act_neat gleaf] in *; auto.
  - destruct (areg g env a) as [k|] eqn:EA; [|exact I]. destruct u; cbn [act_un anew1 act_neat]; auto.
    + destruct (is_nan_d _); [exact I|]. destruct (fle _ _); exact I.
    + destruct (is_nan_d _); [exact I|]. destruct (_ || _); exact I.
    + unfold act_abs. destruct (fgt _ _); [exact I|]. destruct (flt _ _); [exact I|].
      destruct (feq _ _) eqn:EQ; cbn; auto. apply HL. eauto.
  - destruct (areg g env x) as [k1|]; [|exact I]. destruct (areg g env y) as [k2|]; [|exact I]. destruct b; exact I.
  - destruct (areg g env x) as [k|]; [|exact I]. destruct b; cbn [act_vd];
      repeat match goal with |- act_neat _ (if ?c then _ else _) => destruct c end; try exact I.
    unfold act_abs. repeat match goal with |- act_neat _ (if ?c then _ else _) => destruct c end; exact I.
  - destruct (areg g env y) as [k|]; [|exact I]. destruct b; cbn [act_dv];
      repeat match goal with |- act_neat _ (if ?c then _ else _) => destruct c end; exact I.
  - destruct (aregs g env l); exact I.
  - destruct (aregs g env l); exact I.
  - destruct (aregs g env l); exact I.
  - destruct (aregs g env l1); [|exact I]. destruct (aregs g env l2); [|exact I]. destruct (Nat.eqb _ _); exact I.
  - destruct (aregs g env l); [|exact I]. destruct (Nat.eqb _ _); exact I.
  - destruct (aregs g env l); [|exact I]. destruct (Nat.eqb _ _); exact I.
  - destruct (aregs g env l); [|exact I]. cbv zeta. destruct (Nat.eqb _ _); exact I.
Qed.
Definition spare (g : graph) (n : nat) : Prop := g_nest g = [] \/ forall i, (i < n)%nat -> P (hd (gsize g + i)) = false.
Lemma mat_nodes_neat ch m k n la lb ca cb ps : is_mat ch = true ->
  (forall i j ia ib l1 l2 g v, nth_error (g_arrs g) ia = Some (mkArr m k ca l1) ->
     nth_error (g_arrs g) ib = Some (mkArr k n cb l2) -> (i < m)%nat -> (j < n)%nat ->
     fits (a_new g v (BMat i j ia ib) (Some ch)) (gsize g) = true) ->
  forall ia ib g, neat g -> spare g (length ps) ->
  nth_error (g_arrs g) ia = Some (mkArr m k ca la) -> nth_error (g_arrs g) ib = Some (mkArr k n cb lb) ->
  Forall (fun q : (nat * nat) * F => (fst (fst q) < m)%nat /\ (snd (fst q) < n)%nat) ps ->
  neat (mat_nodes ch ia ib ps g).
Proof.
  intros Hm HF ia ib g HG HN Ea Eb HP. revert g HG HN Ea Eb.
  induction HP as [|q ps [Q1 Q2] HP IH]; intros g HG HN Ea Eb; auto.
  assert (SZ : gsize (a_new g (snd q) (BMat (fst (fst q)) (snd (fst q)) ia ib) (Some ch)) = S (gsize g)).
  { unfold gsize; simpl. rewrite app_length; simpl. lia. }
  rewrite mat_nodes_cons. apply IH; auto.
  - apply neat_new; auto; [|eapply HF; eauto]. right. destruct HN as [HN|HN]; [left; exact HN|right].
    specialize (HN 0%nat ltac:(cbn [length]; lia)). rewrite Nat.add_0_r in HN. exact HN.
  - destruct HN as [HN|HN]; [left; exact HN|right]. intros i Hi. rewrite SZ.
    replace (S (gsize g) + i)%nat with (gsize g + S i)%nat by lia. apply HN. cbn [length]. lia.
Qed.

Lemma amat_neat ch m k n ca cb av bv g ks g' : is_mat ch = true ->
  (forall i j ia ib l1 l2 g v, nth_error (g_arrs g) ia = Some (mkArr m k ca l1) ->
     nth_error (g_arrs g) ib = Some (mkArr k n cb l2) -> (i < m)%nat -> (j < n)%nat ->
     fits (a_new g v (BMat i j ia ib) (Some ch)) (gsize g) = true) ->
  neat g -> spare g (m * n) -> amat ch m k n ca cb av bv g = AOk (ks, g') -> neat g'.
Proof.
  intros Hm HF HG HN. unfold amat. destruct (_ && _ && _); [|discriminate]. intros E; inversion E; subst; clear E.
  eapply mat_nodes_neat with (m := m) (k := k) (n := n); try eassumption.
  - apply neat_arr, neat_arr; auto.
  - destruct HN as [HN|HN]; [left; exact HN|right]. intros i Hi. apply HN. rewrite combine_length in Hi. rewrite <- (mpairs_len m n). lia.
  - cbn [a_arr push_top g_arrs]. rewrite nth_error_app1 by (rewrite app_length; cbn [length]; lia).
    rewrite nth_error_app2, Nat.sub_diag by auto. reflexivity.
  - cbn [a_arr push_top g_arrs]. rewrite nth_error_app2 by (rewrite app_length; cbn [length]; lia).
    rewrite app_length; cbn [length].
    replace (S (length (g_arrs g)) - (length (g_arrs g) + 1))%nat with O by lia. reflexivity.
  - apply (combine_Forall_fst (fun p : nat * nat => (fst p < m)%nat /\ (snd p < n)%nat)).
    apply mpairs_bound.
Qed.


Lemma act_op_fine g env o : Forall (has_node g env) (op_regs o) -> op_shape o -> neutral o = false -> is_matmul o = false ->
  act_fine g (act_op g env o).
Proof.
  intros HR HS HN LV.
  destruct o; try discriminate LV; cbn [op_regs op_shape] in HR, HS; cbn [act_op].
  - simpl; auto.
  - simpl; auto.
  - inversion HR as [|? ? H1 _]; subst. destruct H1 as (k & E). rewrite E.
    apply act_un_fine.
  - inversion HR as [|? ? H1 HR2]; subst. inversion HR2 as [|? ? H2 _]; subst.
    destruct H1 as (k & E). destruct H2 as (k2 & E2).
    rewrite E, E2. apply act_vv_fine.
  - inversion HR as [|? ? H1 _]; subst. destruct H1 as (k & E). rewrite E.
    eapply act_vd_fine; eauto.
  - inversion HR as [|? ? H1 _]; subst. destruct H1 as (k & E). rewrite E.
    eapply act_dv_fine; eauto.
  - destruct (has_nodes_aregs _ _ _ HR) as (ks & E & L). rewrite E. simpl.
    destruct ks; simpl; auto.
  - destruct (has_nodes_aregs _ _ _ HR) as (ks & E & L). rewrite E. simpl.
    destruct ks; simpl; auto.
  - destruct (has_nodes_aregs _ _ _ HR) as (ks & E & L). rewrite E. simpl.
    destruct ks; simpl; auto.
  - apply Forall_app in HR. destruct HR as [HR1 HR2].
    destruct (has_nodes_aregs _ _ _ HR1) as (k1 & E1 & L1).
    destruct (has_nodes_aregs _ _ _ HR2) as (k2 & E2 & L2). rewrite E1, E2.
    replace (Nat.eqb (length k1) (length k2)) with true by lia. simpl. split; auto.
    rewrite app_length. assert (EQ : length k2 = length k1) by lia. rewrite EQ.
    destruct (Nat.eqb (length k1 + length k1) 0); [reflexivity|].
    replace (length k1 + length k1)%nat with (2 * length k1)%nat by lia. rewrite Nat.div2_double.
    simpl. apply Nat.eqb_refl.
  - destruct (has_nodes_aregs _ _ _ HR) as (ks & E & L). rewrite E.
    replace (Nat.eqb (length ks) (length d)) with true by lia. simpl. split; auto.
    rewrite L, HS, Nat.eqb_refl. destruct (Nat.eqb (length d) 0 && Nat.eqb (length d) 0); reflexivity.
  - destruct (has_nodes_aregs _ _ _ HR) as (ks & E & L). rewrite E.
    replace (Nat.eqb (length d) (length ks)) with true by lia. simpl. split; auto.
    rewrite L, <- HS, Nat.eqb_refl. destruct (Nat.eqb (length d) 0 && Nat.eqb (length d) 0); reflexivity.
  - destruct (has_nodes_aregs _ _ _ HR) as (ks & E & L). rewrite E.
    specialize (HS (map (gval g) ks) ltac:(rewrite map_length; exact L)).
    replace (Nat.eqb (length (p (map (gval g) ks))) (length ks)) with true by lia. simpl. split; auto.
    rewrite HS, L, Nat.eqb_refl. destruct (Nat.eqb (length l) 0 && Nat.eqb (length l) 0); reflexivity.
Qed.

Lemma op_accept_neat g env o : neat g -> Forall (has_node g env) (op_regs o) -> op_shape o -> neutral o = false ->
  (gleaf g env o -> P (hd (gsize g)) = true) -> (is_matmul o = true -> spare g (Z.to_nat (entries o))) ->
  aexec_op g env o <> ABad /\ (forall ks g', aexec_op g env o = AOk (ks, g') -> neat g').
Proof.
  intros HG HR HS HN HL LV.
  assert (ONE : is_matmul o = false ->
     abind (do_act g (act_op g env o)) (fun p => AOk ([fst p], snd p)) <> ABad /\
     (forall ks g', abind (do_act g (act_op g env o)) (fun p => AOk ([fst p], snd p)) = AOk (ks, g') -> neat g')).
  { intros EM. pose proof (act_op_fine g env o HR HS HN EM) as Ha. pose proof (act_op_neat g env o HN HL) as Hb.
    destruct (act_op g env o) as [v ops ds c|j c| |] eqn:EO; split; try (intros ks g').
    - simpl; discriminate.
    - destruct (do_act g (ANew v ops ds c)) as [[k1 g1]| |] eqn:E; simpl; try discriminate. intros H; inversion H; subst. eapply do_act_neat; eauto.
    - destruct c; [destruct Ha|simpl; discriminate].
    - destruct (do_act g (AAlias j c)) as [[k1 g1]| |] eqn:E; simpl; try discriminate. intros H; inversion H; subst. eapply do_act_neat; eauto.
    - simpl; discriminate.
    - simpl; discriminate.
    - destruct Ha.
    - destruct Ha. }
  destruct o; cbn [aexec_op]; try exact (ONE eq_refl); clear ONE HL; cbn [op_regs op_shape] in HR, HS.
  - apply Forall_app in HR. destruct HR as [HR1 HR2]. destruct HS as (S1 & S2 & S3 & S4 & S5).
    destruct (has_nodes_aregs _ _ _ HR1) as (k1 & E1 & L1).
    destruct (has_nodes_aregs _ _ _ HR2) as (k2 & E2 & L2). rewrite E1, E2.
    split.
    + unfold amat, dims_ok, dim_ok. rewrite !map_length.
      replace (Nat.eqb _ _ && Nat.eqb _ _ && _) with true by lia. discriminate.
    + intros ks g'. apply amat_neat; auto; [intros; rewrite fits_mat, H, H0; lia|]. specialize (LV eq_refl). cbn [entries] in LV. rewrite Nat2Z.id in LV. exact LV.
  - destruct HS as (S1 & S2 & S3 & S4 & S5).
    destruct (has_nodes_aregs _ _ _ HR) as (k1 & E1 & L1). rewrite E1.
    split.
    + unfold amat, dims_ok, dim_ok. rewrite !map_length.
      replace (Nat.eqb _ _ && Nat.eqb _ _ && _) with true by lia. discriminate.
    + intros ks g'. apply amat_neat; auto; [intros; rewrite fits_mat, H, H0; lia|]. specialize (LV eq_refl). cbn [entries] in LV. rewrite Nat2Z.id in LV. exact LV.
  - destruct HS as (S1 & S2 & S3 & S4 & S5).
    destruct (has_nodes_aregs _ _ _ HR) as (k1 & E1 & L1). rewrite E1.
    split.
    + unfold amat, dims_ok, dim_ok. rewrite !map_length.
      replace (Nat.eqb _ _ && Nat.eqb _ _ && _) with true by lia. discriminate.
    + intros ks g'. apply amat_neat; auto; [intros; rewrite fits_mat, H, H0; lia|]. specialize (LV eq_refl). cbn [entries] in LV. rewrite Nat2Z.id in LV. exact LV.
Qed.

Lemma op_accept_apart s g env o : Rel s g -> neat g -> op_apart P s env o ->
  aexec_op g (nodes_of env) o <> ABad /\
  (forall ks g', aexec_op g (nodes_of env) o = AOk (ks, g') -> neat g').
Proof.
  intros R HG (HR & HS & HN & HL & HM). apply op_accept_neat; auto.
  - eapply Forall_impl; [|exact HR]. intros r Hr. destruct (has_reg_areg s g env r R Hr) as (k & E & _). exists k. auto.
  - intros H. replace (hd (gsize g)) with (s_head s) by (rewrite (r_head s g R); reflexivity). apply HL.
    destruct o; cbn [gleaf makes_leaf op_regs] in *; auto. destruct u; auto. destruct H as (k & E & EQ).
    inversion HR as [|? ? H1 _]; subst. destruct (has_reg_areg s g env a R H1) as (k' & E' & EN & HK).
    assert (k' = k) by congruence. subst k'. exists (hd k), (gval g k). split; [exact EN|]. split; [apply (rel_var_val s g R k HK)|exact EQ].
  - intros E. destruct (HM E) as [HZ|HZ].
    + left. rewrite (r_lvl s g R) in HZ. unfold zlen in HZ. destruct (g_nest g); simpl in *; auto. lia.
    + right. intros i Hi. replace (hd (gsize g + i)) with (s_head s + Z.of_nat i) by (rewrite (r_head s g R); unfold hd; lia). apply HZ. lia.
Qed.
Lemma cmd_apart_end s env c : cmd_apart P s env c -> c = CEnd -> cmd_ok s env c.
Proof. intros H ->. exact H. Qed.
Lemma gstep_apart s g env c : cfg_ok C -> Rel s g -> handles env -> cmd_apart P s env c ->
  refines (exec_cmd env c s) (gstep g (nodes_of env) c).
Proof.
  intros HC R HH HO. pose proof (step_refines s g (nodes_of env) c HC R) as H.
  rewrite nodes_of_hd in H by auto.
  destruct c; try exact H. exact (gstep_refines s g env CEnd HC R HH HO).
Qed.
Lemma asweep_neat lo n g g' : neat g -> asweep lo n g = Some g' -> neat g'.
Proof.
  revert g. induction n as [|n IH]; intros g HG; simpl.
  - intros E; inversion E; subst; auto.
  - destruct (effect g (lo + n)); [|discriminate]. apply IH. apply neat_set_gadj; auto.
Qed.

Lemma cmd_accept_apart (HJ : exists j, junk = Some j) s g env c : Rel s g -> neat g -> cmd_apart P s env c ->
  gstep g (nodes_of env) c <> ABad /\ (forall ks os g', gstep g (nodes_of env) c = AOk (ks, os, g') -> neat g').
Proof.
  intros R HG HO. destruct c; cbn [gstep astep cmd_apart cmd_ok] in *.
  - destruct (op_accept_apart s g env o R HG HO) as [H1 H2].
    destruct (aexec_op g (nodes_of env) o) as [[k1 g1]| |] eqn:E; cbn [abind].
    + split; [discriminate|]. intros ks os g' H; inversion H; subst. eapply H2; eauto.
    + split; discriminate.
    + tauto.
  - destruct (has_reg_areg _ _ _ _ R HO) as (k & E & _). rewrite E. split; [discriminate|].
    intros ks os g' H; inversion H; subst. apply neat_set_gval; auto.
  - destruct (has_reg_areg _ _ _ _ R HO) as (k & E & _ & Hk). rewrite E.
    destruct (agrad_neat HJ g k HG Hk) as (g1 & E1 & G1). rewrite E1. split; [discriminate|].
    intros ks os g' H; inversion H; subst; auto.
  - destruct HO as [HO HL]. destruct (has_reg_areg _ _ _ _ R HO) as (k & E & _ & Hk). rewrite E.
    unfold agrad_nested. rewrite (r_lvl s g R) in HL. destruct (g_nest g) as [|m l] eqn:EN; [unfold zlen in HL; simpl in HL; lia|].
    replace (Nat.ltb k (gsize g)) with true by lia.
    destruct (trunc_facts g m l (r_wf s g R) EN) as (T1 & _).
    destruct (sweep_neat HJ g HG (gsize g - mk_n m) (mk_n m) ltac:(lia) (nupd (g_adj g) k f1)) as (g1 & E1 & _ & G1).
    unfold a_seed. rewrite E1. split; [discriminate|]. intros ks os g' H; inversion H; subst; auto.
  - split; [discriminate|]. intros ks os g' H; inversion H; subst. apply neat_set_gadj; auto.
  - rewrite (r_lvl s g R) in HO. destruct (g_nest g) as [|m l]; [unfold zlen in HO; simpl in HO; lia|].
    split; [discriminate|]. intros ks os g' H; inversion H; subst. apply neat_set_gadj; auto.
  - destruct (abegin g) as [g1|] eqn:E.
    + split; [discriminate|]. intros ks os g' H; inversion H; subst. eapply neat_begin; eauto.
    + exfalso. unfold abegin in E. rewrite (r_lvl s g R) in HO. unfold zlen in HO.
      destruct (Nat.ltb_spec (length (g_nest g)) 10); [discriminate|lia].
  - destruct (g_nest g) as [|m l] eqn:EN; (split; [discriminate|]); intros ks os g' H; inversion H; subst; auto.
    apply neat_trunc; auto. apply (r_wf s g R).
  - destruct (has_reg_areg _ _ _ _ R HO) as (k & E & _). rewrite E. split; [discriminate|].
    intros ks os g' H; inversion H; subst; auto.
  - destruct (has_reg_areg _ _ _ _ R HO) as (k & E & _). rewrite E. split; [discriminate|].
    intros ks os g' H; inversion H; subst; auto.
  - destruct HO as [H1 H2]. destruct (has_reg_areg _ _ _ _ R H1) as (k & E & _).
    destruct (has_reg_areg _ _ _ _ R H2) as (k2 & E2 & _). rewrite E, E2. split; [discriminate|].
    intros ks os g' H; inversion H; subst; auto.
  - destruct (has_reg_areg _ _ _ _ R HO) as (k & E & _). rewrite E. split; [discriminate|].
    intros ks os g' H; inversion H; subst; auto.
  - destruct (has_reg_areg _ _ _ _ R HO) as (k & E & _). rewrite E. split; [discriminate|].
    intros ks os g' H; inversion H; subst; auto.
Qed.

Lemma cmd_sim_apart s g env c : practical -> Rel s g -> neat g -> handles env -> cmd_apart P s env c ->
  (gstep g (nodes_of env) c = AStop /\ exec_cmd env c s = ErrStop) \/
  exists ks os g', gstep g (nodes_of env) c = AOk (ks, os, g') /\ neat g' /\
    forall ov : Prop, excused ov g' ->
      wp ov (exec_cmd env c s) (fun p => fst p = (map hd ks, os) /\ Rel (snd p) g').
Proof.
  intros [HC HJ] R HG HH HO. pose proof (gstep_apart s g env c HC R HH HO) as HR.
  destruct (cmd_accept_apart HJ s g env c R HG HO) as [H1 H2].
  destruct (gstep g (nodes_of env) c) as [[[ks os] g']| |] eqn:E; simpl in HR.
  - right. exists ks, os, g'. split; auto. split; [eapply H2; eauto|]. exact HR.
  - left. auto.
  - tauto.
Qed.

(* one accepted call of a tidy state: defined behaviour *)
Theorem cmd_tidy s env c : practical -> tidy s -> handles env -> cmd_apart P s env c ->
  match exec_cmd env c s with
  | Ok ((hs, os), s') => tidy s' /\ handles hs
  | ErrStop => True
  | Undef IntOverflow => True
  | _ => False
  end.
Proof.
  intros HP (g & R & HG) HH HO.
  destruct (cmd_sim_apart s g env c HP R HG HH HO) as [[_ ->]|(ks & os & g' & _ & G' & W)]; auto.
  specialize (W True (fun _ => I)).
  destruct (exec_cmd env c s) as [[[hs os'] s']| |[]|]; simpl in W; auto.
  destruct W as [W1 W2]. cbn [fst snd] in *. inversion W1; subst. split; [exists g'; auto|].
  apply handles_hd.
Qed.

Theorem client_tidy p : practical -> forall env s, tidy s -> handles env -> client_apart P p env s ->
  match run p env s with
  | Ok ((hs, os), s') => tidy s' /\ handles hs
  | ErrStop => True
  | Undef IntOverflow => True
  | _ => False
  end.
Proof.
  intros HP. induction p as [|c k IH]; intros env s HV HH HO; cbn [run client_apart] in *.
  - simpl. auto.
  - destruct HO as [H1 H2]. pose proof (cmd_tidy s env c HP HV HH H1) as HC.
    unfold mbind at 1. destruct (exec_cmd env c s) as [[[hs os] s1]| |[]|] eqn:E; cbn [bind]; auto.
    destruct HC as [V1 A1]. specialize (IH os (env ++ hs) s1 V1 (handles_app _ _ HH A1) (H2 _ _ _ eq_refl)).
    cbn [fst snd]. unfold mbind. destruct (run (k os) (env ++ hs) s1) as [[[hs2 os2] s2]| |[]|]; cbn [bind]; auto.
Qed.


Lemma tidy_init : tidy st_init.
Proof. exists g_init. split; [apply rel_init|apply neat_init]. Qed.
Lemma reach_tidy env s : practical -> reachable_apart P env s -> tidy s /\ handles env.
Proof.
  intros HP (p & os & HC & HX). pose proof (client_tidy p HP [] st_init tidy_init (Forall_nil _) HC) as H. rewrite HX in H. exact H.
Qed.
Lemma inside_step_apart s g g' inner env c ks os g2 : Rel s g' -> inside g g' inner -> handles env ->
  cmd_apart P s env c -> (c = CEnd -> inner <> []) ->
  (forall r d, c = CSet r d -> forall h, nth_error env r = Some h -> Z.of_nat (gsize g) + 1 <= h) ->
  gstep g' (nodes_of env) c = AOk (ks, os, g2) -> exists inner', inside g g2 inner'.
Proof.
  intros R I HH HO HE HS HX. destruct c; cbn [gstep astep] in HX.
  - destruct (aexec_op g' (nodes_of env) o) as [[k1 g1]| |] eqn:E; try discriminate. cbn in HX. inversion HX; subst.
    destruct HO as (_ & _ & HN & _). destruct (op_frame _ _ _ _ _ HN E) as [G _]. exists inner. eapply inside_grows; eauto.
  - destruct (areg g' (nodes_of env) r) as [k|] eqn:E; [|discriminate]. inversion HX; subst. exists inner.
    specialize (HS r d eq_refl _ (hd_areg _ _ _ _ HH E)). unfold hd in HS.
    constructor; cbn [set_gval set_gnodes g_arrs g_ch g_nest]; try apply I.
    rewrite set_gval_firstn by lia. apply I.
  - destruct (areg g' (nodes_of env) r) as [k|]; [|discriminate]. unfold agrad in HX.
    destruct (Nat.ltb _ _); [|discriminate]. destruct (asweep _ _ _) as [g3|] eqn:E; [|discriminate].
    inversion HX; subst. apply asweep_form in E. destruct E as [f ->]. exists inner. apply (inside_adj g g' inner f I).
  - destruct (areg g' (nodes_of env) r) as [k|]; [|discriminate]. unfold agrad_nested in HX.
    destruct (g_nest g') eqn:En; [discriminate|].
    destruct (Nat.ltb _ _); [|discriminate]. destruct (asweep _ _ _) as [g3|] eqn:E; [|discriminate].
    inversion HX; subst. apply asweep_form in E. destruct E as [f ->]. exists inner. apply (inside_adj g g' inner f I).
  - inversion HX; subst. exists inner. apply inside_adj; auto.
  - destruct (g_nest g'); inversion HX; subst. exists inner. apply inside_adj; auto.
  - unfold abegin in HX. destruct (Nat.ltb _ _); [|discriminate]. inversion HX; subst.
    exists (mkMark (gsize g') (length (g_arrs g')) (g_top g') :: inner).
    constructor; cbn [g_nodes g_arrs g_ch g_nest]; try apply I. rewrite (in_nest _ _ _ I). reflexivity.
  - destruct inner as [|m r]; [exfalso; apply HE; auto|]. rewrite (in_nest _ _ _ I) in HX. cbn [app] in HX.
    inversion HX; subst. exists r. apply inside_trunc; auto. apply (r_wf _ _ R).
  - destruct (areg g' (nodes_of env) r); inversion HX; subst. eauto.
  - destruct (areg g' (nodes_of env) r); inversion HX; subst. eauto.
  - destruct (areg g' (nodes_of env) a); [|discriminate]. destruct (areg g' (nodes_of env) b); inversion HX; subst. eauto.
  - destruct (areg g' (nodes_of env) a); inversion HX; subst. eauto.
  - destruct (areg g' (nodes_of env) b); inversion HX; subst. eauto.
Qed.

Lemma block_run_apart g p : practical -> forall env s g' inner r s',
  Rel s g' -> neat g' -> inside g g' inner -> handles env ->
  block_apart P (zlen (g_nest g) + 1) (Z.of_nat (gsize g) + 1) p env s ->
  run p env s = Ok (r, s') ->
  exists g2, Rel s' g2 /\ neat g2 /\ inside g g2 [].
Proof.
  intros HP. induction p as [|c k IH]; intros env s g' inner r s' R HG I HH HO HX.
  - cbn in HX. inversion HX; subst. cbn [block_apart] in HO. exists g'. split; auto. split; auto.
    rewrite (inside_lvl _ _ _ _ R I) in HO. destruct inner; auto. unfold zlen in HO. cbn [length] in HO. lia.
  - cbn [block_apart] in HO. destruct HO as (O1 & O2 & O3 & O4). cbn [run] in HX. unfold mbind at 1 in HX.
    destruct (exec_cmd env c s) as [[[hs os] s1]| | |] eqn:E; try discriminate. cbn [bind fst snd] in HX.
    destruct (cmd_sim_apart s g' env c HP R HG HH O1) as [[_ A]|(ks & os' & g1 & A & G1 & W)]; [congruence|].
    specialize (W True (fun _ => Logic.I)). rewrite E in W. cbn in W. destruct W as [W1 R1]. inversion W1; subst hs os'.
    destruct (inside_step_apart s g g' inner env c ks os g1 R I HH O1) as [inner' I1]; auto.
    { intros ->. specialize (O2 eq_refl). rewrite (inside_lvl _ _ _ _ R I) in O2. destruct inner; [|discriminate].
      unfold zlen in O2. cbn in O2. lia. }
    specialize (O4 _ _ _ eq_refl).
    unfold mbind in HX. destruct (run (k os) (env ++ map hd ks) s1) as [[r2 s2]| | |] eqn:E2; try discriminate.
    cbn in HX. inversion HX; subst.
    eapply IH; [exact R1|exact G1|exact I1|exact (handles_app _ _ HH (handles_hd ks))|exact O4|exact E2].
Qed.

Lemma block_ends_apart s p env r s3 : practical -> tidy s -> handles env -> block_call_apart P p env s ->
  block p env s = Ok (r, s3) ->
  exists g g3, Rel s g /\ neat g /\ Rel s3 g3 /\ neat g3 /\ g_nodes g3 = g_nodes g /\ g_arrs g3 = g_arrs g /\
    g_nest g3 = g_nest g /\ g_top g3 = g_top g /\ (forall j, (j < gsize g)%nat -> g_ch g3 j = g_ch g j).
Proof.
  intros HP (g & R & HG) HH (L10 & BO & FT) HX.
  assert (HL : (length (g_nest g) < 10)%nat) by (rewrite (r_lvl s g R) in L10; unfold zlen in L10; lia).
  unfold block in HX. 
  assert (EB : exists g1, abegin g = Some g1).
  { unfold abegin. replace (Nat.ltb (length (g_nest g)) 10) with true by lia. eauto. }
  destruct EB as [g1 EB]. destruct (begin_ok s g g1 R EB) as (s1 & E1 & R1).
  rewrite (mbind_ok _ _ _ _ _ E1) in HX. unfold mbind at 1 in HX.
  destruct (run p env s1) as [[r1 s2]| | |] eqn:E2; try discriminate. cbn [bind] in HX.
  pose proof (inside_begin _ _ EB) as I1.
  destruct (block_run_apart g p HP env s1 g1 [] r1 s2 R1 (neat_begin _ _ HG EB) I1 HH) as (g2 & R2 & G2 & I2); auto.
  { specialize (BO s1 E1). rewrite (r_lvl s1 g1 R1), (in_nest _ _ _ I1), (r_head s g R) in BO.
    unfold zlen in *. cbn [app length] in BO. replace (Z.of_nat (length (g_nest g)) + 1) with (Z.of_nat (S (length (g_nest g)))) by lia.
    exact BO. }
  pose proof (in_nest _ _ _ I2) as EN. cbn [app] in EN.
  destruct (end_fits s2 g2 _ _ R2 EN) as (s4 & E4 & R4).
  { rewrite <- (r_thead s2 g2 R2). apply (FT s1 r1 s2); auto. }
  rewrite (mbind_ok _ _ _ _ _ E4) in HX. cbn in HX. inversion HX; subst.
  exists g. eexists. split; [exact R|]. split; [exact HG|]. split; [exact R4|].
  split; [apply neat_trunc; auto; apply (r_wf _ _ R2)|].
  unfold atrunc. cbn [g_nodes g_arrs g_nest g_top g_ch mk_n mk_a mk_top].
  split; [apply I2|]. split; [apply I2|]. split; auto. split; auto. apply I2.
Qed.

Theorem block_trace_apart s p env r s3 : practical -> tidy s -> handles env -> block_call_apart P p env s ->
  block p env s = Ok (r, s3) ->
  tidy s3 /\ s_head s3 = s_head s /\ s_lvl s3 = s_lvl s /\ t_head (s_tape s3) = t_head (s_tape s) /\
  (forall h, alive s h -> same_val s s3 h /\ same_op s s3 h) /\
  (forall i, t_head (s_tape s3) <= i -> t_mem (s_tape s3) i = w0).
Proof.
  intros HP HV HH HB HX. destruct (block_ends_apart s p env r s3 HP HV HH HB HX)
    as (g & g3 & R & HG & R3 & G3 & EN & EA & ES & ET & EC).
  assert (SZ : gsize g3 = gsize g) by (unfold gsize; rewrite EN; auto).
  split; [exists g3; auto|].
  split; [rewrite (r_head s g R), (r_head s3 g3 R3), SZ; auto|].
  split; [rewrite (r_lvl s g R), (r_lvl s3 g3 R3), ES; auto|].
  split; [rewrite (r_thead s g R), (r_thead s3 g3 R3), ET; auto|].
  split; [|apply (r_twf s3 g3 R3)].
  intros h Hh. destruct (alive_node s g h R Hh) as (k & -> & Hk).
  assert (Hk3 : (k < gsize g3)%nat) by lia.
  split.
  - eapply node_same_val; eauto. unfold gval. rewrite EN. auto.
  - eapply node_same_op; eauto. unfold same_node. destruct (lt_nth_error _ _ Hk) as [nd E]. rewrite EN, E.
    repeat split; auto. destruct (n_body nd); cbn [zops].
    + apply map_ext. intros. unfold gloc. rewrite EN. auto.
    + unfold galoc. rewrite EA. auto.
Qed.

End Neat.

Section Twins.
Context {N : Num} {RL : RepLaws N} (P : Z -> bool) {C1 C2 : Cfg N}.
Local Notation neat := (neat P).
Lemma leaf_effect_neat {C : Cfg N} g k nd : (exists j, @junk N C = Some j) -> neat g ->
  nth_error (g_nodes g) k = Some nd -> n_body nd = BRec [] [] -> effect g k = Some [].
Proof.
  intros [j J] HG E B. unfold effect. rewrite E, B. cbn [map].
  pose proof (nt_fit P g HG k (nth_error_lt _ _ _ E)) as HF. unfold fits in HF. rewrite E, B in HF. cbn [length] in HF.
  unfold contrib, leaf_safe. rewrite J. cbn [is_nil andb]. unfold cshape in HF. cbn [Nat.eqb andb] in HF.
  destruct (g_ch g k); cbn in *; auto; discriminate.
Qed.

Lemma eqv_effect_neat g g' k : (exists j, @junk N C1 = Some j) -> (exists j, @junk N C2 = Some j) ->
  neat g -> neat g' -> eqv g g' -> (k < gsize g)%nat ->
  @effect N C2 g' k = @effect N C1 g k.
Proof.
  intros J1 J2 HG HG' E Hk. destruct (lt_nth_error _ _ Hk) as [nd En].
  assert (En' : nth_error (g_nodes g') k = Some nd) by (rewrite (e_nodes _ _ E); auto).
  destruct (e_ch _ _ E _ _ En) as [Ec|Eb].
  - unfold effect. rewrite En, En', Ec, (e_adj _ _ E) by auto. rewrite (e_arrs _ _ E).
    destruct (n_body nd) as [ops ds|i j ia ib].
    + rewrite (eqv_vals _ _ _ E). f_equal. symmetry. apply (@contrib_cfg N C1 C2); auto.
    + destruct (g_ch g k); auto; destruct (nth_error (g_arrs g) ia) as [[? ? [?|?] ?]|]; auto;
      destruct (nth_error (g_arrs g) ib) as [[? ? [?|?] ?]|]; auto.
      destruct (_ && _ && _); auto. f_equal. f_equal; f_equal; apply map_ext; intros; rewrite (eqv_val _ _ _ E); auto.
  - rewrite (leaf_effect_neat g k nd J1 HG En Eb), (leaf_effect_neat g' k nd J2 HG' En' Eb). auto.
Qed.

Lemma eqv_sweep_neat n : forall lo g g', (exists j, @junk N C1 = Some j) -> (exists j, @junk N C2 = Some j) ->
  gwf g -> neat g -> neat g' -> eqv g g' -> (lo + n <= gsize g)%nat ->
  match @asweep N C1 lo n g, @asweep N C2 lo n g' with
  | Some g1, Some g1' => eqv g1 g1'
  | None, None => True
  | _, _ => False
  end.
Proof.
  induction n as [|n IH]; intros lo g g' J1 J2 W HG HG' E Hn; cbn [asweep]; auto.
  rewrite (eqv_effect_neat g g' (lo + n) J1 J2 HG HG' E) by lia.
  destruct (effect g (lo + n)) as [l|] eqn:EL; auto.
  apply IH; auto.
  - apply gwf_set_gadj; auto.
  - apply neat_set_gadj; auto.
  - apply neat_set_gadj; auto.
  - apply eqv_set_gadj; auto. intros j Hj. apply (apply_effect_ext l _ _ (gsize g)); auto.
    + intros i Hi. apply (e_adj _ _ E); auto.
    + eapply Forall_impl; [|apply (effect_lt g (lo + n) l W EL)]. cbv beta. intros; lia.
  - cbn [set_gadj gsize g_nodes]. unfold gsize in *. cbn [set_gadj g_nodes]. lia.
Qed.

Lemma eqv_step_neat g g' env c : (exists j, @junk N C1 = Some j) -> (exists j, @junk N C2 = Some j) ->
  gwf g -> neat g -> neat g' -> eqv g g' ->
  ares_eqv (@gstep N C1 g env c) (@gstep N C2 g' env c).
Proof.
  intros J1 J2 W HG HG' E.
  assert (SEED : forall k, eqv (a_seed g k) (a_seed g' k)).
  { intros k. apply eqv_set_gadj; auto. apply nupd_ext. intros; apply (e_adj _ _ E); auto. }
  destruct c; cbn [gstep astep]; rewrite ?(eqv_areg _ _ _ _ E).
  - pose proof (eqv_exec g g' env o E) as H. unfold ares_eqv in *.
    destruct (aexec_op g env o) as [[? ?]| |], (aexec_op g' env o) as [[? ?]| |]; cbn [abind fst snd]; auto.
    destruct H as [-> H]. auto.
  - destruct (areg g env r) as [k|]; cbn [ares_eqv]; auto. split; auto.
    assert (EN : g_nodes (set_gval g' k d) = g_nodes (set_gval g k d)).
    { unfold set_gval, set_gnodes. cbn [g_nodes]. unfold gsize. rewrite (e_nodes _ _ E). auto. }
    constructor; [exact EN|apply E|apply E|apply E| |].
    + intros j Hj. rewrite set_gval_size in Hj. apply (e_adj _ _ E); auto.
    + intros j nd Hn. destruct (set_gval_inv _ _ _ _ _ Hn) as (nd0 & E0 & B & _ & _). rewrite B.
      apply (e_ch _ _ E _ _ E0).
  - destruct (areg g env r) as [k|] eqn:EA; cbn [ares_eqv]; auto. unfold agrad. rewrite (eqv_size _ _ E).
    destruct (Nat.ltb k (gsize g)); cbn [aquiet ares_eqv]; auto.
    pose proof (eqv_sweep_neat (gsize g) 0 (a_seed g k) (a_seed g' k) J1 J2 (gwf_set_gadj _ _ W)
      (neat_set_gadj P _ _ HG) (neat_set_gadj P _ _ HG') (SEED k) (le_n _)) as H.
    destruct (@asweep N C1 _ _ _), (@asweep N C2 _ _ _); cbn [aquiet ares_eqv]; auto.
  - destruct (areg g env r) as [k|] eqn:EA; cbn [ares_eqv]; auto. unfold agrad_nested. rewrite (eqv_size _ _ E), (e_nest _ _ E).
    destruct (g_nest g) as [|mk rst] eqn:EN; cbn [aquiet ares_eqv]; auto.
    destruct (Nat.ltb k (gsize g)); cbn [aquiet ares_eqv]; auto.
    pose proof (w_nest g W) as WN. rewrite EN in WN. cbn [marks_ok] in WN.
    pose proof (eqv_sweep_neat (gsize g - mk_n mk) (mk_n mk) (a_seed g k) (a_seed g' k) J1 J2 (gwf_set_gadj _ _ W)
      (neat_set_gadj P _ _ HG) (neat_set_gadj P _ _ HG') (SEED k)) as H.
    change (gsize (a_seed g k)) with (gsize g) in H. specialize (H ltac:(lia)).
    destruct (@asweep N C1 _ _ _), (@asweep N C2 _ _ _); cbn [aquiet ares_eqv]; auto.
  - split; auto. apply eqv_set_gadj; auto. intros j Hj. rewrite (eqv_size _ _ E).
    destruct (_ && _); auto. apply (e_adj _ _ E); auto.
  - rewrite (e_nest _ _ E). destruct (g_nest g); cbn [ares_eqv]; auto. split; auto.
    apply eqv_set_gadj; auto. intros j Hj. rewrite (eqv_size _ _ E).
    destruct (_ && _); auto. apply (e_adj _ _ E); auto.
  - unfold abegin. rewrite (e_nest _ _ E), (eqv_size _ _ E), (e_arrs _ _ E), (e_top _ _ E).
    destruct (Nat.ltb _ _); cbn [aquiet ares_eqv]; auto. split; auto.
    constructor; cbn [g_nodes g_arrs g_nest g_top g_adj g_ch]; auto; try apply E.
  - rewrite (e_nest _ _ E). destruct (g_nest g) as [|mk rst]; cbn [ares_eqv]; auto. split; auto.
    constructor; unfold atrunc; cbn [g_nodes g_arrs g_nest g_top g_adj g_ch]; auto.
    + rewrite (e_nodes _ _ E). auto.
    + rewrite (e_arrs _ _ E). auto.
    + intros j Hj. apply (e_adj _ _ E). unfold gsize in *. cbn [g_nodes] in Hj. rewrite firstn_length in Hj. lia.
    + intros j nd Hn. apply (e_ch _ _ E j nd).
      rewrite <- (firstn_skipn (mk_n mk) (g_nodes g)). rewrite nth_error_app1; auto. eapply nth_error_lt; eauto.
  - destruct (areg g env r) as [k|] eqn:EA; cbn [ares_eqv]; auto. rewrite (eqv_val _ _ _ E). auto.
  - destruct (areg g env r) as [k|] eqn:EA; cbn [ares_eqv]; auto. rewrite (e_adj _ _ E); auto.
    eapply areg_lt; eauto.
  - destruct (areg g env a); cbn [ares_eqv]; auto. destruct (areg g env b); cbn [ares_eqv]; auto.
    rewrite !(eqv_val _ _ _ E). auto.
  - destruct (areg g env a); cbn [ares_eqv]; auto. rewrite (eqv_val _ _ _ E). auto.
  - destruct (areg g env b); cbn [ares_eqv]; auto. rewrite (eqv_val _ _ _ E). auto.
Qed.

Definition atwins (s1 s2 : st) : Prop :=
  exists g1 g2, @Rel N C1 s1 g1 /\ @Rel N C2 s2 g2 /\ neat g1 /\ neat g2 /\ eqv g1 g2.

Lemma atwin_cmd s1 s2 env c : @practical N C1 -> @practical N C2 -> atwins s1 s2 -> handles env ->
  cmd_apart P s1 env c -> cmd_apart P s2 env c ->
  agree atwins (@exec_cmd N C1 env c s1) (@exec_cmd N C2 env c s2) /\
  forall p s', @exec_cmd N C1 env c s1 = Ok (p, s') -> handles (fst p).
Proof.
  intros P1 P2 (g1 & g2 & R1 & R2 & G1 & G2 & E) HH O1 O2.
  pose proof (eqv_step_neat g1 g2 (nodes_of env) c (proj2 P1) (proj2 P2) (r_wf _ _ R1) G1 G2 E) as HS.
  destruct (@cmd_sim_apart N RL C1 P s1 g1 env c P1 R1 G1 HH O1) as [[A1 B1]|(ks & os & g1' & A1 & B1 & W1)];
  destruct (@cmd_sim_apart N RL C2 P s2 g2 env c P2 R2 G2 HH O2) as [[A2 B2]|(ks2 & os2 & g2' & A2 & B2 & W2)];
  rewrite A1, A2 in HS; cbn [ares_eqv] in HS; try tauto.
  - rewrite B1, B2. split; [exact I|discriminate].
  - destruct HS as [HS1 HS2]. inversion HS1; subst ks2 os2.
    specialize (W1 True (fun _ => I)). specialize (W2 True (fun _ => I)).
    destruct (@exec_cmd N C1 env c s1) as [[p1 s1']| |[]|]; simpl in W1; try tauto;
    destruct (@exec_cmd N C2 env c s2) as [[p2 s2']| |[]|]; simpl in W2; try tauto;
    cbn [agree]; (split; [|try discriminate]); auto.
    + destruct W1 as [W1 RR1], W2 as [W2 RR2]. cbn [fst snd] in *. subst. split; auto.
      exists g1', g2'. auto.
    + intros p s' HE. inversion HE; subst. destruct W1 as [W1 _]. cbn [fst] in W1. subst p. apply handles_hd.
    + intros p s' HE. inversion HE; subst. destruct W1 as [W1 _]. cbn [fst] in W1. subst p. apply handles_hd.
Qed.

Theorem atwin_run p : @practical N C1 -> @practical N C2 -> forall env s1 s2, atwins s1 s2 -> handles env ->
  @client_apart N C1 P p env s1 -> @client_apart N C2 P p env s2 ->
  agree atwins (@run N C1 p env s1) (@run N C2 p env s2).
Proof.
  intros P1 P2. induction p as [|c k IH]; intros env s1 s2 T HH O1 O2; cbn [run client_apart] in *.
  - cbn [mret agree]. auto.
  - destruct O1 as [O1 K1], O2 as [O2 K2]. destruct (atwin_cmd s1 s2 env c P1 P2 T HH O1 O2) as [A HD].
    unfold mbind at 1 3. unfold agree in A.
    destruct (@exec_cmd N C1 env c s1) as [[[h1 o1] s1']| |[]|] eqn:E1; try tauto;
    destruct (@exec_cmd N C2 env c s2) as [[[h2 o2] s2']| |[]|] eqn:E2; try tauto; cbn [bind agree]; auto.
    + destruct A as [A1 A2]. inversion A1; subst h2 o2. cbn [fst snd].
      specialize (HD _ _ eq_refl). cbn [fst] in HD.
      specialize (IH o1 (env ++ h1) s1' s2' A2 (handles_app _ _ HH HD) (K1 _ _ _ eq_refl) (K2 _ _ _ eq_refl)).
      unfold mbind. unfold agree in *.
      destruct (@run N C1 (k o1) (env ++ h1) s1') as [[x1 t1]| |[]|]; try tauto;
      destruct (@run N C2 (k o1) (env ++ h1) s2') as [[x2 t2]| |[]|]; try tauto; cbn [bind mret agree]; auto.
      destruct IH as [-> IH]. auto.
    + destruct (mbind _ _ s1') as [[? ?]| |[]|]; auto.
Qed.

Theorem atwins_look s1 s2 : atwins s1 s2 ->
  s_head s1 = s_head s2 /\ s_lvl s1 = s_lvl s2 /\ t_head (s_tape s1) = t_head (s_tape s2) /\
  forall h, alive s1 h -> same_val s1 s2 h /\ same_adj s1 s2 h /\
    var_operands s2 h = var_operands s1 h /\ var_data s2 h = var_data s1 h.
Proof.
  intros (g1 & g2 & R1 & R2 & G1 & G2 & E).
  split; [rewrite (r_head s1 _ R1), (r_head s2 _ R2), (eqv_size _ _ E); auto|].
  split; [rewrite (r_lvl s1 _ R1), (r_lvl s2 _ R2), (e_nest _ _ E); auto|].
  split; [rewrite (r_thead s1 _ R1), (r_thead s2 _ R2), (e_top _ _ E); auto|].
  intros h Hh. destruct (alive_node s1 g1 h R1 Hh) as (k & -> & Hk).
  assert (Hk2 : (k < gsize g2)%nat) by (rewrite (eqv_size _ _ E); auto).
  unfold same_val, same_adj. rewrite (rel_var_val s1 g1 R1), (rel_var_val s2 g2 R2) by auto.
  rewrite (rel_var_adj s1 g1 R1), (rel_var_adj s2 g2 R2) by auto.
  rewrite (eqv_val _ _ _ E), (e_adj _ _ E) by auto. split; auto. split; auto.
  destruct (lt_nth_error _ _ Hk) as [nd En].
  assert (En2 : nth_error (g_nodes g2) k = Some nd) by (rewrite (e_nodes _ _ E); auto).
  rewrite (rel_var_operands s1 g1 k nd R1 En), (rel_var_operands s2 g2 k nd R2 En2).
  rewrite (rel_var_data s1 g1 k nd R1 En), (rel_var_data s2 g2 k nd R2 En2). split; auto. f_equal.
  destruct (n_body nd); cbn [zops].
  - apply map_ext. intros. unfold gloc. rewrite (e_nodes _ _ E). auto.
  - unfold galoc. rewrite (e_arrs _ _ E). auto.
Qed.


Lemma atwins_init : atwins st_init st_init.
Proof.
  exists g_init, g_init. split; [apply rel_init|]. split; [apply rel_init|].
  split; [apply neat_init|]. split; [apply neat_init|]. apply eqv_refl.
Qed.
Lemma agree_apart {A} (r1 r2 : res (A * st)) :
  agree atwins r1 r2 -> same_outcome r1 r2.
Proof.
  unfold agree, same_outcome. destruct r1 as [[x1 s1]| |[]|], r2 as [[x2 s2]| |[]|]; auto.
  intros [-> T]. split; auto. destruct (atwins_look s1 s2 T) as (L1 & L2 & L3 & L4).
  split; auto. split; auto. intros h Hh. destruct (L4 h Hh) as (Q1 & Q2 & Q3 & Q4). auto.
Qed.


Theorem apart_start p : @practical N C1 -> @practical N C2 ->
  @client_apart N C1 P p [] st_init -> @client_apart N C2 P p [] st_init ->
  same_outcome (@run N C1 p [] st_init) (@run N C2 p [] st_init).
Proof. intros P1 P2 K1 K2. apply agree_apart. apply (atwin_run p P1 P2 [] st_init st_init atwins_init (Forall_nil _) K1 K2). Qed.
End Twins.

Section Claims.
Context {N : Num} {RL : RepLaws N} {C : Cfg N} (P : Z -> bool).
Theorem block_atwin s p env r s3 : practical -> tidy P s -> handles env -> block_call_apart P p env s ->
  block p env s = Ok (r, s3) -> (forall h, alive s h -> same_adj s s3 h) ->
  @atwins N P C C s s3.
Proof.
  intros HP HV HH HB HX HA. destruct (block_ends_apart P s p env r s3 HP HV HH HB HX)
    as (g & g3 & R & HG & R3 & G3 & EN & EA & ES & ET & EC).
  exists g, g3. repeat (split; [assumption|]).
  constructor; auto.
  - intros j Hj. specialize (HA (hd j) (node_alive s g j R Hj)). unfold same_adj in HA.
    rewrite (rel_var_adj s g R j Hj), (rel_var_adj s3 g3 R3) in HA; [congruence|]. unfold gsize in *. rewrite EN. auto.
  - intros j nd Hn. left. apply EC. eapply nth_error_lt; eauto.
Qed.


Theorem apart_defined p : practical -> client_apart P p [] st_init ->
  match run p [] st_init with
  | Ok _ => True | ErrStop => True | Undef IntOverflow => True | _ => False
  end.
Proof.
  intros HP HC. pose proof (client_tidy P p HP [] st_init (tidy_init P) (Forall_nil _) HC) as H.
  destruct (run p [] st_init) as [[[e o] s]| |[]|]; auto.
Qed.
Theorem apart_block env s p r s3 : practical -> reachable_apart P env s -> block_call_apart P p env s ->
  block p env s = Ok (r, s3) ->
  s_head s3 = s_head s /\ s_lvl s3 = s_lvl s /\ t_head (s_tape s3) = t_head (s_tape s) /\
  (forall h, alive s h -> same_val s s3 h /\ same_op s s3 h) /\
  (forall i, t_head (s_tape s3) <= i -> t_mem (s_tape s3) i = w0).
Proof.
  intros HP HR HB HX. destruct (reach_tidy P env s HP HR) as [HV HH].
  apply (block_trace_apart P s p env r s3 HP HV HH HB HX).
Qed.
Theorem apart_after env s p r s3 q : practical -> reachable_apart P env s -> block_call_apart P p env s ->
  block p env s = Ok (r, s3) -> (forall h, alive s h -> same_adj s s3 h) ->
  client_apart P q env s -> client_apart P q env s3 ->
  same_outcome (run q env s) (run q env s3).
Proof.
  intros HP HR HB HX HA K1 K2. destruct (reach_tidy P env s HP HR) as [HV HH]. apply (agree_apart P (C1 := C) (C2 := C)).
  apply (atwin_run P q HP HP env s s3 (block_atwin s p env r s3 HP HV HH HB HX HA) HH K1 K2).
Qed.
(* the calls of Valid.v are among those of this file, with every slot marked *)
Lemma cmd_all s env c : cmd_ok s env c -> cmd_apart (fun _ => true) s env c.
Proof. intros H. destruct c; try exact H. destruct H as (H1 & H2 & H3 & H4). split; [exact H1|]. split; [exact H2|]. split; [exact H3|]. split; auto. Qed.
Lemma client_all p : forall env s, client_ok p env s -> client_apart (fun _ => true) p env s.
Proof. induction p as [|c k IH]; intros env s; cbn; auto. intros [H K]. split; [apply cmd_all; exact H|]. intros hs os s' E. apply IH. eauto. Qed.
End Claims.

Section Leaf.
Context {N : Num} {RL : RepLaws N} {C : Cfg N} (P : Z -> bool).
Theorem apart_leaf env s h : practical -> reachable_apart P env s -> alive s h ->
  var_operands s h = Ok [] -> var_data s h = Ok [] ->
  exists s', chain_at s h = Ok s' /\ s_head s' = s_head s /\
    forall x, alive s x -> same_val s s' x /\ same_adj s s' x /\ same_op s s' x.
Proof.
  intros HP HR Hh HO HD. destruct (reach_tidy P env s HP HR) as [(g & R & HG) _].
  destruct (alive_node s g h R Hh) as (k & -> & Hk). destruct (lt_nth_error _ _ Hk) as [nd E].
  rewrite (rel_var_operands s g k nd R E) in HO. rewrite (rel_var_data s g k nd R E) in HD.
  assert (B : n_body nd = BRec [] []).
  { destruct (n_body nd) as [ops ds|i j ia ib]; cbn [zops bdata] in HO, HD; [|discriminate HO].
    destruct ops; [|discriminate HO]. injection HD as ->. reflexivity. }
  pose proof (leaf_effect_neat P g k nd (proj2 HP) HG E B) as EF.
  destruct (rel_chain_at s g k [] R Hk EF) as (s' & E1 & R1). exists s'. split; [exact E1|].
  split; [rewrite (r_head _ _ R1), (r_head _ _ R); reflexivity|].
  intros x Hx. destruct (alive_node s g x R Hx) as (j & -> & Hj). split; [|split].
  - eapply node_same_val; eauto.
  - unfold same_adj. rewrite (rel_var_adj s g R j Hj), (rel_var_adj s' _ R1 j Hj). reflexivity.
  - eapply node_same_op; eauto. unfold same_node. cbn [set_gadj g_nodes g_ch].
    destruct (nth_error (g_nodes g) j) as [nd'|] eqn:En; [|apply nth_error_None in En; unfold gsize in Hj; lia].
    repeat split; auto.
Qed.
End Leaf.

(* ---- decision procedures ---- *)
Section Decide.
Context {N : Num} {C : Cfg N} (P : Z -> bool).
Definition leafb (s : st) (env : list Z) (o : op) : bool :=
  match o with
  | OVar _ | OVar0 => true
  | OUn UAbs r => match nth_error env r with Some h => match var_val s h with Ok x => feq x f0 | _ => false end | None => false end
  | _ => false
  end.
Definition op_apartb (s : st) (env : list Z) (o : op) : bool :=
  forallb (has_regb s env) (op_regs o) && op_shapeb o && negb (neutral o) &&
  (negb (leafb s env o) || P (s_head s)) &&
  (negb (is_matmul o) || (s_lvl s =? 0) || forallb (fun i => negb (P (s_head s + Z.of_nat i))) (seq 0 (Z.to_nat (entries o)))).
Definition cmd_apartb (s : st) (env : list Z) (c : cmd) : bool :=
  match c with COp o => op_apartb s env o | _ => cmd_okb s env c end.
Fixpoint script_apartb (l : list cmd) (env : list Z) (s : st) : bool :=
  match l with
  | [] => true
  | c :: t => cmd_apartb s env c &&
      match exec_cmd env c s with
      | Ok ((hs, _), s') => script_apartb t (env ++ hs) s'
      | _ => true
      end
  end.
Fixpoint body_apartb (l outer : Z) (p : list cmd) (env : list Z) (s : st) : bool :=
  match p with
  | [] => s_lvl s =? l
  | c :: t => cmd_apartb s env c &&
      match c with
      | CEnd => l <? s_lvl s
      | CSet r _ => match nth_error env r with Some h => outer <=? h | None => true end
      | _ => true
      end &&
      match exec_cmd env c s with
      | Ok ((hs, _), s') => body_apartb l outer t (env ++ hs) s'
      | _ => true
      end
  end.
Definition block_apartb (p : list cmd) (env : list Z) (s : st) : bool :=
  (s_lvl s <? 10) &&
  match begin_nested s with
  | Ok (_, s1) => body_apartb (s_lvl s1) (s_head s) p env s1 &&
      match run (script p) env s1 with
      | Ok (_, s2) => t_head (s_tape s2) <=? t_size (s_tape s2)
      | _ => true
      end
  | _ => true
  end.
Lemma op_apartb_ok s env o : part_ok o -> op_apartb s env o = true -> op_apart P s env o.
Proof.
  unfold op_apartb, op_apart. intros HP H. rewrite !andb_true_iff, negb_true_iff in H.
  destruct H as [[[[H1 H2] H3] H4] H5]. split; [apply has_regsb_ok; auto|].
  split; [apply op_shapeb_ok; auto|]. split; [auto|]. split.
  - intros HL. destruct (leafb s env o) eqn:E; [exact H4|]. exfalso.
    destruct o; cbn in HL, E; try discriminate; try contradiction. destruct u; try contradiction.
    destruct HL as (h & x & E1 & E2 & E3). rewrite E1, E2, E3 in E. discriminate.
  - intros E. rewrite E in H5. cbn [negb orb] in H5. apply orb_true_iff in H5. destruct H5 as [H5|H5]; [left; lia|right].
    intros i Hi. rewrite forallb_forall in H5. specialize (H5 (Z.to_nat i)). rewrite Z2Nat.id in H5 by lia.
    apply negb_true_iff, H5. apply in_seq. lia.
Qed.
Lemma cmd_apartb_ok s env c : cpart_ok c -> cmd_apartb s env c = true -> cmd_apart P s env c.
Proof. intros HP H. destruct c; try exact (cmd_okb_ok s env _ HP H). exact (op_apartb_ok s env o HP H). Qed.
Lemma script_apartb_ok l : Forall cpart_ok l -> forall env s, script_apartb l env s = true -> client_apart P (script l) env s.
Proof.
  induction 1 as [|c l Hc Hl IH]; intros env s; cbn [script_apartb script client_apart]; auto.
  rewrite andb_true_iff. intros [H1 H2]. split; [apply cmd_apartb_ok; auto|].
  intros hs os s' E. rewrite E in H2. apply IH. exact H2.
Qed.
Lemma body_apartb_ok l outer p : Forall cpart_ok p -> forall env s, body_apartb l outer p env s = true -> block_apart P l outer (script p) env s.
Proof.
  induction 1 as [|c p Hc Hp IH]; intros env s; cbn [body_apartb script block_apart].
  - lia.
  - rewrite !andb_true_iff. intros [[H1 H2] H3]. split; [apply cmd_apartb_ok; auto|].
    split; [intros ->; lia|]. split.
    + intros r d -> h E. rewrite E in H2. lia.
    + intros hs os s' E. rewrite E in H3. apply IH. exact H3.
Qed.
Lemma block_apartb_ok p env s : Forall cpart_ok p -> block_apartb p env s = true -> block_call_apart P (script p) env s.
Proof.
  intros HP. unfold block_apartb, block_call_apart. rewrite andb_true_iff. intros [H1 H2].
  split; [lia|]. split.
  - intros s1 E. rewrite E in H2. rewrite andb_true_iff in H2. apply body_apartb_ok; tauto.
  - intros s1 r s2 E1 E2. rewrite E1, andb_true_iff in H2. rewrite E2 in H2. lia.
Qed.
Lemma script_reach_apart l : Forall cpart_ok l -> script_apartb l [] st_init = true ->
  match run (script l) [] st_init with Ok _ => True | _ => False end -> reachable_apart P (env_of l) (state_of l).
Proof.
  intros HP H1 H2. exists (script l), (obs_of l). split; [apply script_apartb_ok; auto|]. unfold env_of, obs_of, state_of.
  destruct (run (script l) [] st_init) as [[[env os] s]| | |]; try contradiction. reflexivity.
Qed.
End Decide.
