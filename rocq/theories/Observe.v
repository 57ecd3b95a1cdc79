(* What a caller can see of a variable, and what each call leaves unchanged. *)
From Verif Require Import TapeFacts.
From Coq Require Import ZifyBool ZifyNat.
From Verif Require Export Valid.

Section Vocab2.
Context {N : Num} {C : Cfg N}.

(* recorded operands (tape positions) and data of a variable *)
Definition var_operands (s : st) (h : Z) : res (list Z) :=
  v <- vget s h ;; operand_index (s_tape s) (v_i v).
Definition var_data (s : st) (h : Z) : res (list F) :=
  v <- vget s h ;; data_operand (s_tape s) (v_i v).

Definition same_val (s s' : st) (h : Z) : Prop := var_val s' h = var_val s h.
Definition same_adj (s s' : st) (h : Z) : Prop := var_adj s' h = var_adj s h.
(* the variable's slot (tape position, derivative rule), operands and data *)
Definition same_op (s s' : st) (h : Z) : Prop :=
  vget s' h = vget s h /\ var_operands s' h = var_operands s h /\ var_data s' h = var_data s h.

(* the calls that may hand back one of their operands *)
Definition may_alias (o : op) : bool :=
  match o with
  | OUn UPos _ | OUn UAbs _ | OUn UAcosh _ | OUn UAtanh _ | OVD BPow _ _ => true
  | _ => false
  end.

(* words an operation needs on the tape *)
Definition op_words (o : op) : Z :=
  match o with
  | OVar _ | OVar0 => 6
  | OUn _ _ => 7
  | OVV _ _ _ => 8
  | OVD _ _ _ | ODV _ _ _ => 9
  | OSum l | ONorm2 l | OLse l => 6 + zlen l
  | ODotVV l1 l2 => 6 + zlen l1 + zlen l2
  | ODotVD l d => 6 + zlen l + 2 * zlen d
  | ODotDV d l => 6 + zlen l + 2 * zlen d
  | OMatVV m k n a b => 4 + zlen a + zlen b + 10 * Z.of_nat (m * n)
  | OMatVD m k n a b => 4 + zlen a + 2 * zlen b + 10 * Z.of_nat (m * n)
  | OMatDV m k n a b => 4 + 2 * zlen a + zlen b + 10 * Z.of_nat (m * n)
  | OPart _ _ l => 6 + 3 * zlen l
  end.

(* below 2^30 words nothing overflows *)
Definition roomy (s : st) (words : Z) : Prop :=
  t_size (s_tape s) < 1073741824 /\ t_head (s_tape s) + words <= 1073741824.

End Vocab2.

Section Observe.
Context {N : Num} {RL : RepLaws N} {C : Cfg N}.

Lemma alive_node s g h : Rel s g -> alive s h -> exists k, h = hd k /\ (k < gsize g)%nat.
Proof.
  intros R [H1 H2]. rewrite (r_head s g R) in H2. exists (Z.to_nat (h - 1)). unfold hd. lia.
Qed.

Lemma node_alive s g k : Rel s g -> (k < gsize g)%nat -> alive s (hd k).
Proof. intros R H. unfold alive, hd. rewrite (r_head s g R). lia. Qed.

Lemma rel_var_operands s g k nd : Rel s g -> nth_error (g_nodes g) k = Some nd ->
  var_operands s (hd k) = Ok (zops g (n_body nd)).
Proof.
  intros R E. unfold var_operands. rewrite (rel_vget s g R) by (eapply nth_error_lt; eauto).
  cbn [bind v_i]. rewrite (gloc_eq g k nd E). eapply rec_operand_index. apply (rel_rec s g R _ _ E).
Qed.

Lemma rel_var_data s g k nd : Rel s g -> nth_error (g_nodes g) k = Some nd ->
  var_data s (hd k) = Ok (bdata (n_body nd)).
Proof.
  intros R E. unfold var_data. rewrite (rel_vget s g R) by (eapply nth_error_lt; eauto).
  cbn [bind v_i]. rewrite (gloc_eq g k nd E). eapply rec_data_operand. apply (rel_rec s g R _ _ E).
Qed.

(* same node, different states *)
Definition same_node (g g' : graph) (k : nat) : Prop :=
  match nth_error (g_nodes g) k, nth_error (g_nodes g') k with
  | Some nd, Some nd' => n_body nd' = n_body nd /\ n_loc nd' = n_loc nd /\
      zops g' (n_body nd) = zops g (n_body nd) /\ g_ch g' k = g_ch g k
  | _, _ => False
  end.

Lemma node_same_op s s' g g' k : Rel s g -> Rel s' g' -> same_node g g' k -> same_op s s' (hd k).
Proof.
  intros R R' H. unfold same_node in H. destruct (nth_error (g_nodes g) k) as [nd|] eqn:E; [|tauto].
  destruct (nth_error (g_nodes g') k) as [nd'|] eqn:E'; [|tauto]. destruct H as (H1 & H2 & H3 & H4).
  unfold same_op. rewrite (rel_vget s g R), (rel_vget s' g' R') by (eapply nth_error_lt; eauto).
  rewrite (rel_var_operands s g k nd R E), (rel_var_operands s' g' k nd' R' E').
  rewrite (rel_var_data s g k nd R E), (rel_var_data s' g' k nd' R' E').
  rewrite H1, H3, H4, (gloc_eq g k nd E), (gloc_eq g' k nd' E'), H2. auto.
Qed.

Lemma node_same_val s s' g g' k : Rel s g -> Rel s' g' -> (k < gsize g)%nat -> (k < gsize g')%nat ->
  gval g' k = gval g k -> same_val s s' (hd k).
Proof.
  intros R R' H H' E. unfold same_val. rewrite (rel_var_val s g R), (rel_var_val s' g' R') by auto. congruence.
Qed.

Lemma node_same_adj s s' g g' k : Rel s g -> Rel s' g' -> (k < gsize g)%nat -> (k < gsize g')%nat ->
  g_adj g' k = g_adj g k -> same_adj s s' (hd k).
Proof.
  intros R R' H H' E. unfold same_adj. rewrite (rel_var_adj s g R), (rel_var_adj s' g' R') by auto. congruence.
Qed.

(* ---- frame of an operation ---- *)

Record grows (g g' : graph) : Prop := {
  gr_nodes : exists l, g_nodes g' = g_nodes g ++ l;
  gr_arrs : exists l, g_arrs g' = g_arrs g ++ l;
  gr_adj : forall k, (k < gsize g)%nat -> g_adj g' k = g_adj g k;
  gr_new : forall k, (gsize g <= k < gsize g')%nat -> g_adj g' k = f0;
  gr_ch : forall k, (k < gsize g)%nat -> g_ch g' k = g_ch g k;
  gr_nest : g_nest g' = g_nest g
}.

Lemma grows_refl g : grows g g.
Proof.
  constructor; auto; try (exists []; rewrite app_nil_r; auto). intros k Hk. lia.
Qed.

Lemma grows_size g g' : grows g g' -> (gsize g <= gsize g')%nat.
Proof. intros [[l E] _ _ _ _ _]. unfold gsize. rewrite E, app_length. lia. Qed.

Lemma grows_trans g1 g2 g3 : grows g1 g2 -> grows g2 g3 -> grows g1 g3.
Proof.
  intros A B. pose proof (grows_size _ _ A) as SA. pose proof (grows_size _ _ B) as SB.
  destruct A as [[l1 A1] [a1 A2] A3 A4 A5 A6], B as [[l2 B1] [a2 B2] B3 B4 B5 B6].
  constructor.
  - exists (l1 ++ l2). rewrite B1, A1, app_assoc. reflexivity.
  - exists (a1 ++ a2). rewrite B2, A2, app_assoc. reflexivity.
  - intros k Hk. rewrite B3, A3; auto. lia.
  - intros k Hk. destruct (Nat.lt_ge_cases k (gsize g2)).
    + rewrite B3 by auto. apply A4. lia.
    + apply B4. lia.
  - intros k Hk. rewrite B5, A5; auto. lia.
  - congruence.
Qed.

Lemma grows_new g v b ch : grows g (a_new g v b ch).
Proof.
  constructor; simpl.
  - eauto.
  - exists []. rewrite app_nil_r. reflexivity.
  - intros k Hk. unfold nupd. replace (Nat.eqb k (gsize g)) with false by lia. reflexivity.
  - unfold gsize at 2. simpl. rewrite app_length. simpl. fold (gsize g). intros k Hk.
    unfold nupd. replace (Nat.eqb k (gsize g)) with true by lia. reflexivity.
  - intros k Hk. destruct ch; auto. unfold nupd. replace (Nat.eqb k (gsize g)) with false by lia. reflexivity.
  - reflexivity.
Qed.

Lemma new_size g v b ch : gsize (a_new g v b ch) = S (gsize g).
Proof. unfold gsize; simpl. rewrite app_length. simpl. lia. Qed.

Lemma grows_arr g m n c : grows g (a_arr g m n c).
Proof.
  constructor; simpl; auto.
  - exists []. rewrite app_nil_r. reflexivity.
  - eauto.
  - unfold gsize; simpl. intros k Hk. lia.
Qed.

Lemma grows_mat ch ia ib ps g : grows g (mat_nodes ch ia ib ps g).
Proof.
  revert g. induction ps as [|q ps IH]; intros g; [apply grows_refl|].
  rewrite mat_nodes_cons. eapply grows_trans; [apply grows_new|apply IH].
Qed.

Lemma mat_nodes_size ch ia ib ps g : gsize (mat_nodes ch ia ib ps g) = (gsize g + length ps)%nat.
Proof.
  revert g. induction ps as [|q ps IH]; intros g; [simpl; lia|].
  rewrite mat_nodes_cons, IH, new_size. simpl. lia.
Qed.

(* results of an operation: a live old node, or the new nodes in order *)
Definition results_ok (o : op) (g g' : graph) (ks : list nat) : Prop :=
  (may_alias o = true /\ exists k, ks = [k] /\ (k < gsize g)%nat /\ g' = g) \/
  (ks = seq (gsize g) (length ks) /\ gsize g' = (gsize g + length ks)%nat).

Lemma areg_lt g env r k : areg g env r = Some k -> (k < gsize g)%nat.
Proof.
  unfold areg. destruct (nth_error env r); [|discriminate]. destruct (Nat.ltb_spec n (gsize g)); [|discriminate].
  congruence.
Qed.

Lemma op_frame g env o ks g' : neutral o = false -> aexec_op g env o = AOk (ks, g') ->
  grows g g' /\ results_ok o g g' ks.
Proof.
  intros HN.
  assert (MAT : forall ch m k n ca cb av bv, amat ch m k n ca cb av bv g = AOk (ks, g') ->
    grows g g' /\ results_ok o g g' ks).
  { intros until bv. unfold amat. destruct (_ && _ && _); [|discriminate]. intros H; inversion H; subst; clear H.
    split.
    - eapply grows_trans; [apply grows_arr|]. eapply grows_trans; [apply grows_arr|]. apply grows_mat.
    - right. rewrite mat_nodes_size, seq_length. auto. }
  assert (ACT : forall a, (match a with AAlias k None => may_alias o = true /\ (k < gsize g)%nat
                                      | AAlias k (Some _) => False | _ => True end) ->
    abind (do_act g a) (fun p => AOk ([fst p], snd p)) = AOk (ks, g') ->
    grows g g' /\ results_ok o g g' ks).
  { intros [v ops ds ch|k [c|]| |] Ha; simpl; intros H; inversion H; subst; clear H; try tauto.
    - split; [apply grows_new|]. right. rewrite new_size. simpl. split; auto. lia.
    - split; [apply grows_refl|]. left. destruct Ha. split; eauto. }
  destruct o; cbn [aexec_op].
  - apply ACT; exact I.
  - apply ACT; exact I.
  - apply ACT. cbn [act_op]. destruct (areg g env a) as [k|] eqn:E; [|exact I]. apply areg_lt in E.
    destruct u; cbn [act_un anew1]; try exact I; try (split; [reflexivity|exact E]).
    + destruct (is_nan_d (gval g k)); [split; [reflexivity|exact E]|]. destruct (fle (gval g k) f1); exact I.
    + destruct (is_nan_d (gval g k)); [split; [reflexivity|exact E]|]. destruct (_ || _); exact I.
    + unfold act_abs. destruct (fgt (gval g k) f0); [split; [reflexivity|exact E]|].
      destruct (flt (gval g k) f0); [exact I|]. destruct (feq (gval g k) f0); exact I.
  - apply ACT. cbn [act_op]. destruct (areg g env x); [|exact I]. destruct (areg g env y); [|exact I].
    destruct b; exact I.
  - apply ACT. cbn [act_op]. destruct (areg g env x) as [k|] eqn:E; [|exact I]. apply areg_lt in E.
    destruct b; cbn [act_vd neutral] in *; unfold fne; try (rewrite HN; cbn [negb]; exact I).
    destruct (feq d fhalf); [exact I|]. destruct (feq d f1); [split; [reflexivity|exact E]|].
    destruct (feq d f2); [exact I|]. destruct (feq d (fneg f2)); [exact I|].
    destruct (feq d (fneg f1)); [exact I|]. destruct (feq d (fneg fhalf)); exact I.
  - apply ACT. cbn [act_op]. destruct (areg g env y) as [k|] eqn:E; [|exact I]. apply areg_lt in E.
    destruct b; cbn [act_dv neutral] in *; unfold fne; try (rewrite HN; cbn [negb]; exact I); exact I.
  - apply ACT. cbn [act_op]. destruct (aregs g env l); exact I.
  - apply ACT. cbn [act_op]. destruct (aregs g env l); exact I.
  - apply ACT. cbn [act_op]. destruct (aregs g env l); exact I.
  - apply ACT. cbn [act_op]. destruct (aregs g env l1); [|exact I]. destruct (aregs g env l2); [|exact I].
    destruct (Nat.eqb _ _); exact I.
  - apply ACT. cbn [act_op]. destruct (aregs g env l); [|exact I]. destruct (Nat.eqb _ _); exact I.
  - apply ACT. cbn [act_op]. destruct (aregs g env l); [|exact I]. destruct (Nat.eqb _ _); exact I.
  - destruct (aregs g env a); [|discriminate]. destruct (aregs g env b); [|discriminate]. apply MAT.
  - destruct (aregs g env a); [|discriminate]. apply MAT.
  - destruct (aregs g env b); [|discriminate]. apply MAT.
  - apply ACT. cbn [act_op]. destruct (aregs g env l); [|exact I]. destruct (Nat.eqb _ _); exact I.
Qed.

(* old nodes of a grown graph *)
Lemma grows_old g g' k : gwf g -> grows g g' -> (k < gsize g)%nat ->
  same_node g g' k /\ gval g' k = gval g k /\ (k < gsize g')%nat.
Proof.
  intros HW HG Hk. pose proof (grows_size _ _ HG). destruct HG as [[l E] [la Ea] A B D G].
  destruct (lt_nth_error _ _ Hk) as [nd Ek].
  assert (Ek' : nth_error (g_nodes g') k = Some nd) by (rewrite E, nth_error_app1; auto).
  split; [|split; [|lia]].
  - unfold same_node. rewrite Ek, Ek'. split; auto. split; auto. split; [|apply D; auto].
    destruct (w_node g HW _ _ Ek) as (_ & _ & W). unfold body_ok in W. destruct (n_body nd) as [ops ds|i j a b]; simpl.
    + apply map_ext_in. intros x Hx. rewrite Forall_forall in W. specialize (W x Hx). unfold gloc.
      rewrite E, nth_error_app1; auto. unfold gsize in *. lia.
    + destruct W as (_ & _ & (ra & R1 & _) & (rb & R2 & _)). unfold galoc.
      rewrite Ea, !nth_error_app1 by (eapply nth_error_lt; eauto). reflexivity.
  - unfold gval. rewrite Ek, Ek'. reflexivity.
Qed.

(* words used by an operation *)
Lemma op_tops g env o ks g' : aexec_op g env o = AOk (ks, g') ->
  g_peak g' <= Z.max (g_peak g) (g_top g + op_words o) /\ g_top g' <= g_top g + op_words o.
Proof.
  assert (MN : forall ch ia ib ps g, g_top (mat_nodes ch ia ib ps g) = g_top g + 10 * zlen ps /\
     g_peak (mat_nodes ch ia ib ps g) <= Z.max (g_peak g) (g_top g + 10 * zlen ps)).
  { intros ch ia ib ps. induction ps as [|q ps IH]; intros g0.
    - unfold mat_nodes, zlen; simpl. lia.
    - rewrite mat_nodes_cons. destruct (IH (a_new g0 (snd q) (BMat (fst (fst q)) (snd (fst q)) ia ib) (Some ch))) as [I1 I2].
      simpl in I1, I2. rewrite I1. unfold zlen in *. simpl length. lia. }
  assert (ML : forall m n, length (mpairs m n) = (m * n)%nat).
  { intros m n. unfold mpairs. induction n as [|n IH]; [simpl; lia|].
    rewrite seq_S, flat_map_app, app_length, IH. simpl. rewrite app_nil_r, map_length, seq_length. lia. }
  assert (AL : forall l ks, aregs g env l = Some ks -> zlen ks = zlen l).
  { intros l. induction l as [|r l IH]; simpl; intros k0.
    - intros H; inversion H; reflexivity.
    - destruct (areg g env r); [|discriminate]. destruct (aregs g env l) as [k1|]; [|discriminate].
      intros H; inversion H; subst. specialize (IH _ eq_refl). unfold zlen in *. simpl length. lia. }
  assert (MAT : forall ch m k n ca cb av bv w, amat ch m k n ca cb av bv g = AOk (ks, g') ->
    alen (mkArr m k ca 0) + alen (mkArr k n cb 0) + 10 * Z.of_nat (m * n) = w ->
    g_peak g' <= Z.max (g_peak g) (g_top g + w) /\ g_top g' <= g_top g + w).
  { intros until w. unfold amat. destruct (_ && _ && _); [|discriminate]. intros H HW; inversion H; subst; clear H.
    match goal with |- g_peak (mat_nodes ?c ?a ?b ?p ?g0) <= _ /\ _ => destruct (MN c a b p g0) as [M1 M2] end.
    rewrite M1. simpl in M2 |- *. unfold zlen in *. rewrite combine_length in *. unfold mat_vals in *. rewrite map_length, ML in *.
    pose proof (alen_pos (mkArr m k ca 0)). pose proof (alen_pos (mkArr k n cb 0)).
    unfold alen in *. cbn [a_c] in *. lia. }
  assert (ACT : forall a w, (match a with ANew v ops ds _ => 6 + zlen ops + 2 * zlen ds <= w | _ => 0 <= w end) ->
    abind (do_act g a) (fun p => AOk ([fst p], snd p)) = AOk (ks, g') ->
    g_peak g' <= Z.max (g_peak g) (g_top g + w) /\ g_top g' <= g_top g + w).
  { intros [v ops ds ch|k [c|]| |] w Ha; simpl; intros H; inversion H; subst; clear H; simpl; lia. }
  destruct o; cbn [aexec_op op_words].
  - apply ACT. cbn [act_op]. unfold zlen; cbn [length anew1]; lia.
  - apply ACT. cbn [act_op]. unfold zlen; cbn [length anew1]; lia.
  - apply ACT. cbn [act_op]. destruct (areg g env a) as [k|] eqn:E; [|lia].
    destruct u; cbn [act_un anew1]; unfold zlen; cbn [length anew1]; try lia.
    + destruct (is_nan_d (gval g k)); [cbn; lia|]. destruct (fle (gval g k) f1); cbn [length anew1]; lia.
    + destruct (is_nan_d (gval g k)); [cbn; lia|]. destruct (_ || _); cbn [length anew1]; lia.
    + unfold act_abs. destruct (fgt (gval g k) f0); [cbn; lia|].
      destruct (flt (gval g k) f0); [cbn [length anew1]; lia|]. destruct (feq (gval g k) f0); cbn [length anew1]; lia.
  - apply ACT. cbn [act_op]. destruct (areg g env x); [|lia]. destruct (areg g env y); [|lia].
    destruct b; cbn [act_vv]; unfold zlen; cbn [length anew1]; lia.
  - apply ACT. cbn [act_op]. destruct (areg g env x) as [k|] eqn:E; [|lia].
    destruct b; cbn [act_vd]; unfold zlen.
    + destruct (fne d f0); cbn [length anew1]; lia.
    + destruct (fne d f0); cbn [length anew1]; lia.
    + destruct (fne d f1); cbn [length anew1]; lia.
    + destruct (fne d f1); cbn [length anew1]; lia.
    + destruct (feq d fhalf); [cbn [length anew1]; lia|]. destruct (feq d f1); [cbn; lia|].
      destruct (feq d f2); [cbn [length anew1]; lia|]. destruct (feq d (fneg f2)); [cbn [length anew1]; lia|].
      destruct (feq d (fneg f1)); [cbn [length anew1]; lia|]. destruct (feq d (fneg fhalf)); cbn [length anew1]; lia.
    + destruct (fne d f0); [cbn [length anew1]; lia|]. unfold act_abs. destruct (fgt (gval g k) f0); [cbn; lia|].
      destruct (flt (gval g k) f0); [cbn [length anew1]; lia|]. destruct (feq (gval g k) f0); cbn [length anew1]; lia.
  - apply ACT. cbn [act_op]. destruct (areg g env y) as [k|] eqn:E; [|lia].
    destruct b; cbn [act_dv]; unfold zlen; try (cbn [length anew1]; lia).
    + destruct (fne d f0); cbn [length anew1]; lia.
    + destruct (fne d f1); cbn [length anew1]; lia.
    + destruct (fne d f0); cbn [length anew1]; lia.
  - pose proof (zlen_nonneg l). apply ACT. cbn [act_op]. destruct (aregs g env l) eqn:E; [|lia]. apply AL in E.
    change (zlen (@nil F)) with 0. lia.
  - pose proof (zlen_nonneg l). apply ACT. cbn [act_op]. destruct (aregs g env l) eqn:E; [|lia]. apply AL in E.
    change (zlen (@nil F)) with 0. lia.
  - pose proof (zlen_nonneg l). apply ACT. cbn [act_op]. destruct (aregs g env l) eqn:E; [|lia]. apply AL in E.
    change (zlen (@nil F)) with 0. lia.
  - pose proof (zlen_nonneg l1). pose proof (zlen_nonneg l2).
    apply ACT. cbn [act_op]. destruct (aregs g env l1) eqn:E1; [|lia]. destruct (aregs g env l2) eqn:E2; [|lia].
    apply AL in E1. apply AL in E2. destruct (Nat.eqb _ _); [|lia].
    change (zlen (@nil F)) with 0. unfold zlen in *. rewrite app_length. lia.
  - pose proof (zlen_nonneg l). pose proof (zlen_nonneg d).
    apply ACT. cbn [act_op]. destruct (aregs g env l) eqn:E; [|lia]. apply AL in E. destruct (Nat.eqb _ _); lia.
  - pose proof (zlen_nonneg l). pose proof (zlen_nonneg d).
    apply ACT. cbn [act_op]. destruct (aregs g env l) eqn:E; [|lia]. apply AL in E. destruct (Nat.eqb _ _); lia.
  - destruct (aregs g env a) eqn:E1; [|discriminate]. destruct (aregs g env b) eqn:E2; [|discriminate].
    apply AL in E1. apply AL in E2. intros H. eapply MAT; [exact H|]. unfold alen; cbn [a_c]. lia.
  - destruct (aregs g env a) eqn:E1; [|discriminate].
    apply AL in E1. intros H. eapply MAT; [exact H|]. unfold alen; cbn [a_c]. lia.
  - destruct (aregs g env b) eqn:E1; [|discriminate].
    apply AL in E1. intros H. eapply MAT; [exact H|]. unfold alen; cbn [a_c]. lia.
  - pose proof (zlen_nonneg l). apply ACT. cbn [act_op]. destruct (aregs g env l) eqn:E; [|lia].
    apply AL in E. destruct (Nat.eqb_spec (length (p (map (gval g) l0))) (length l0)) as [EL|]; [|lia].
    unfold zlen in *. lia.
Qed.
Lemma op_top g env o ks g' : aexec_op g env o = AOk (ks, g') ->
  g_peak g' <= Z.max (g_peak g) (g_top g + op_words o).
Proof. intros H. apply (op_tops g env o ks g' H). Qed.

End Observe.
