(* Lemmas behind C20-C23, C29-C31: procedures with array arguments. *)
From Verif Require Import TapeFacts.
From Coq Require Import ZifyBool ZifyNat.
From Verif Require Export Claims_each.
Local Open Scope R_scope.

(* ---- partial derivatives of the functions involved ---- *)

Lemma f2_len {A B} (P : A -> B -> Prop) l m : Forall2 P l m -> length l = length m.
Proof. induction 1; cbn [length]; auto. Qed.

Lemma hp_sum ws : has_partials rsum ws (map (fun _ => 1) ws).
Proof.
  intros fs t vs E F. eapply deriv_eq; [apply (d_rsum fs t vs F)|]. symmetry. apply rdot_ones.
  rewrite <- E, map_length. apply (f2_len _ _ _ F).
Qed.

Lemma rsum_rdot (h : R -> R) ws : forall vs : list R, length ws = length vs ->
  rsum (map (fun q => h (fst q) * snd q) (combine ws vs)) = rdot (map h ws) vs.
Proof.
  induction ws as [|w ws IH]; intros [|v vs] H; try discriminate H; [reflexivity|]. cbn [map combine].
  rewrite rdot_cons. cbn [rsum fold_right fst snd]. rewrite <- IH by (cbn [length] in H; lia). reflexivity.
Qed.

(* composition with a function of one argument applied to each element *)
Lemma hp_map (h h' : R -> R) ws : Forall (fun w => is_derive h w (h' w)) ws ->
  has_partials (fun l => rsum (map h l)) ws (map h' ws).
Proof.
  intros HD fs t vs E F.
  assert (HF : Forall (fun f : R -> R => is_derive h (f t) (h' (f t))) fs).
  { rewrite Forall_forall in *. intros f Hf. apply HD. rewrite <- E. apply (in_map (fun f : R -> R => f t) fs f Hf). }
  pose proof (d_rsum _ t _ (d_map h h' fs t vs F HF)) as D. rewrite E in D.
  rewrite rsum_rdot in D by (rewrite <- E, map_length; apply (f2_len _ _ _ F)).
  eapply deriv_ext; [|exact D]. intros u. cbv beta. rewrite !map_map. reflexivity.
Qed.

(* ... and to the result *)
Lemma hp_comp (k : R -> R) (f : list R -> R) ws ds k' : has_partials f ws ds -> is_derive k (f ws) k' ->
  has_partials (fun l => k (f l)) ws (map (Rmult k') ds).
Proof.
  intros HF HK fs t vs E F. rewrite rdot_scal. specialize (HF fs t vs E F).
  eapply deriv_eq; [apply (comp1 k (fun u => f (map (fun f => f u) fs)) t _ k' HF)|reflexivity].
  rewrite E. exact HK.
Qed.

Lemma hp_norm2 ws : Exists (fun w => w <> 0) ws ->
  has_partials (fun l => sqrt (rsum (map (fun w => w * w) l))) ws
    (map (fun w => w / sqrt (rsum (map (fun w => w * w) ws))) ws).
Proof.
  intros HE. assert (HP : 0 < rsum (map (fun w => w * w) ws)).
  { assert (H0 : forall l : list R, 0 <= rsum (map (fun w => w * w) l)).
    { induction l as [|w l IH]; cbn [map rsum fold_right]; [lra|]. fold (rsum (map (fun w => w * w) l)). nra. }
    induction HE as [w l Hw|w l _ IH]; cbn [map rsum fold_right]; fold (rsum (map (fun w => w * w) l)).
    - specialize (H0 l). nra.
    - nra. }
  pose proof (sqrt_lt_R0 _ HP) as HS.
  pose proof (hp_comp sqrt (fun l => rsum (map (fun w => w * w) l)) ws (map (fun w => 2 * w) ws)
    (/ 2 * 1 / sqrt (rsum (map (fun w => w * w) ws)))) as H.
  assert (EM : map (Rmult (/ 2 * 1 / sqrt (rsum (map (fun w => w * w) ws)))) (map (fun w => 2 * w) ws) =
    map (fun w => w / sqrt (rsum (map (fun w => w * w) ws))) ws).
  { rewrite map_map. apply map_ext. intros w. field. lra. }
  rewrite EM in H. apply H.
  - apply hp_map. apply Forall_forall. intros w _. auto_derive; auto. ring.
  - apply d_sqrt. exact HP.
Qed.

Lemma rsum_pos (l : list R) : l <> [] -> 0 < rsum (map exp l).
Proof.
  assert (H0 : forall l : list R, 0 <= rsum (map exp l)).
  { induction l0 as [|w l0 IH]; cbn [map rsum fold_right]; [lra|]. fold (rsum (map exp l0)). pose proof (exp_pos w). lra. }
  destruct l as [|w l]; [congruence|]. intros _. cbn [map rsum fold_right]. fold (rsum (map exp l)).
  pose proof (exp_pos w). specialize (H0 l). lra.
Qed.

Lemma hp_lse ws : ws <> [] ->
  has_partials (fun l => ln (rsum (map exp l))) ws (map (fun w => exp w / rsum (map exp ws)) ws).
Proof.
  intros HE. pose proof (rsum_pos ws HE) as HP.
  pose proof (hp_comp ln (fun l => rsum (map exp l)) ws (map exp ws) (/ rsum (map exp ws))) as H.
  assert (EM : map (Rmult (/ rsum (map exp ws))) (map exp ws) = map (fun w => exp w / rsum (map exp ws)) ws).
  { rewrite map_map. apply map_ext. intros w. unfold Rdiv. ring. }
  rewrite EM in H. apply H.
  - apply hp_map. apply Forall_forall. intros w _. apply is_derive_exp.
  - apply is_derive_ln. exact HP.
Qed.

Lemma hp_dot n ws us : length ws = n -> length us = n ->
  has_partials (fun l => rdot (firstn n l) (skipn n l)) (ws ++ us) (us ++ ws).
Proof.
  intros H1 H2 fs t vs E F. pose proof (f2_len _ _ _ F) as HL.
  assert (LF : length fs = (n + n)%nat) by (transitivity (length (ws ++ us)); [rewrite <- E, map_length; reflexivity|rewrite app_length; congruence]).
  assert (F1 : Forall2 (fun (f : R -> R) (d : R) => is_derive f t d) (firstn n fs) (firstn n vs)).
  { clear - F. revert n. induction F; intros [|n]; cbn [firstn]; constructor; auto. }
  assert (F2 : Forall2 (fun (f : R -> R) (d : R) => is_derive f t d) (skipn n fs) (skipn n vs)).
  { clear - F. revert n. induction F; intros [|n]; cbn [skipn]; try constructor; auto. }
  assert (L12 : length (firstn n fs) = length (skipn n fs)) by (rewrite firstn_length, skipn_length, LF; lia).
  pose proof (d_rdot _ _ t _ _ F1 F2 L12) as D.
  assert (W1 : map (fun f : R -> R => f t) (firstn n fs) = ws) by (rewrite <- firstn_map, E, <- H1, firstn_app, firstn_all, Nat.sub_diag; cbn [firstn]; apply app_nil_r).
  assert (W2 : map (fun f : R -> R => f t) (skipn n fs) = us) by (rewrite <- skipn_map, E, <- H1, skipn_app, skipn_all, Nat.sub_diag; reflexivity).
  rewrite W1, W2 in D. eapply deriv_eq; [eapply deriv_ext; [|exact D]|].
  - intros u. cbv beta. rewrite firstn_map, skipn_map. reflexivity.
  - rewrite <- (firstn_skipn n vs) at 3. rewrite rdot_app; [reflexivity|]. rewrite firstn_length.
    assert (L3 : @length R vs = (n + n)%nat) by (transitivity (length fs); [symmetry; exact HL|exact LF]). rewrite H2, L3. lia.
Qed.

Lemma hp_lin ws cs : length ws = length cs -> has_partials (fun l => rdot l cs) ws cs.
Proof.
  intros HL fs t vs E F. apply (d_rdot_const fs cs t vs F). rewrite <- HL, <- E, map_length. reflexivity.
Qed.

Lemma hp_lin' ws cs : length ws = length cs -> has_partials (fun l => rdot cs l) ws cs.
Proof.
  intros HL fs t vs E F. eapply deriv_ext; [|apply (hp_lin ws cs HL fs t vs E F)]. intros u. cbv beta. apply rdot_comm.
Qed.

Lemma hp_affine c ws cs : length ws = length cs -> has_partials (fun l => c + (rdot l cs - rdot ws cs)) ws cs.
Proof.
  intros HL fs t vs E F. eapply deriv_eq; [apply d_plus; [apply (d_const c t)|]|].
  - apply (d_plus (fun u => rdot (map (fun f => f u) fs) cs) (fun _ => - rdot ws cs)); [apply (hp_lin ws cs HL fs t vs E F)|apply d_const].
  - rring.
Qed.

Section Arrs.
Context {lg : R -> R} {C : Cfg (RNum lg)}.
Notation N := (RNum lg).
Notation graph := (@graph N).

Theorem each_sum (s : @st N) xs (ws : list R) : @practical N C -> (exists g : graph, Rel s g /\ sound g) ->
  Forall (alive s) xs -> mapM (var_val s) xs = Ok ws -> roomy s (6 + zlen xs) ->
  exists h s', sum_v xs s = Ok (h, s') /\ var_val s' h = Ok (rsum ws) /\
    forall x, alive s x -> passes s s' h x (INR (count_occ Z.eq_dec xs x)).
Proof.
  intros HP HV HA HX HM. pose proof (vals_len s xs ws HX) as HL.
  destruct (each_arr s xs ws (@OSum N (seq 0 (length xs))) rsum (map (fun _ => 1) ws) HP HV HA HX) as (h & s' & E & V & P); auto; try exact Logic.I.
  - apply hp_sum.
  - rewrite map_length. auto.
  - cbn [op_words]. unfold zlen in *. rewrite seq_length. exact HM.
  - destruct (call_sum _ _ _ _ E) as (h1 & E1 & E2). exists h, s'. split; [congruence|]. split; auto.
    intros x Hx. rewrite <- weight_ones. replace (map (fun _ : Z => 1) xs) with (map (fun _ : R => 1) ws); auto.
    clear - HL. revert ws HL. induction xs as [|x xs IH]; intros [|w ws] HL; try discriminate HL; [reflexivity|]. cbn [map]. f_equal. apply IH. cbn [length] in HL. lia.
Qed.

Theorem each_norm2 (s : @st N) xs (ws : list R) : @practical N C -> (exists g : graph, Rel s g /\ sound g) ->
  Forall (alive s) xs -> mapM (var_val s) xs = Ok ws -> Exists (fun w => w <> 0) ws -> roomy s (6 + zlen xs) ->
  exists h s', norm2_v xs s = Ok (h, s') /\ var_val s' h = Ok (sqrt (rsum (map (fun w => w * w) ws))) /\
    forall x, alive s x -> passes s s' h x (weight xs (map (fun w => w / sqrt (rsum (map (fun w => w * w) ws))) ws) x).
Proof.
  intros HP HV HA HX HE HM. pose proof (vals_len s xs ws HX) as HL.
  destruct (each_arr s xs ws (@ONorm2 N (seq 0 (length xs))) _ _ HP HV HA HX eq_refl (fun _ _ => eq_refl) eq_refl (hp_norm2 ws HE)) as (h & s' & E & V & P); auto; try exact Logic.I.
  - rewrite map_length. auto.
  - cbn [op_words]. unfold zlen in *. rewrite seq_length. exact HM.
  - destruct (call_norm2 _ _ _ _ E) as (h1 & E1 & E2). exists h, s'. split; [congruence|]. auto.
Qed.

Theorem each_lse (s : @st N) xs (ws : list R) : @practical N C -> (exists g : graph, Rel s g /\ sound g) ->
  Forall (alive s) xs -> mapM (var_val s) xs = Ok ws -> xs <> [] -> Forall (fun w => w <= rhuge) ws -> roomy s (6 + zlen xs) ->
  exists h s', log_sum_exp_v xs s = Ok (h, s') /\ var_val s' h = Ok (ln (rsum (map exp ws))) /\
    forall x, alive s x -> passes s s' h x (weight xs (map (fun w => exp w / rsum (map exp ws)) ws) x).
Proof.
  intros HP HV HA HX HE HB HM. pose proof (vals_len s xs ws HX) as HL.
  assert (HE2 : ws <> []) by (intros ->; destruct xs; [congruence|discriminate HL]).
  destruct (each_arr s xs ws (@OLse N (seq 0 (length xs))) _ _ HP HV HA HX eq_refl (fun _ _ => eq_refl) eq_refl (hp_lse ws HE2)) as (h & s' & E & V & P); auto; try exact Logic.I.
  - rewrite map_length. auto.
  - split; auto.
  - cbn [op_words]. unfold zlen in *. rewrite seq_length. exact HM.
  - destruct (call_lse _ _ _ _ E) as (h1 & E1 & E2). exists h, s'. split; [congruence|]. auto.
Qed.

Theorem each_dvd (s : @st N) xs (ws cs : list R) : @practical N C -> (exists g : graph, Rel s g /\ sound g) ->
  Forall (alive s) xs -> mapM (var_val s) xs = Ok ws -> length xs = length cs -> roomy s (6 + 3 * zlen xs) ->
  exists h s', dot_prod_vd xs (cs : list (@F N)) s = Ok (h, s') /\ var_val s' h = Ok (rdot ws cs) /\
    forall x, alive s x -> passes s s' h x (weight xs cs x).
Proof.
  intros HP HV HA HX HC HM. pose proof (vals_len s xs ws HX) as HL.
  destruct (each_arr s xs ws (@ODotVD N (seq 0 (length xs)) cs) (fun l => rdot l cs) cs HP HV HA HX) as (h & s' & E & V & P); auto; try exact Logic.I.
  - apply hp_lin. transitivity (length xs); [symmetry; exact HL|exact HC].
  - cbn [op_shape]. rewrite seq_length. auto.
  - cbn [op_words]. assert (LC : @length R cs = @length (@F N) cs) by reflexivity.
    destruct HM as [M1 M2]. split; auto. unfold zlen in *. rewrite seq_length. lia.
  - destruct (call_dvd _ _ _ _ _ E) as (h1 & E1 & E2). exists h, s'. split; [congruence|]. auto.
Qed.

Theorem each_ddv (s : @st N) (cs : list R) xs (ws : list R) : @practical N C -> (exists g : graph, Rel s g /\ sound g) ->
  Forall (alive s) xs -> mapM (var_val s) xs = Ok ws -> length xs = length cs -> roomy s (6 + 3 * zlen xs) ->
  exists h s', dot_prod_dv (cs : list (@F N)) xs s = Ok (h, s') /\ var_val s' h = Ok (rdot cs ws) /\
    forall x, alive s x -> passes s s' h x (weight xs cs x).
Proof.
  intros HP HV HA HX HC HM. pose proof (vals_len s xs ws HX) as HL.
  destruct (each_arr s xs ws (@ODotDV N cs (seq 0 (length xs))) (fun l => rdot cs l) cs HP HV HA HX) as (h & s' & E & V & P); auto; try exact Logic.I.
  - apply hp_lin'. transitivity (length xs); [symmetry; exact HL|exact HC].
  - cbn [op_shape]. rewrite seq_length. auto.
  - cbn [op_words]. assert (LC : @length R cs = @length (@F N) cs) by reflexivity.
    destruct HM as [M1 M2]. split; auto. unfold zlen in *. rewrite seq_length. lia.
  - destruct (call_ddv _ _ _ _ _ E) as (h1 & E1 & E2). exists h, s'. split; [congruence|]. auto.
Qed.

Lemma vals_app (s : @st N) xs ys (ws us : list (@F N)) : mapM (var_val s) xs = Ok ws -> mapM (var_val s) ys = Ok us ->
  mapM (var_val s) (xs ++ ys) = Ok (ws ++ us : list (@F N)).
Proof.
  revert ws. induction xs as [|x xs IH]; intros ws H1 H2; cbn [app mapM] in *.
  - assert (ws = []) by congruence. subst. exact H2.
  - destruct (var_val s x) as [f| | |]; try discriminate. cbn [bind] in *. destruct (mapM (var_val s) xs) as [l| | |]; try discriminate.
    cbn [bind] in H1. assert (ws = f :: l) by congruence. subst. rewrite (IH l eq_refl H2). reflexivity.
Qed.

Theorem each_dvv (s : @st N) xs ys (ws us : list R) : @practical N C -> (exists g : graph, Rel s g /\ sound g) ->
  Forall (alive s) xs -> Forall (alive s) ys -> mapM (var_val s) xs = Ok ws -> mapM (var_val s) ys = Ok us ->
  length xs = length ys -> roomy s (6 + 2 * zlen xs) ->
  exists h s', dot_prod_vv xs ys s = Ok (h, s') /\ var_val s' h = Ok (rdot ws us) /\
    forall x, alive s x -> passes s s' h x (weight xs us x + weight ys ws x).
Proof.
  intros HP HV HA1 HA2 HX HY HE HM. pose proof (vals_len s xs ws HX) as HL1. pose proof (vals_len s ys us HY) as HL2.
  destruct (each_arr s (xs ++ ys) (ws ++ us) (@ODotVV N (seq 0 (length xs)) (seq (length xs) (length ys)))
    (fun l => rdot (firstn (length xs) l) (skipn (length xs) l)) (us ++ ws) HP HV) as (h & s' & E & V & P); auto; try exact Logic.I.
  - apply Forall_app; auto.
  - apply (vals_app s xs ys ws us HX HY).
  - cbn [op_regs]. rewrite app_length, seq_app. reflexivity.
  - intros l Hl. cbn [denote]. rewrite seq_length. reflexivity.
  - apply hp_dot; [symmetry; exact HL1|]. transitivity (length ys); [symmetry; exact HL2|symmetry; exact HE].
  - rewrite !app_length. lia.
  - cbn [op_shape]. rewrite !seq_length. auto.
  - cbn [op_words]. destruct HM as [M1 M2]. split; auto. unfold zlen in *. rewrite !seq_length. lia.
  - destruct (call_dvv _ _ _ _ _ E) as (h1 & E1 & E2). exists h, s'. split; [congruence|]. split.
    + rewrite V. f_equal. rewrite HL1, firstn_app, firstn_all, skipn_app, skipn_all, Nat.sub_diag. cbn [firstn skipn]. rewrite app_nil_r. reflexivity.
    + intros x Hx. rewrite <- weight_app by (transitivity (length ys); [exact HE|exact HL2]). auto.
Qed.

(* any value and any partials *)
Theorem each_part (s : @st N) (v : R) xs (ps : list R) : @practical N C -> (exists g : graph, Rel s g /\ sound g) ->
  Forall (alive s) xs -> length xs = length ps -> roomy s (6 + 3 * zlen xs) ->
  exists h s', var_with_partials (v : @F N) xs (ps : list (@F N)) s = Ok (h, s') /\ var_val s' h = Ok v /\
    forall x, alive s x -> passes s s' h x (weight xs ps x).
Proof.
  intros HP HV HA HE HM.
  assert (exists ws : list R, mapM (var_val s) xs = Ok (ws : list (@F N))) as [ws HX].
  { destruct HV as (g & R0 & _). destruct (alive_nodes s g xs R0 HA) as (ke & -> & HB). eexists. apply (vals_nodes s g ke R0 HB). }
  pose proof (vals_len s xs ws HX) as HL.
  set (f := fun l => v + (rdot l ps - rdot ws ps)).
  assert (HPart : has_partials f ws ps) by (apply hp_affine; transitivity (length xs); [symmetry; exact HL|exact HE]).
  assert (EV : f ws = v) by (unfold f; rring).
  destruct (each_arr s xs ws (@OPart N f (fun _ => ps) (seq 0 (length xs))) f ps HP HV HA HX) as (h & s' & E & V & P); auto; try exact Logic.I.
  - cbn [op_shape]. intros l _. rewrite seq_length. symmetry. exact HE.
  - cbn [op_words]. destruct HM as [M1 M2]. split; auto. unfold zlen in *. rewrite seq_length. lia.
  - destruct (call_part _ _ _ _ _ _ E) as (h1 & vs & E1 & E2 & E3). exists h, s'.
    assert (vs = ws) by congruence. subst vs. split.
    + assert (h1 = h) by congruence. subst h1. etransitivity; [|exact E3]. f_equal. symmetry. exact EV.
    + split; auto. etransitivity; [exact V|]. f_equal. exact EV.
Qed.

(* ---- matrix products ---- *)

Lemma each_mat (s : @st N) zs (ws : list R) (o : @op N) (m n : nat) (e : list R -> nat -> nat -> R) (ds : nat -> nat -> list Z * list R) :
  @practical N C -> (exists g : graph, Rel s g /\ sound g) -> Forall (alive s) zs -> mapM (var_val s) zs = Ok ws ->
  op_regs o = seq 0 (length zs) -> op_results o = (m * n)%nat ->
  (forall l i j, length l = length zs -> (i < m)%nat -> (j < n)%nat -> nth (i + j * m) (denote o l) 0 = e l i j) ->
  (forall x v i j, alive s x -> var_val s x = Ok v -> (i < m)%nat -> (j < n)%nat ->
     is_derive (fun t => e (with_var zs ws x t) i j) v (weight (fst (ds i j)) (snd (ds i j)) x)) ->
  op_dom o ws -> op_shape o -> neutral o = false -> roomy s (op_words o) ->
  exists hs s', exec_op zs o s = Ok (hs, s') /\ length hs = (m * n)%nat /\
    forall i j, (i < m)%nat -> (j < n)%nat -> exists h, nth_error hs (i + j * m) = Some h /\ var_val s' h = Ok (e ws i j) /\
      forall x, alive s x -> passes s s' h x (weight (fst (ds i j)) (snd (ds i j)) x).
Proof.
  intros HP HV HA HX HR H1 HF HDs HD HS HN HM. pose proof (vals_len s zs ws HX) as HL.
  destruct (call_all s zs ws o HP HV HA HX) as (hs & s' & E & L & Q); auto.
  { rewrite HR, at_regs_all by auto. exact HD. }
  { rewrite HR. apply Forall_forall. intros r Hr. apply in_seq in Hr. lia. }
  exists hs, s'. split; auto. split; [congruence|]. intros i j Hi Hj.
  destruct (lt_nth_error hs (i + j * m)) as [h Hh]; [rewrite L, H1; nia|]. exists h. split; auto.
  destruct (Q _ h Hh) as [V P]. rewrite HR in V, P. rewrite at_regs_all in V by auto. rewrite HF in V by auto.
  split; auto. intros x Hx.
  assert (exists v, var_val s x = Ok v) as [v Hv].
  { destruct HV as (g & R0 & _). destruct (alive_node s g x R0 Hx) as (k & -> & Hk). eexists. apply (rel_var_val s g R0 k Hk). }
  destruct (P x v Hx Hv) as (d & D1 & D2). replace (weight (fst (ds i j)) (snd (ds i j)) x) with d; auto.
  eapply derive_eq; [|exact D1|apply (HDs x v i j Hx Hv Hi Hj)].
  intros t. cbv beta. rewrite moved_all by auto. rewrite HF; auto. apply with_var_len; auto.
Qed.

Lemma pick_at (f : nat -> nat) k xs (ws : list R) x v : length xs = length ws -> (forall c, (c < k)%nat -> (f c < length xs)%nat) ->
  Forall2 (fun z (w : R) => z = x -> w = v) xs ws ->
  Forall2 (fun z (w : R) => z = x -> w = v) (map (fun c => nth (f c) xs 0%Z) (seq 0 k)) (map (fun c => nth (f c) ws 0) (seq 0 k)).
Proof.
  intros HL Hf HF.
  assert (E : forall l, (forall c, In c l -> (f c < length xs)%nat) ->
    Forall2 (fun z (w : R) => z = x -> w = v) (map (fun c => nth (f c) xs 0%Z) l) (map (fun c => nth (f c) ws 0) l)).
  { induction l as [|c l IH]; intros H; cbn [map]; constructor; [|apply IH; intros; apply H; right; auto].
    specialize (H c (or_introl eq_refl)). clear - HF H. revert H. generalize (f c). induction HF as [|z w xs ws E _ IH]; intros n Hn; cbn [length] in Hn; [lia|].
    destruct n as [|n]; cbn [nth]; [auto|]. apply IH. lia. }
  apply E. intros c Hc. apply in_seq in Hc. apply Hf. lia.
Qed.

Lemma dot_weight ra ca (wr wc : list R) k x v : length ra = k -> length ca = k -> length wr = k -> length wc = k ->
  Forall2 (fun z (w : R) => z = x -> w = v) ra wr -> Forall2 (fun z (w : R) => z = x -> w = v) ca wc ->
  is_derive (fun t => rdot (with_var ra wr x t) (with_var ca wc x t)) v (weight ra wc x + weight ca wr x).
Proof.
  intros L1 L2 L3 L4 F1 F2. rewrite <- weight_app by congruence.
  pose proof (partial_weight _ (ra ++ ca) (wr ++ wc) (wc ++ wr) x v (hp_dot k wr wc L3 L4)) as D.
  rewrite !app_length in D. specialize (D ltac:(lia) ltac:(lia) ltac:(apply Forall2_app; auto)).
  eapply deriv_ext; [|exact D]. intros t. cbv beta. rewrite with_var_app by congruence.
  assert (LW : length (with_var ra wr x t) = k) by (rewrite with_var_len; congruence).
  rewrite <- LW at 1 2. rewrite firstn_app, firstn_all, skipn_app, skipn_all, Nat.sub_diag. cbn [firstn skipn app]. rewrite app_nil_r. reflexivity.
Qed.

Lemma words_mvv m k n (xs ys : list Z) : length xs = (m * k)%nat -> length ys = (k * n)%nat ->
  @op_words N (OMatVV m k n (seq 0 (length xs)) (seq (length xs) (length ys))) = (4 + zlen xs + zlen ys + 10 * Z.of_nat (m * n))%Z.
Proof. intros. cbn [op_words]. unfold zlen. rewrite !seq_length. reflexivity. Qed.

Theorem each_mvv (s : @st N) m k n xs ys (ws us : list R) : @practical N C -> (exists g : graph, Rel s g /\ sound g) ->
  Forall (alive s) xs -> Forall (alive s) ys -> mapM (var_val s) xs = Ok ws -> mapM (var_val s) ys = Ok us ->
  length xs = (m * k)%nat -> length ys = (k * n)%nat -> (Z.of_nat m <= max_int)%Z -> (Z.of_nat k <= max_int)%Z -> (Z.of_nat n <= max_int)%Z ->
  roomy s (4 + zlen xs + zlen ys + 10 * Z.of_nat (m * n)) ->
  exists hs s', mat_mul_vv m k n xs ys s = Ok (hs, s') /\ length hs = (m * n)%nat /\
    forall i j, (i < m)%nat -> (j < n)%nat -> exists h, nth_error hs (i + j * m) = Some h /\
      var_val s' h = Ok (rdot (row 0 m k i ws) (col 0 k j us)) /\
      forall x, alive s x -> passes s s' h x (weight (row 0%Z m k i xs) (col 0 k j us) x + weight (col 0%Z k j ys) (row 0 m k i ws) x).
Proof.
  intros HP HV HA1 HA2 HX HY S1 S2 M1 M2 M3 HM. pose proof (vals_len s xs ws HX) as HL1. pose proof (vals_len s ys us HY) as HL2.
  destruct (each_mat s (xs ++ ys) (ws ++ us) (@OMatVV N m k n (seq 0 (length xs)) (seq (length xs) (length ys))) m n
    (fun l i j => rdot (row 0 m k i (firstn (length xs) l)) (col 0 k j (skipn (length xs) l)))
    (fun i j => (row 0%Z m k i xs ++ col 0%Z k j ys, col 0 k j us ++ row 0 m k i ws)) HP HV) as (hs & s' & E & L & Q); auto; try exact Logic.I.
  - apply Forall_app; auto.
  - apply (vals_app s xs ys ws us HX HY).
  - cbn [op_regs]. rewrite app_length, seq_app. reflexivity.
  - intros l i j Hl Hi Hj. cbn [denote]. rewrite seq_length. apply mm_at; auto.
  - intros x v i j Hx Hv Hi Hj. cbn [fst snd]. rewrite weight_app by (rewrite row_len, col_len; auto).
    eapply deriv_ext; [|apply (dot_weight (row 0%Z m k i xs) (col 0%Z k j ys) (row 0 m k i ws) (col 0 k j us) k x v)].
    + intros t. cbv beta. rewrite with_var_app by auto.
      assert (LW : length (with_var xs ws x t) = length xs) by (apply with_var_len; auto).
      rewrite <- LW. rewrite firstn_app, firstn_all, skipn_app, skipn_all, Nat.sub_diag. cbn [firstn skipn app]. rewrite app_nil_r.
      rewrite (with_var_row m k i xs ws x t) by auto. rewrite (with_var_col k n j ys us x t) by auto. reflexivity.
    + apply row_len.
    + apply col_len.
    + apply row_len.
    + apply col_len.
    + apply pick_at; auto; [intros c Hc; rewrite S1; nia|apply (vals_at s xs ws HX x v Hv)].
    + apply pick_at; auto; [intros c Hc; rewrite S2; nia|apply (vals_at s ys us HY x v Hv)].
  - cbn [op_shape]. rewrite !seq_length. auto.
  - rewrite words_mvv by auto. exact HM.
  - rewrite call_mvv in E. exists hs, s'. split; auto. split; auto. intros i j Hi Hj.
    destruct (Q i j Hi Hj) as (h & H1 & H2 & H3). exists h. split; auto. split.
    + etransitivity; [exact H2|]. f_equal. rewrite HL1. rewrite firstn_app, firstn_all, skipn_app, skipn_all, Nat.sub_diag.
      cbn [firstn skipn app]. rewrite app_nil_r. reflexivity.
    + intros x Hx. specialize (H3 x Hx). cbn [fst snd] in H3. rewrite weight_app in H3 by (rewrite row_len, col_len; auto). exact H3.
Qed.

Lemma lin_weight ra (wr cs : list R) x v : length ra = length wr -> length ra = length cs ->
  Forall2 (fun z (w : R) => z = x -> w = v) ra wr -> is_derive (fun t => rdot (with_var ra wr x t) cs) v (weight ra cs x).
Proof.
  intros L1 L2 F. apply (partial_weight (fun l => rdot l cs) ra wr cs x v); auto. apply hp_lin. congruence.
Qed.

Theorem each_mvd (s : @st N) m k n xs (ws b : list R) : @practical N C -> (exists g : graph, Rel s g /\ sound g) ->
  Forall (alive s) xs -> mapM (var_val s) xs = Ok ws ->
  length xs = (m * k)%nat -> length b = (k * n)%nat -> (Z.of_nat m <= max_int)%Z -> (Z.of_nat k <= max_int)%Z -> (Z.of_nat n <= max_int)%Z ->
  roomy s (4 + zlen xs + 2 * zlen b + 10 * Z.of_nat (m * n)) ->
  exists hs s', mat_mul_vd m k n xs (b : list (@F N)) s = Ok (hs, s') /\ length hs = (m * n)%nat /\
    forall i j, (i < m)%nat -> (j < n)%nat -> exists h, nth_error hs (i + j * m) = Some h /\
      var_val s' h = Ok (rdot (row 0 m k i ws) (col 0 k j b)) /\
      forall x, alive s x -> passes s s' h x (weight (row 0%Z m k i xs) (col 0 k j b) x).
Proof.
  intros HP HV HA1 HX S1 S2 M1 M2 M3 HM. pose proof (vals_len s xs ws HX) as HL1.
  destruct (each_mat s xs ws (@OMatVD N m k n (seq 0 (length xs)) b) m n
    (fun l i j => rdot (row 0 m k i l) (col 0 k j b))
    (fun i j => (row 0%Z m k i xs, col 0 k j b)) HP HV) as (hs & s' & E & L & Q); auto; try exact Logic.I.
  - intros l i j Hl Hi Hj. cbn [denote]. apply mm_at; auto.
  - intros x v i j Hx Hv Hi Hj. cbn [fst snd].
    eapply deriv_ext; [|apply (lin_weight (row 0%Z m k i xs) (row 0 m k i ws) (col 0 k j b) x v)].
    + intros t. cbv beta. rewrite (with_var_row m k i xs ws x t) by auto. reflexivity.
    + rewrite !row_len. auto.
    + rewrite row_len, col_len. auto.
    + apply pick_at; auto; [intros c Hc; rewrite S1; nia|apply (vals_at s xs ws HX x v Hv)].
  - cbn [op_shape]. rewrite !seq_length. auto.
  - cbn [op_words]. assert (LC : @zlen R b = @zlen (@F N) b) by reflexivity. rewrite <- LC. unfold zlen in *. rewrite !seq_length. exact HM.
  - rewrite call_mvd in E. exists hs, s'. split; auto.
Qed.

Theorem each_mdv (s : @st N) m k n (a : list R) ys (us : list R) : @practical N C -> (exists g : graph, Rel s g /\ sound g) ->
  Forall (alive s) ys -> mapM (var_val s) ys = Ok us ->
  length a = (m * k)%nat -> length ys = (k * n)%nat -> (Z.of_nat m <= max_int)%Z -> (Z.of_nat k <= max_int)%Z -> (Z.of_nat n <= max_int)%Z ->
  roomy s (4 + 2 * zlen a + zlen ys + 10 * Z.of_nat (m * n)) ->
  exists hs s', mat_mul_dv m k n (a : list (@F N)) ys s = Ok (hs, s') /\ length hs = (m * n)%nat /\
    forall i j, (i < m)%nat -> (j < n)%nat -> exists h, nth_error hs (i + j * m) = Some h /\
      var_val s' h = Ok (rdot (row 0 m k i a) (col 0 k j us)) /\
      forall x, alive s x -> passes s s' h x (weight (col 0%Z k j ys) (row 0 m k i a) x).
Proof.
  intros HP HV HA1 HX S1 S2 M1 M2 M3 HM. pose proof (vals_len s ys us HX) as HL1.
  destruct (each_mat s ys us (@OMatDV N m k n a (seq 0 (length ys))) m n
    (fun l i j => rdot (row 0 m k i a) (col 0 k j l))
    (fun i j => (col 0%Z k j ys, row 0 m k i a)) HP HV) as (hs & s' & E & L & Q); auto; try exact Logic.I.
  - intros l i j Hl Hi Hj. cbn [denote]. apply mm_at; auto.
  - intros x v i j Hx Hv Hi Hj. cbn [fst snd].
    eapply deriv_ext; [|apply (lin_weight (col 0%Z k j ys) (col 0 k j us) (row 0 m k i a) x v)].
    + intros t. cbv beta. rewrite (with_var_col k n j ys us x t) by auto. apply rdot_comm.
    + rewrite !col_len. auto.
    + rewrite row_len, col_len. auto.
    + apply pick_at; auto; [intros c Hc; rewrite S2; nia|apply (vals_at s ys us HX x v Hv)].
  - cbn [op_shape]. rewrite !seq_length. auto.
  - cbn [op_words]. assert (LC : @zlen R a = @zlen (@F N) a) by reflexivity. rewrite <- LC. unfold zlen in *. rewrite !seq_length. exact HM.
  - rewrite call_mdv in E. exists hs, s'. split; auto.
Qed.

End Arrs.
