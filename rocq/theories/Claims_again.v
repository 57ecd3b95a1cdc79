(* Calls that come upon what earlier matrix products left in the table: the results are
   those of a state in which the stale pointers are gone. *)
From Verif Require Import TapeFacts.
From Coq Require Import ZifyBool ZifyNat.
From Verif Require Export Claims_effect Steady.
Local Open Scope nat_scope.
Local Notation hd := Refine.hd.

Section Again2.
Context {N : Num} {RL : RepLaws N} {C : Cfg N}.

(* slots of the places marked by P, the first place being node b *)
Definition slots (b : nat) (P : nat -> bool) (z : Z) : bool := ((hd b <=? z)%Z && P (Z.to_nat (z - hd b)))%bool.

Lemma slots_at b P k : b <= k -> slots b P (hd k) = P (k - b).
Proof.
  intros H. unfold slots, hd. replace ((Z.of_nat b + 1 <=? Z.of_nat k + 1)%Z) with true by lia. cbn [andb]. f_equal. lia.
Qed.
Lemma slots_old b P k : k < b -> slots b P (hd k) = false.
Proof. intros H. unfold slots, hd. replace ((Z.of_nat b + 1 <=? Z.of_nat k + 1)%Z) with false by lia. reflexivity. Qed.

Lemma op_steady ke b (P : nat -> bool) s t g rs tl o : let sg := place ke b in agree (slots b P) s t -> Rel t g -> lined ke b g tl ->
  Forall (fun r => r < length tl) rs -> Forall (fun r => r < length rs) (op_regs o) -> op_shape o -> neutral o = false ->
  let ks := lines_at rs (op_regs o) in
  match step o ks (map (value tl) ks) with
  | New ls => (fresh o (nth 0 (map (value tl) ks) f0) = true -> P (length tl - length ke) = true) /\
      (is_matmul o = true -> forall i, i < length ls -> P (length tl - length ke + i) = false)
  | _ => True
  end ->
  both (pairs (slots b P)) (exec_op (map hd (map sg rs)) o s) (exec_op (map hd (map sg rs)) o t).
Proof.
  intros sg H R0 L HB Q1 Q2 Q3 ks HA. pose proof (ln_len _ _ _ _ L) as LL. pose proof (ln_b _ _ _ _ L) as LB.
  assert (HH : s_head s = hd (gsize g)) by (rewrite <- (ag_head _ _ _ H); exact (r_head _ _ R0)).
  assert (GS : forall i, P (length tl - length ke + i) = slots b P (s_head s + Z.of_nat i)).
  { intros i. rewrite HH. replace (hd (gsize g) + Z.of_nat i)%Z with (hd (gsize g + i)) by (unfold hd; lia). rewrite slots_at by lia. f_equal. lia. }
  assert (GS0 : P (length tl - length ke) = slots b P (s_head s)).
  { specialize (GS 0). rewrite Nat.add_0_r, Z.add_0_r in GS. exact GS. }
  destruct (sets_all o) eqn:SA; [apply steady_op; auto|].
  assert (MAT : forall m n (ln : nat * nat -> line), (exists k a b, o = OMatVV m k n a b) \/ (exists k a b, o = OMatVD m k n a b) \/ (exists k a b, o = OMatDV m k n a b) ->
    (forall i, i < length (map ln (entries m n)) -> P (length tl - length ke + i) = false) ->
    both (pairs (slots b P)) (exec_op (map hd (map sg rs)) o s) (exec_op (map hd (map sg rs)) o t)).
  { intros m n ln HO HP. apply (steady_mat (slots b P) _ o m n s t H HO). intros i Hi. rewrite map_length in HP.
    change (entries m n) with (mpairs m n) in HP. specialize (HP (Z.to_nat i) ltac:(lia)). rewrite GS, Z2Nat.id in HP by lia. exact HP. }
  destruct o as [d| |u r|bb r1 r2|bb r d|bb d r|l|l|l|l1 l2|l ds|ds l|m c n l1 l2|m c n l ds|m c n ds l|v pp l]; cbn [sets_all is_matmul negb] in SA; try discriminate;
    cbn [step is_matmul fresh] in HA.
  - unfold exec_op, one. apply (bind_at (fun _ => True)).
    + eapply both_weak; [apply (steady_new_leaf (slots b P) d s t H); rewrite <- GS0; apply (proj1 HA); reflexivity|]. intros x y [Q _]. split; auto.
    + intros h s' t' G _. apply steady_ret. exact G.
  - unfold exec_op, one. apply (bind_at (fun _ => True)).
    + eapply both_weak; [apply (steady_new_var (slots b P) s t H); rewrite <- GS0; apply (proj1 HA); reflexivity|]. intros x y Q. split; auto.
    + intros h s' t' G _. apply steady_ret. exact G.
  - destruct u; try discriminate. clear SA MAT. cbn [op_regs] in Q1. pose proof (Forall_inv Q1) as Hr. cbv beta in Hr.
    destruct (lt_nth_error _ _ Hr) as [i Ei]. unfold ks, lines_at in HA. cbn [op_regs map nth] in HA. rewrite (nth_error_nth _ _ 0 Ei) in HA.
    assert (ER : reg (map hd (map sg rs)) r = mret (hd (sg i))) by (unfold reg; rewrite !nth_error_map, Ei; reflexivity).
    assert (EE : forall s', exec_op (map hd (map sg rs)) (OUn UAbs r) s' = mbind (abs_v (hd (sg i))) (fun h => mret (h :: nil)) s') by (intros s'; unfold exec_op; rewrite ER; reflexivity).
    rewrite !EE. apply (bind_at (fun _ => True)).
    + eapply both_weak; [|intros x y Q; split; [exact Q|exact Logic.I]].
      apply steady_abs; auto. intros x EX G1 G2 G3. rewrite <- GS0.
      rewrite (steady_val _ _ _ _ H) in EX. rewrite Forall_forall in HB. pose proof (HB i (nth_error_In _ _ Ei)) as Hi. cbv beta in Hi.
      unfold sg in EX. rewrite (rel_var_val t g R0 _ (place_lt ke b g tl i L Hi)) in EX. injection EX as EX.
      rewrite (ln_val _ _ _ _ L i Hi) in EX. subst x. unfold abs_line in HA. unfold fgt in G1. rewrite G1, G2, G3 in HA. apply (proj1 HA). reflexivity.
    + intros h s' t' G _. apply steady_ret. exact G.
  - eapply MAT; [left; eauto|]. apply (proj2 HA). reflexivity.
  - eapply MAT; [right; left; eauto|]. apply (proj2 HA). reflexivity.
  - eapply MAT; [right; right; eauto|]. apply (proj2 HA). reflexivity.
Qed.

Lemma call_steady (HC : cfg_ok C) (HJ : exists j, junk = Some j) ke b (P : nat -> bool) (f : fn) : forall s t g rs tl,
  agree (slots b P) s t -> Rel t g -> sound g -> lined ke b g tl ->
  Forall (fun r => r < length tl) rs -> well_formed f rs tl -> apart P (length ke) f rs tl -> (g_peak g <= cap)%Z -> (g_top g + cost f rs tl <= cap)%Z ->
  both (pairs (slots b P)) (call_fn f (map hd (map (place ke b) rs)) s) (call_fn f (map hd (map (place ke b) rs)) t).
Proof.
  set (sg := place ke b).
  induction f as [ys|o k IH|q a c k IH|q a d k IH]; intros s0 s g rs t HAG R0 HG L HB HQ HAP HP HT; cbn [call_fn well_formed cost apart] in *.
  - eapply both_weak; [apply steadyh_regs; exact HAG|]. intros x y [Q _]. exact Q.
  - destruct HQ as (Q1 & Q2 & Q3 & Q4). cbv zeta in Q4, HT, HAP.
    pose proof (op_steady ke b P s0 s g rs t o HAG R0 L HB Q1 Q2 Q3) as BO. cbv zeta in BO. fold sg in BO.
    set (ks := lines_at rs (op_regs o)) in *.
    assert (HBK : Forall (fun r => r < length t) ks) by (apply lines_lt; auto).
    assert (HB' : Forall (fun j => j < gsize g) (map sg rs)).
    { apply Forall_map. eapply Forall_impl; [|exact HB]. cbv beta. intros r Hr. eapply place_lt; eauto. }
    assert (Q1' : Forall (fun r => r < length (map sg rs)) (op_regs o)) by (rewrite map_length; exact Q1).
    destruct (reg_aregs g (map sg rs) (op_regs o) HB' Q1') as (kk & EK).
    pose proof (aregs_place sg g rs _ _ EK) as EKK. subst kk.
    assert (EV : map (gval g) (map sg ks) = map (value t) ks).
    { rewrite map_map. apply map_ext_in. intros i Hi. rewrite Forall_forall in HBK. apply (ln_val _ _ _ _ L i). auto. }
    assert (HN' : Forall (has_node g (map sg rs)) (op_regs o)).
    { eapply Forall_impl; [|exact Q1']. cbv beta. intros j Hj. destruct (lt_nth_error _ _ Hj) as [j2 E2].
      exists j2. unfold areg. rewrite E2. rewrite Forall_forall in HB'. pose proof (HB' j2 (nth_error_In _ _ E2)) as Hk. cbv beta in Hk.
      replace (Nat.ltb j2 (gsize g)) with true by lia. reflexivity. }
    destruct (sound_accept g (map sg rs) o HG HN' Q2 Q3) as [A1 A2].
    pose proof (step_lines sg g (map sg rs) o ks EK Q2 Q3 (fun ks' g' E => sound_total HJ g' (A2 ks' g' E))) as ST.
    rewrite EV in ST. destruct (step o ks (map (value t) ks)) as [ls| |] eqn:ES; cbn [step_is] in ST.
    + destruct ST as (g1' & EX & SZ & FL).
      pose proof (cost_pos k (rs ++ seq (length t) (length ls)) (t ++ ls)) as CP.
      destruct (op_go_exact HC s g (map sg rs) o (map sg ks) R0 HG HB' Q2 Q3 Q1' ltac:(rewrite EX; discriminate) EK HP)
        as (ks1 & s1 & g1 & E & EX1 & R1 & G1 & GR & B1 & L1 & T1 & P1).
      { rewrite EV. lia. }
      rewrite EX in EX1. injection EX1 as <- <-. rewrite EV in T1.
      pose proof (lined_grow ke b g g1' t ls L (r_wf _ _ R0) GR SZ FL) as L'.
      assert (ERS : map sg rs ++ seq (gsize g) (length ls) = map sg (rs ++ seq (length t) (length ls))).
      { rewrite map_app. f_equal. unfold sg. pose proof (ln_len _ _ _ _ L). pose proof (ln_b _ _ _ _ L). rewrite place_seq by lia. f_equal. lia. }
      assert (HBR : Forall (fun r => r < length (t ++ ls)) (rs ++ seq (length t) (length ls))).
      { rewrite app_length. apply Forall_app. split; [eapply Forall_impl; [|exact HB]; cbv beta; lia|]. apply Forall_forall. intros j Hj. apply in_seq in Hj. lia. }
      destruct HAP as (HA1 & HA2 & HA3). specialize (BO (conj HA1 HA2)). rewrite E in BO. unfold mbind. rewrite E. cbn [bind].
      destruct (exec_op (map hd (map sg rs)) o s0) as [[hs s01]| | |]; cbn [both] in BO; try tauto. destruct BO as [E0 G0]. cbn [fst snd] in E0, G0. subst hs.
      cbn [bind]. rewrite <- map_app, ERS. apply (IH s01 s1 g1' _ _ G0 R1 G1 L' HBR Q4 HA3 ltac:(lia) ltac:(lia)).
    + destruct (graph_words g (map sg rs) o (map sg ks) _ _ (r_wf _ _ R0) EK ST) as (T1 & _ & T2).
      destruct (op_go_exact HC s g (map sg rs) o (map sg ks) R0 HG HB' Q2 Q3 Q1' ltac:(rewrite ST; discriminate) EK HP ltac:(pose proof (cost_pos k (rs ++ ks) t); lia))
        as (ks1 & s1 & g1 & E & EX1 & R1 & G1 & GR & B1 & L1 & T3 & P1).
      rewrite ST in EX1. injection EX1 as <- <-.
      assert (HBR : Forall (fun r => r < length t) (rs ++ ks)) by (apply Forall_app; auto).
      specialize (BO Logic.I). rewrite E in BO. unfold mbind. rewrite E. cbn [bind].
      destruct (exec_op (map hd (map sg rs)) o s0) as [[hs s01]| | |]; cbn [both] in BO; try tauto. destruct BO as [E0 G0]. cbn [fst snd] in E0, G0. subst hs.
      cbn [bind]. rewrite <- !map_app. apply (IH s01 s1 g _ _ G0 R1 G1 L HBR Q4 HAP HP HT).
    + pose proof (exec_op_ok HC s g (map sg rs) o R0) as HX. rewrite ST in HX. cbn [performsL] in HX.
      specialize (BO Logic.I). rewrite HX in BO. unfold mbind. rewrite HX. destruct (exec_op (map hd (map sg rs)) o s0) as [[hs s01]| | |]; cbn [both] in BO; try tauto.
  - destruct HQ as (Ha & Hb & HQ). destruct (lt_nth_error _ _ Ha) as [ia Ea]. destruct (lt_nth_error _ _ Hb) as [ib Eb].
    rewrite (nth_error_nth _ _ 0 Ea), (nth_error_nth _ _ 0 Eb) in *.
    rewrite Forall_forall in HB. pose proof (HB ia (nth_error_In _ _ Ea)) as Hia. pose proof (HB ib (nth_error_In _ _ Eb)) as Hib.
    rewrite <- Forall_forall in HB. cbv beta in Hia, Hib.
    assert (Xia : var_val s (hd (sg ia)) = Ok (gval g (sg ia))) by (apply (rel_var_val s g R0); eapply place_lt; eauto).
    specialize (IH _ s0 s g rs t HAG R0 HG L HB HQ HAP HP HT).
    assert (Xib : var_val s (hd (sg ib)) = Ok (gval g (sg ib))) by (apply (rel_var_val s g R0); eapply place_lt; eauto).
    assert (EC : forall s', var_val s' (hd (sg ia)) = var_val s (hd (sg ia)) -> var_val s' (hd (sg ib)) = var_val s (hd (sg ib)) -> call_fn (k (written q (value t ia) (value t ib))) (map hd (map sg rs)) s' =
      mbind (reg (map hd (map sg rs)) a) (fun x => mbind (reg (map hd (map sg rs)) c) (fun y => mbind (rel_vv q x y) (fun b0 => call_fn (k b0) (map hd (map sg rs))))) s').
    { intros s' V1 V2. symmetry. unfold mbind, rel_vv. unfold reg at 1. rewrite !nth_error_map, Ea. cbn [option_map]. unfold mret at 1. cbn [bind].
      unfold reg at 1. rewrite !nth_error_map, Eb. cbn [option_map]. unfold mret at 1. cbn [bind]. unfold mbind, vval, mget.
      rewrite V1, Xia. cbn [bind].
      rewrite V2, Xib. unfold mret. cbn [bind].
      rewrite test_frel. rewrite <- (ln_val _ _ _ _ L ia Hia), <- (ln_val _ _ _ _ L ib Hib). reflexivity. }
    rewrite <- !EC; auto; apply (steady_val _ _ _ _ HAG).
  - destruct HQ as (Ha & HQ). destruct (lt_nth_error _ _ Ha) as [ia Ea].
    rewrite (nth_error_nth _ _ 0 Ea) in *.
    rewrite Forall_forall in HB. pose proof (HB ia (nth_error_In _ _ Ea)) as Hia.
    rewrite <- Forall_forall in HB. cbv beta in Hia.
    assert (Xia : var_val s (hd (sg ia)) = Ok (gval g (sg ia))) by (apply (rel_var_val s g R0); eapply place_lt; eauto).
    specialize (IH _ s0 s g rs t HAG R0 HG L HB HQ HAP HP HT).
    assert (EC : forall s', var_val s' (hd (sg ia)) = var_val s (hd (sg ia)) -> call_fn (k (written q (value t ia) d)) (map hd (map sg rs)) s' =
      mbind (reg (map hd (map sg rs)) a) (fun x => mbind (rel_vd q x d) (fun b0 => call_fn (k b0) (map hd (map sg rs)))) s').
    { intros s' V1. symmetry. unfold mbind, rel_vd. unfold reg at 1. rewrite !nth_error_map, Ea. cbn [option_map]. unfold mret at 1. cbn [bind]. unfold mbind, vval, mget.
      rewrite V1, Xia. unfold mret. cbn [bind].
      rewrite test_frel. rewrite <- (ln_val _ _ _ _ L ia Hia). reflexivity. }
    rewrite <- !EC; auto; apply (steady_val _ _ _ _ HAG).
Qed.

Lemma apart_declare (P : nat -> bool) n (xs : list F) (f : fn) : forall (ws : list F), n <= length ws ->
  (forall i, i < length xs -> P (length ws - n + i) = true) -> apart P n f (seq 0 (length ws + length xs)) (map given (ws ++ xs)) ->
  apart P n (declare xs f) (seq 0 (length ws)) (map given ws).
Proof.
  induction xs as [|x xs IH]; intros ws LE HP HA; cbn [declare apart].
  - rewrite app_nil_r in HA. cbn [length] in HA. rewrite Nat.add_0_r in HA. exact HA.
  - cbn [op_regs lines_at map step fresh is_matmul nth]. rewrite map_length. split.
    { intros _. specialize (HP 0 ltac:(cbn [length]; lia)). rewrite Nat.add_0_r in HP. exact HP. }
    split; [discriminate|]. specialize (IH (ws ++ x :: nil)).
    assert (E1 : seq 0 (length ws) ++ seq (length ws) (length (given x :: nil)) = seq 0 (length (ws ++ x :: nil))) by (rewrite app_length, seq_app; reflexivity).
    assert (E2 : map given ws ++ given x :: nil = map given (ws ++ x :: nil)) by (rewrite map_app; reflexivity).
    rewrite E1, E2. apply IH; rewrite ?app_length; cbn [length].
    + lia.
    + intros i Hi. replace (length ws + 1 - n + i) with (length ws - n + (1 + i)) by lia. apply HP. cbn [length]. lia.
    + rewrite <- app_assoc. cbn [app]. replace (length ws + 1 + length xs) with (length ws + S (length xs)) by lia. exact HA.
Qed.

(* gradient and jacobian: a function called in a block, and what is done with its results *)
Definition block {A} (xs : list F) (f : list Z -> M (list Z)) (then_ : list Z -> list Z -> M A) : M A :=
  mbind begin_nested (fun _ => mbind (new_var_vals xs) (fun xv => mbind (f xv) (fun hs =>
  mbind (then_ xv hs) (fun a => mbind end_nested (fun _ => mret a))))).

Lemma block_transfer {A} P s t g env (ws xs : list F) (f : fn) (then_ : list Z -> list Z -> M A) : practical ->
  agree (slots (gsize g) P) s t -> Rel t g -> sound g -> (s_lvl t < 10)%Z ->
  Forall (alive t) env -> mapM (var_val t) env = Ok ws ->
  let t0 := map given (ws ++ xs) in let rs := seq 0 (length ws + length xs) in
  well_formed f rs t0 -> apart P (length ws) f rs t0 -> (forall i, i < length xs -> P i = true) ->
  (g_peak g <= cap)%Z -> (g_top g + (6 * zlen xs + cost f rs t0) <= cap)%Z -> (forall xv hs, steadyh (then_ xv hs)) ->
  both (pairs (slots (gsize g) P)) (block xs (fun xv => call_fn f (env ++ xv)) then_ s) (block xs (fun xv => call_fn f (env ++ xv)) then_ t).
Proof.
  intros HP HAG R0 HG HL HA HW t0 rs HF HAP HPX P1 P2 HT. pose proof HP as [HC HJ].
  destruct (block_lines t g env ws xs f HP R0 HG HL HA HW HF P1 P2) as (t1 & xv & t2 & E1 & E2 & K). fold t0 rs in K.
  (* the block *)
  destruct (abegin g) as [g1|] eqn:AB.
  2:{ unfold abegin in AB. rewrite (r_lvl _ _ R0) in HL. unfold zlen in HL. destruct (Nat.ltb_spec (length (g_nest g)) 10); [discriminate|lia]. }
  destruct (begin_ok t g g1 R0 AB) as (t1' & EB & R1). assert (t1' = t1) by congruence. subst t1'. clear EB.
  destruct (sound_begin g g1 HG AB) as (G1 & SZ & VV & AV & NE).
  assert (TP : g_top g1 = g_top g /\ g_peak g1 = g_peak g).
  { unfold abegin in AB. destruct (Nat.ltb _ _); [|discriminate]. injection AB as <-. split; reflexivity. }
  destruct TP as [TP PK].
  destruct (both_ok begin_nested _ s t (steady_begin _ s t HAG)) as [(a & s1 & t1' & ES1 & ET1 & AG1)|[(_ & E)|[(u & _ & E)|(_ & E)]]]; try congruence.
  assert (t1' = t1) by congruence. subst t1'. destruct a. unfold block. rewrite (mbind_ok _ _ _ _ _ ES1), (mbind_ok _ _ _ _ _ ET1).
  (* the arguments *)
  assert (HH : s_head s1 = hd (gsize g)) by (rewrite <- (ag_head _ _ _ AG1), (r_head _ _ R1), SZ; reflexivity).
  assert (BL : both (pairs (slots (gsize g) P)) (new_var_vals xs s1) (new_var_vals xs t1)).
  { apply steady_leaves; auto. intros i Hi. rewrite HH. replace (hd (gsize g) + i)%Z with (hd (gsize g + Z.to_nat i)) by (unfold hd; lia).
    rewrite slots_at by lia. apply HPX. unfold zlen in Hi. lia. }
  destruct (both_ok _ _ s1 t1 BL) as [(xv' & s2 & t2' & ES2 & ET2 & AG2)|[(_ & E)|[(u & _ & E)|(_ & E)]]]; try congruence.
  assert (t2' = t2 /\ xv' = xv) by (split; congruence). destruct H as [-> ->]. rewrite (mbind_ok _ _ _ _ _ ES2), (mbind_ok _ _ _ _ _ ET2).
  (* the function *)
  assert (BC : both (pairs (slots (gsize g) P)) (call_fn f (env ++ xv) s2) (call_fn f (env ++ xv) t2)).
  { destruct (live_env t g env R0 HA) as (ke & -> & HB).
    rewrite (live_env_vals t g ke R0 HB) in HW. assert (EW : ws = map (gval g) ke) by congruence.
    assert (LW : length ke = length ws) by (rewrite EW; symmetry; apply map_length).
    assert (HB1 : Forall (fun k => k < gsize g1) ke) by (rewrite SZ; exact HB).
    assert (EW1 : map (gval g1) ke = ws) by (rewrite EW; apply map_ext; intros; apply VV).
    pose proof (given_lines ke (gsize g1) g1 ws eq_refl HB1 EW1) as L1.
    destruct (declare_lines xs f ws) as (D1 & D2 & D3). fold t0 rs in D1, D2, D3.
    assert (RS : map (place ke (gsize g)) (seq 0 (length ws)) = ke).
    { rewrite <- LW. apply nth_ext with (d := 0) (d' := 0); [rewrite map_length, seq_length; reflexivity|]. intros i Hi. rewrite map_length, seq_length in Hi.
      rewrite (nth_map_in _ _ i 0 0) by (rewrite seq_length; auto). rewrite seq_nth by auto. unfold place. cbn [Nat.add].
      replace (i <? length ke) with true by lia. reflexivity. }
    assert (BR : Forall (fun r => r < length (map given ws)) (seq 0 (length ws))).
    { rewrite map_length. apply Forall_forall. intros j Hj. apply in_seq in Hj. lia. }
    assert (APD : apart P (length ke) (declare xs f) (seq 0 (length ws)) (map given ws)).
    { rewrite LW. apply apart_declare; auto. intros i Hi. replace (length ws - length ws + i) with i by lia. auto. }
    rewrite SZ in L1.
    pose proof (call_steady HC HJ ke (gsize g) P (declare xs f) s1 t1 g1 _ _ AG1 R1 G1 L1 BR (proj2 D2 HF) APD ltac:(lia) ltac:(lia)) as Q.
    rewrite RS, !call_declare, (mbind_ok _ _ _ _ _ ES2), (mbind_ok _ _ _ _ _ ET2) in Q. exact Q. }
  destruct (trace f rs t0) as [[ys tl]|] eqn:ER.
  2:{ unfold mbind. rewrite K in BC |- *. destruct (call_fn f (env ++ xv) s2); cbn [both] in BC; try tauto. }
  destruct K as (ke & b & t3 & g3 & r & E3 & R3 & G3 & L3 & LK & EXV & BY & LT & HZ & NE3 & T3 & P3 & Eb & Er & EL & GD & RE & _).
  destruct (both_ok _ _ s2 t2 BC) as [(hs & s3 & t3' & ES3 & ET3 & AG3)|[(_ & E)|[(u & _ & E)|(_ & E)]]]; try congruence.
  assert (t3' = t3) by congruence. subst t3'. rewrite (mbind_ok _ _ _ _ _ ES3), (mbind_ok _ _ _ _ _ ET3).
  assert (NV : (s_nv s3 (s_lvl s3) <= s_head s3)%Z).
  { rewrite <- (ag_nv _ _ _ AG3), <- (ag_lvl _ _ _ AG3), <- (ag_head _ _ _ AG3), (r_lvl _ _ R3), (r_head _ _ R3).
    pose proof (r_nest _ _ R3) as NA. rewrite NE3 in NA |- *. cbn [nest_at] in NA. destruct NA as (NA & _). rewrite NA. cbn [mk_n].
    pose proof (ln_b _ _ _ _ L3). lia. }
  (* what follows *)
  apply (bind_at (fun s4 => still s3 s4)); [apply HT; exact AG3|]. intros x s4 t4 AG4 (S1 & S2 & S3).
  apply (bind_at (fun _ => True)).
  - eapply both_weak; [apply steady_end; [exact AG4|rewrite S1, S2, S3; exact NV]|]. intros y z Q. split; auto.
  - intros y s5 t5 AG5 _. apply steady_ret. exact AG5.
Qed.

(* ---- the state without the stale pointers ---- *)
Definition wipe (q : Z -> bool) (s : st) : st :=
  set_varis s (s_n s) (fun j => if ((s_head s <=? j)%Z && negb (q j))%bool then {| v_i := v_i (s_varis s j); v_chain := ChDummy |} else s_varis s j).
Definition gwipe (q : Z -> bool) (g : graph) : graph :=
  {| g_nodes := g_nodes g; g_adj := g_adj g; g_arrs := g_arrs g;
     g_ch := fun k => if ((gsize g <=? k) && negb (q (hd k)))%bool then ChDummy else g_ch g k;
     g_nest := g_nest g; g_top := g_top g; g_peak := g_peak g |}.

Lemma agree_wipe q s t : agree q s t -> agree q s (wipe q t).
Proof.
  intros H. pose proof H as [h1 h2 h3 h4 h5 h6 h7 h8 h9]. constructor; cbn [wipe set_varis s_head s_n s_tape s_lvl s_nv s_nt s_varis]; auto.
  - intros j. destruct (_ && _)%bool; cbn [v_i]; auto.
  - intros j Hj. replace ((s_head t <=? j)%Z && negb (q j))%bool with false; [auto|]. symmetry. rewrite h1. destruct Hj as [-> | Hj]; [apply andb_false_r|].
    replace (s_head s <=? j)%Z with false by lia. reflexivity.
Qed.

Lemma rel_wipe q s g : Rel s g -> Rel (wipe q s) (gwipe q g).
Proof.
  intros H. pose proof (r_head _ _ H) as HH. destruct H as [h1 h2 h3 h4 h5 h6 h7 h8 h9 h10 h11 h12 h13 h14].
  assert (W : gwf (gwipe q g)) by (destruct h1; constructor; assumption).
  constructor; auto; cbn [wipe set_varis s_head s_n s_tape s_lvl s_nv s_nt s_varis].
  - intros k Hk. destruct (_ && _)%bool; cbn [v_i]; apply h4; exact Hk.
  - intros k Hk. cbn [gwipe g_ch]. fold (hd k). rewrite HH. replace ((Z.of_nat (gsize g) + 1 <=? hd k)%Z) with (gsize g <=? k) by (unfold hd; lia).
    destruct (_ && _)%bool; cbn [v_chain]; auto. apply h5. exact Hk.
  - intros k Hk. cbn [gwipe g_ch]. destruct (_ && _)%bool; auto.
  - eapply nest_at_ext; [| |exact h14]; reflexivity.
Qed.

Lemma sound_wipe q s t g : agree q s t -> Rel t g -> (forall k, k < gsize g -> fits g k = true) -> sound (gwipe q g).
Proof.
  intros H R0 HF. constructor; cbn [unnest gwipe g_ch g_nest].
  - intros k Hk. change (gsize (unnest (gwipe q g))) with (gsize g) in Hk. rewrite <- (HF k Hk). unfold fits. cbn [unnest gwipe g_ch g_nodes g_arrs].
    replace (gsize g <=? k) with false by lia. reflexivity.
  - intros k Hk. change (gsize g <= k) in Hk. replace (gsize g <=? k) with true by lia. destruct (q (hd k)) eqn:EQ; cbn [andb negb]; [|reflexivity].
    destruct (Z.le_gt_cases (hd k) (s_n t)) as [Q|Q].
    + rewrite <- (r_ch _ _ R0 k Q). fold (hd k). rewrite (ag_ch _ _ _ H) by auto. apply (ag_p _ _ _ H); auto. rewrite <- (ag_n _ _ _ H). unfold hd in *. lia.
    + rewrite (r_ch0 _ _ R0 k Q). reflexivity.
  - intros m [].
Qed.

Lemma agree_self q s g : Rel s g -> sound g -> (forall k, k < gsize g -> q (hd k) = false) -> agree q s s.
Proof.
  intros R0 HG HQ. constructor; auto. intros j Hj Hn. pose proof (r_ch _ _ R0 (Z.to_nat (j - 1))) as Q.
  replace (Z.of_nat (Z.to_nat (j - 1)) + 1)%Z with j in Q by lia. rewrite Q by lia.
  destruct (Nat.lt_ge_cases (Z.to_nat (j - 1)) (gsize g)) as [L|L]; [|apply (gd_stale _ HG); exact L].
  specialize (HQ _ L). unfold hd in HQ. replace (Z.of_nat (Z.to_nat (j - 1)) + 1)%Z with j in HQ by lia. congruence.
Qed.

Lemma agree_node q s t h : agree q s t -> alive s h -> var_val t h = var_val s h /\ var_adj t h = var_adj s h /\ vget t h = vget s h.
Proof.
  intros H Hh. split; [symmetry; apply (steady_val h q s t H)|]. split; [symmetry; apply (steady_adj h q s t H)|].
  unfold vget. rewrite (ag_n _ _ _ H). destruct (_ && _)%bool; auto. f_equal.
  pose proof (ag_i _ _ _ H h) as E1. pose proof (ag_ch _ _ _ H h ltac:(right; unfold alive in Hh; lia)) as E2.
  destruct (s_varis t h) as [i1 c1], (s_varis s h) as [i2 c2]. cbn [v_i v_chain] in *. congruence.
Qed.

Lemma agree_undisturbed q s t s' t' : agree q s t -> agree q s' t' -> undisturbed t t' -> undisturbed s s'.
Proof.
  intros H H' (A1 & A2 & A3 & A4).
  rewrite (ag_head _ _ _ H), (ag_head _ _ _ H') in A1. rewrite (ag_lvl _ _ _ H), (ag_lvl _ _ _ H') in A2. rewrite (ag_tape _ _ _ H), (ag_tape _ _ _ H') in A3.
  split; auto. split; auto. split; auto. intros h Hh.
  assert (Hh' : alive s' h) by (unfold alive in *; rewrite A1; exact Hh).
  destruct (A4 h) as [V (O1 & O2 & O3)]; [unfold alive in *; rewrite (ag_head _ _ _ H); exact Hh|].
  destruct (agree_node q s t h H Hh) as (N1 & N2 & N3). destruct (agree_node q s' t' h H' Hh') as (M1 & M2 & M3).
  unfold same_val, same_op in *. split; [congruence|].
  assert (OP : forall s t, agree q s t -> vget t h = vget s h -> var_operands t h = var_operands s h /\ var_data t h = var_data s h).
  { clear. intros s t H E. unfold var_operands, var_data. rewrite E, (ag_tape _ _ _ H). auto. }
  destruct (OP _ _ H N3) as [P1 P2]. destruct (OP _ _ H' M3) as [P3 P4]. split; [congruence|]. split; congruence.
Qed.

(* ---- gradient and jacobian ---- *)
Definition grad_then (i : nat) (xv hs : list Z) : M (list F) :=
  mbind (reg hs i) (fun h => mbind (vval h) (fun v => mbind (grad h) (fun _ => mbind (vadjs xv) (fun d => mret (v :: d))))).
Definition jac_then (xv hs : list Z) : M (list (list F)) :=
  mbind (vvals hs) (fun vs => mbind (mmap (jac_row xv) hs) (fun gs => mret (map (fun p => fst p :: snd p) (combine vs gs)))).

Lemma bind_ext {A B} (m : M A) (k k' : A -> M B) s : (forall a s', k a s' = k' a s') -> mbind m k s = mbind m k' s.
Proof. intros H. unfold mbind. destruct (m s) as [[a s']| | |]; cbn [bind]; auto. Qed.
Lemma gradient_block i f env (xs : list F) s : gradient (component i f env) xs s = block xs (fun xv => call_fn f (env ++ xv)) (grad_then i) s.
Proof.
  unfold gradient, block, component, grad_then. apply bind_ext. intros _ s1. apply bind_ext. intros xv s2.
  rewrite bind_bind. apply bind_ext. intros hs s3. rewrite bind_bind. apply bind_ext. intros h s4. rewrite bind_bind. apply bind_ext. intros v s5.
  rewrite bind_bind. apply bind_ext. intros u s6. rewrite bind_bind. apply bind_ext. intros d s7. reflexivity.
Qed.
Lemma jacobian_block f env (xs : list F) s : jacobian (fun xv => call_fn f (env ++ xv)) xs s = block xs (fun xv => call_fn f (env ++ xv)) jac_then s.
Proof.
  unfold jacobian, block, jac_then. apply bind_ext. intros _ s1. apply bind_ext. intros xv s2. apply bind_ext. intros hs s3.
  rewrite bind_bind. apply bind_ext. intros vs s4. rewrite bind_bind. apply bind_ext. intros gs s5. reflexivity.
Qed.
Lemma grad_then_steady i xv hs : steadyh (grad_then i xv hs).
Proof.
  unfold grad_then. apply steadyh_bind; [apply steadyh_reg|]. intros h. apply steadyh_bind; [apply steadyh_get, steady_val|]. intros v.
  apply steadyh_bind; [apply steadyh_grad|]. intros _. apply steadyh_bind; [apply steadyh_get, steady_mapM; intros; apply steady_adj|]. intros d. apply steadyh_ret.
Qed.
Lemma jac_then_steady xv hs : steadyh (jac_then xv hs).
Proof.
  unfold jac_then. apply steadyh_bind; [apply steadyh_get, steady_mapM; intros; apply steady_val|]. intros vs.
  apply steadyh_bind; [apply steadyh_mmap; intros h; apply steadyh_row|]. intros gs. apply steadyh_ret.
Qed.

(* the next state like s' in which nothing stale is left *)
Lemma left_like P g0 t g env (f : fn) w s' t' : agree (slots (gsize g0) P) s' t' -> Rel t g -> sound g -> same_graph g0 g ->
  left_by t g env f w t' -> (g_peak g <= cap)%Z -> (g_top g0 + w <= cap)%Z ->
  exists t'' g'' a, agree (slots (gsize g0) P) s' t'' /\ Rel t'' g'' /\ sound g'' /\ same_graph g0 g'' /\ (g_peak g'' <= cap)%Z /\ Rel t' a /\ g_adj a = g_adj g''.
Proof.
  intros HAG R0 HG (Q1 & Q2 & Q3 & Q4 & Q5) (g' & R' & EN & (EAR & ECH) & ENE & ETP & EPK & _) M1 M2.
  assert (SZ : gsize g = gsize g0) by (unfold gsize; congruence). assert (SZ' : gsize g' = gsize g0) by (unfold gsize; congruence).
  assert (HF : forall k, k < gsize g' -> fits g' k = true).
  { intros k Hk. rewrite <- (gd_fit _ HG k ltac:(change (gsize (unnest g)) with (gsize g); lia)). unfold fits. cbn [unnest g_nodes g_arrs g_ch].
    rewrite EN, EAR, ECH by lia. reflexivity. }
  exists (wipe (slots (gsize g0) P) t'), (gwipe (slots (gsize g0) P) g'), g'.
  split; [apply agree_wipe; exact HAG|]. split; [apply rel_wipe; exact R'|]. split; [apply (sound_wipe _ s' t' g'); auto|]. split.
  - repeat split; cbn [gwipe g_nodes g_arrs g_ch g_nest g_top]; try congruence. intros k Hk. rewrite slots_old by lia.
    replace (gsize g' <=? k) with false by lia. cbn [andb]. rewrite ECH by lia. apply Q3. lia.
  - split; [cbn [gwipe g_peak]; lia|]. split; auto.
Qed.

Lemma ask_at P g0 s t g env (ws : list F) all (f : fn) xs : practical -> agree (slots (gsize g0) P) s t -> Rel t g -> sound g -> same_graph g0 g ->
  (s_lvl s < 10)%Z -> Forall (alive s) env -> mapM (var_val s) env = Ok ws ->
  let t0 := map given (ws ++ xs) in let rs := seq 0 (length ws + length xs) in let w := (6 * zlen xs + cost f rs t0)%Z in
  well_formed f rs t0 -> in_place P ws f xs -> (g_peak g <= cap)%Z -> (g_top g0 + w <= cap)%Z ->
  match trace f rs t0 with
  | None => ask all f xs env s = ErrStop
  | Some ([], _) => True
  | Some (y :: ys, tl) =>
      (exactly_full s w -> ask all f xs env s = Undef OutOfBounds) /\
      (~ exactly_full s w -> exists s' t' g', ask all f xs env s = Ok (answer tl (length ws) (length xs) (if all then y :: ys else y :: nil), s') /\
        agree (slots (gsize g0) P) s' t' /\ Rel t' g' /\ sound g' /\ same_graph g0 g' /\ undisturbed s s' /\ (g_peak g' <= cap)%Z /\
        storage (t_size (s_tape s)) (t_head (s_tape s) + w) (t_size (s_tape s')))
  end.
Proof.
  intros HP HAG R0 HG SG HL HA HW t0 rs w HF [IP1 IP2] P1 P2. fold t0 rs in IP2.
  pose proof SG as (Q1 & Q2 & Q3 & Q4 & Q5). assert (SZ : gsize g = gsize g0) by (unfold gsize; congruence).
  assert (HA' : Forall (alive t) env) by (eapply Forall_impl; [|exact HA]; intros h; unfold alive; rewrite (ag_head _ _ _ HAG); auto).
  assert (HW' : mapM (var_val t) env = Ok ws) by (rewrite <- HW; symmetry; exact (steady_mapM var_val env (fun h => steady_val h) _ s t HAG)).
  assert (HL' : (s_lvl t < 10)%Z) by (rewrite (ag_lvl _ _ _ HAG); exact HL).
  assert (EF : exactly_full t w <-> exactly_full s w) by (unfold exactly_full; rewrite (ag_tape _ _ _ HAG); tauto).
  assert (P2' : (g_top g + w <= cap)%Z) by lia.
  pose proof (gradient_lines_at t g env ws xs f HP R0 HG HL' HA' HW' HF P1 P2') as G1. fold t0 rs w in G1.
  pose proof (jacobian_lines_at t g env ws xs f HP R0 HG HL' HA' HW' HF P1 P2') as G2. fold t0 rs w in G2.
  assert (HAG' : agree (slots (gsize g) P) s t) by (rewrite SZ; exact HAG).
  assert (B : both (pairs (slots (gsize g0) P)) (ask all f xs env s) (ask all f xs env t)).
  { rewrite <- SZ. unfold ask. destruct all.
    - rewrite !jacobian_block. apply (block_transfer P s t g env ws xs f jac_then HP HAG' R0 HG HL' HA' HW' HF IP2 IP1 P1 P2' jac_then_steady).
    - apply (bind_at (fun _ => True)); [|intros r s' t' G _; apply steady_ret; exact G].
      change (fun xv => call_fn1 f (env ++ xv)) with (component 0 f env). rewrite !gradient_block.
      eapply both_weak; [apply (block_transfer P s t g env ws xs f (grad_then 0) HP HAG' R0 HG HL' HA' HW' HF IP2 IP1 P1 P2' (grad_then_steady 0))|]. intros x y Q. split; auto. }
  assert (OK : forall r t1, ask all f xs env t = Ok (r, t1) -> left_by t g env f w t1 ->
    exists s' t' g', ask all f xs env s = Ok (r, s') /\ agree (slots (gsize g0) P) s' t' /\ Rel t' g' /\ sound g' /\ same_graph g0 g' /\ undisturbed s s' /\ (g_peak g' <= cap)%Z /\
        storage (t_size (s_tape s)) (t_head (s_tape s) + w) (t_size (s_tape s'))).
  { intros r t1 E LB. rewrite E in B. destruct (ask all f xs env s) as [[r' s']| | |]; cbn [both] in B; try contradiction. destruct B as [Er AG1]. cbn [fst snd] in Er, AG1. subst r'.
    destruct (left_like P g0 t g env f w s' t1 AG1 R0 HG SG LB P1 P2) as (t' & g' & a & V1 & V2 & V3 & V4 & V5 & _).
    exists s', t', g'. split; auto. split; auto. split; auto. split; auto. split; auto.
    split; [eapply agree_undisturbed; [exact HAG|exact AG1|eapply left_undisturbed; eauto]|]. split; auto.
    destruct LB as (g1 & _ & _ & _ & _ & _ & _ & _ & ST & _). rewrite (ag_tape _ _ _ HAG), (ag_tape _ _ _ AG1) in ST. exact ST. }
  assert (BAD : forall u, ask all f xs env t = Undef u -> ask all f xs env s = Undef u).
  { intros u E. rewrite E in B. destruct (ask all f xs env s) as [[r' s']| | |]; cbn [both] in B; try contradiction. congruence. }
  unfold ask in OK, BAD, B |- *. destruct (trace f rs t0) as [[[|y ys] tl]|]; auto.
  - destruct G1 as [F1 A1]. destruct G2 as [F2 A2]. rewrite <- EF. split; intros HE.
    + apply BAD. destruct all; [auto|]. unfold mbind. rewrite (F1 HE). reflexivity.
    + destruct all.
      * destruct (A2 HE) as (s' & E & L). apply (OK _ s' E L).
      * destruct (A1 HE) as (s' & E & L). apply (OK _ s'); auto. unfold mbind. rewrite E. reflexivity.
  - destruct all.
    + rewrite G2 in B. destruct (jacobian _ xs s) as [[r' s']| | |]; cbn [both] in B; first [contradiction|reflexivity|discriminate B].
    + unfold mbind in B |- *. rewrite G1 in B. destruct (gradient _ xs s) as [[r' s']| | |]; cbn [bind both] in B |- *; first [contradiction|reflexivity|discriminate B].
Qed.

Lemma asks_on P limit env (ws : list F) head c size fin : practical -> ends_with (in_place P ws) ws head limit c size fin ->
  forall g0 s t g, agree (slots (gsize g0) P) s t -> Rel t g -> sound g -> same_graph g0 g -> (s_lvl s < 10)%Z ->
  Forall (alive s) env -> mapM (var_val s) env = Ok ws -> head = t_head (s_tape s) -> size = t_size (s_tape s) ->
  (g_peak g <= cap)%Z -> (g_top g0 + limit <= cap)%Z ->
  match fin with
  | Answered l => exists s', asks c env s = Ok (l, s') /\ undisturbed s s'
  | Stopped => asks c env s = ErrStop
  | Overrun => asks c env s = Undef OutOfBounds
  end.
Proof.
  intros HP HE. induction HE as [size|all f xs k size y ys tl size' fin t0 rs w HF NM HWL ER ST NF r HE IH
    |all f xs k size t0 rs w HF NM HWL ER|all f xs k size y ys tl t0 rs w HF NM HWL ER ST];
    intros g0 s t g AG R0 HG SG HL HA HW EH ES P1 P2.
  - exists s. cbn [asks]. split; [reflexivity|]. split; auto. split; auto. split; auto.
    intros h _. unfold same_val, same_op. auto.
  - pose proof (ask_at P g0 s t g env ws all f xs HP AG R0 HG SG HL HA HW HF NM P1) as Q. cbv zeta in Q. fold t0 rs w in Q.
    rewrite ER in Q. destruct (Q ltac:(lia)) as [_ Q']. clear Q. subst head size.
    destruct Q' as (s' & t' & g' & EA & AG' & R' & G' & SG' & U & EP & ST').
    { unfold exactly_full. intros X. apply NF. apply (storage_fun (proj1 HP) _ _ _ _ ST X). }
    destruct (undisturbed_env s s' env ws U HA HW) as [HA' HW'].
    assert (size' = t_size (s_tape s')) by (apply (storage_fun (proj1 HP) _ _ _ _ ST ST')). pose proof U as (_ & U2 & U3 & _).
    specialize (IH g0 s' t' g' AG' R' G' SG' ltac:(lia) HA' HW' ltac:(congruence) ltac:(auto) EP ltac:(lia)).
    assert (GO : forall X, asks (k r) env s' = X -> asks (Ask all f xs k) env s =
      match X with Ok (l, s2) => Ok (r :: l, s2) | ErrStop => ErrStop | Undef u => Undef u | OutOfFuel => OutOfFuel end).
    { intros X EX. cbn [asks]. rewrite (mbind_ok _ _ _ _ _ EA). fold r. unfold mbind. rewrite EX. destruct X as [[l s2]| | |]; reflexivity. }
    destruct fin as [l| |]; cbn [then_ends].
    + destruct IH as (s2 & E2 & U2'). exists s2. split; [rewrite (GO _ E2); reflexivity|]. eapply undisturbed_trans; eauto.
    + rewrite (GO _ IH). reflexivity.
    + rewrite (GO _ IH). reflexivity.
  - pose proof (ask_at P g0 s t g env ws all f xs HP AG R0 HG SG HL HA HW HF NM P1) as Q. cbv zeta in Q. fold t0 rs w in Q.
    rewrite ER in Q. specialize (Q ltac:(lia)). cbn [asks]. unfold mbind. rewrite Q. reflexivity.
  - pose proof (ask_at P g0 s t g env ws all f xs HP AG R0 HG SG HL HA HW HF NM P1) as Q. cbv zeta in Q. fold t0 rs w in Q.
    rewrite ER in Q. destruct (Q ltac:(lia)) as [Q' _]. cbn [asks]. unfold mbind. rewrite Q'; [reflexivity|]. subst head size. exact ST.
Qed.

Theorem session_end P limit e s env (ws : list F) c fin : practical -> reachable e s -> (s_lvl s < 10)%Z ->
  Forall (alive s) env -> mapM (var_val s) env = Ok ws -> (0 <= limit)%Z -> roomy s limit ->
  ends_with (in_place P ws) ws (t_head (s_tape s)) limit c (t_size (s_tape s)) fin ->
  match fin with
  | Answered l => exists s', asks c env s = Ok (l, s') /\ undisturbed s s'
  | Stopped => asks c env s = ErrStop
  | Overrun => asks c env s = Undef OutOfBounds
  end.
Proof.
  intros HP HR HL HA HW H0 HM HE. destruct (reach_snd e s HP HR) as (g & R0 & HG).
  destruct (roomy_peak s g limit R0 H0 HM) as [P1 P2].
  apply (asks_on P limit env ws _ c _ fin HP HE g s s g); auto; [|repeat split].
  apply (agree_self _ s g R0 HG). intros k Hk. apply slots_old. exact Hk.
Qed.

(* ---- every function is in place for some choice of places ---- *)
Lemma apart_ext P P' n f : forall rs t, n <= length t -> (forall k, length t - n <= k -> P k = P' k) -> apart P n f rs t -> apart P' n f rs t.
Proof.
  induction f as [ys|o k IH|q a b k IH|q a d k IH]; intros rs t LE HX H; cbn [apart] in *; auto.
  destruct (step o _ _) as [ls| |]; auto. destruct H as (H1 & H2 & H3). split; [intros E; rewrite <- HX by lia; auto|].
  split; [intros E i Hi; rewrite <- HX by lia; auto|]. apply IH; auto; rewrite app_length; [lia|]. intros j Hj. apply HX. lia.
Qed.
Lemma fresh_one o ks (vs : list F) ls : fresh o (nth 0 vs f0) = true -> step o ks vs = New ls -> 1 <= length ls /\ is_matmul o = false.
Proof.
  destruct o; cbn [fresh]; try discriminate; intros E H.
  - injection H as <-. cbn. auto.
  - injection H as <-. cbn. auto.
  - destruct u; try discriminate. cbn [step] in H. unfold abs_line in H. 
      repeat match type of H with context [if ?b then _ else _] => destruct b end; try discriminate; injection H as <-; cbn; auto.
Qed.
Lemma apart_some n f : forall rs t, n <= length t -> exists P, apart P n f rs t.
Proof.
  induction f as [ys|o k IH|q a b k IH|q a d k IH]; intros rs t LE; cbn [apart].
  - exists (fun _ => true). exact I.
  - destruct (step o _ _) as [ls| |] eqn:ES.
    + destruct (IH (rs ++ seq (length t) (length ls)) (t ++ ls)) as [P HP]; [rewrite app_length; lia|].
      exists (fun j => if j <? length t - n + length ls then negb (is_matmul o) else P j). split.
      { intros E. destruct (fresh_one _ _ _ _ E ES) as [L1 ->]. replace (_ <? _) with true by lia. reflexivity. }
      split; [intros -> i Hi; replace (_ <? _) with true by lia; reflexivity|].
      refine (apart_ext P _ n k _ _ _ _ HP); rewrite app_length; [lia|]. intros j Hj. replace (_ <? _) with false by lia. reflexivity.
    + apply IH. exact LE.
    + exists (fun _ => true). exact I.
  - apply IH. exact LE.
  - apply IH. exact LE.
Qed.
Lemma in_place_some (ws : list F) f xs : exists P, in_place P ws f xs.
Proof.
  assert (LE : length ws <= length (map (@given N) (ws ++ xs))) by (rewrite map_length, app_length; lia).
  destruct (apart_some (length ws) f (seq 0 (length ws + length xs)) (map given (ws ++ xs)) LE) as [P HP].
  exists (fun j => if j <? length xs then true else P j). split; [intros i Hi; replace (_ <? _) with true by lia; reflexivity|].
  refine (apart_ext P _ _ f _ _ LE _ HP). rewrite map_length, app_length. intros j Hj. replace (_ <? _) with false by lia. reflexivity.
Qed.
Lemma in_place_all (ws : list F) f xs : no_matmul f -> in_place (fun _ => true) ws f xs.
Proof.
  intros H. split; auto. generalize (seq 0 (length ws + length xs)) (map (@given N) (ws ++ xs)). revert H.
  induction f as [ys|o k IH|q a b k IH|q a d k IH]; intros H rs t; cbn [apart no_matmul] in *; auto.
  destruct H as [H1 H2]. destruct (step o _ _); auto. split; auto. split; [congruence|auto].
Qed.

(* ---- the rows of a jacobian and the gradients of its components ---- *)
Lemma step_rows P env (ws xs : list F) (f : fn) ys tr ke g1 g3 gJ : practical ->
  let t0 := map given (ws ++ xs) in let rs := seq 0 (length ws + length xs) in let w := (6 * zlen xs + cost f rs t0)%Z in
  well_formed f rs t0 -> in_place P ws f xs -> (g_top gJ + w <= cap)%Z ->
  trace f rs t0 = Some (ys, tr) ->
  sound gJ -> abegin gJ = Some g1 -> gwf g1 -> grows g1 g3 -> sound g3 -> lined ke (gsize gJ) g3 tr -> env = map hd ke ->
  length ws + length xs <= length tr ->
  let xv := map hd (map (place ke (gsize gJ)) (seq (length ws) (length xs))) in
  let row y := map (reverse tr (seed y)) (seq (length ws) (length xs)) in
  forall is yl, Forall2 (fun i y => nth_error ys i = Some y) is yl ->
  forall s t g sJ phi, agree (slots (gsize gJ) P) s t -> Rel t g -> sound g -> (s_lvl t < 10)%Z -> Forall (alive t) env -> mapM (var_val t) env = Ok ws ->
  (g_peak g <= cap)%Z -> ~ exactly_full t w ->
  same_graph gJ g -> Rel sJ (set_gadj g3 phi) -> (forall k, k < gsize gJ -> g_adj g k = phi k) ->
  exists sJ' phi' s' t' g', mmap (jac_row xv) (map hd (map (place ke (gsize gJ)) yl)) sJ = Ok (map row yl, sJ') /\ Rel sJ' (set_gadj g3 phi') /\
    mmap (fun i => gradient (component i f env) xs) is s = Ok (map (fun y => value tr y :: row y) yl, s') /\ agree (slots (gsize gJ) P) s' t' /\
    Rel t' g' /\ same_graph gJ g' /\ (forall k, k < gsize gJ -> g_adj g' k = phi' k).
Proof.
  intros HP t0 rs w HF [IP1 IP2] M2 ER SJ AJ WJ GJ S3 LJ EKE LT xv row is yl FA. fold t0 rs in IP2.
  induction FA as [|i y is yl Hi FA IH]; intros s t g sJ phi AG R0 HG HL HA HW M1 HE SG RJ HPHI; cbn [map mmap].
  - exists sJ, phi, s, t, g. do 6 (split; [first [assumption|reflexivity]|]). exact HPHI.
  - pose proof SG as (Q1 & Q2 & Q3 & Q4 & Q5). assert (SZ : gsize g = gsize gJ) by (unfold gsize; congruence).
    destruct (step_row t g env ws xs f ys tr y i ke g1 g3 sJ phi gJ HP R0 HG HL HA HW HF M1 ltac:(rewrite Q5; exact M2) HE ER Hi SG SJ AJ WJ GJ S3 LJ EKE LT RJ HPHI)
      as (sJ1 & phi1 & t1 & EJ & RJ1 & EG & LB & VA).
    fold t0 rs w xv in EJ, EG, LB. change (map (reverse tr (seed y)) (seq (length ws) (length xs))) with (row y) in EJ, EG.
    pose proof (left_undisturbed t g env f w t1 R0 LB) as U.
    destruct (undisturbed_env t t1 env ws U HA HW) as [HA' HW']. pose proof U as (_ & U2 & U3 & _).
    assert (AG' : agree (slots (gsize g) P) s t) by (rewrite SZ; exact AG).
    pose proof (block_transfer P s t g env ws xs f (grad_then i) HP AG' R0 HG HL HA HW HF IP2 IP1 M1 ltac:(fold t0 rs w; lia) (grad_then_steady i)) as B.
    rewrite <- !gradient_block in B. rewrite EG in B. destruct (gradient (component i f env) xs s) as [[r' s1]| | |] eqn:EGs; cbn [both] in B; try contradiction.
    destruct B as [Er AG1]. cbn [fst snd] in Er, AG1. subst r'. rewrite SZ in AG1.
    destruct (left_like P gJ t g env f w s1 t1 AG1 R0 HG SG LB M1 M2) as (t' & g' & a & V1 & V2 & V3 & V4 & V5 & V6 & V7).
    assert (ST : storage (t_size (s_tape t)) (t_head (s_tape t) + w) (t_size (s_tape t1))) by (destruct LB as (g2 & _ & _ & _ & _ & _ & _ & _ & ST & _); exact ST).
    assert (TP : s_tape t1 = s_tape t') by (rewrite (ag_tape _ _ _ AG1), (ag_tape _ _ _ V1); reflexivity).
    assert (HE1 : ~ exactly_full t' w).
    { unfold exactly_full in *. rewrite <- TP, U3. intros X. apply HE. clear HE.
      pose proof ST as [ST1 ST2]. assert (LE : (t_head (s_tape t) + w - 1 <= t_size (s_tape t1))%Z).
      { destruct (Z.le_gt_cases (t_head (s_tape t) + w - 1) (t_size (s_tape t))) as [A|A]; [rewrite (ST1 A); exact A|]. destruct (ST2 A) as (j & _ & B & _). exact B. }
      rewrite (proj1 X LE) in *. exact ST. }
    assert (HA2 : Forall (alive t') env) by (eapply Forall_impl; [|exact HA']; intros h; unfold alive; rewrite (ag_head _ _ _ V1), (ag_head _ _ _ AG1); auto).
    assert (HW2 : mapM (var_val t') env = Ok ws).
    { rewrite <- HW'. rewrite <- (steady_mapM var_val env (fun h => steady_val h) _ s1 t' V1). exact (steady_mapM var_val env (fun h => steady_val h) _ s1 t1 AG1). }
    assert (HL2 : (s_lvl t' < 10)%Z) by (rewrite (ag_lvl _ _ _ V1), <- (ag_lvl _ _ _ AG1); lia).
    assert (SZ1 : gsize a = gsize gJ).
    { destruct V4 as (W1 & _). assert (gsize g' = gsize gJ) by (unfold gsize; congruence).
      pose proof (r_head _ _ V6) as X1. pose proof (r_head _ _ V2) as X2. rewrite (ag_head _ _ _ AG1) in X1. rewrite (ag_head _ _ _ V1) in X2. lia. }
    destruct (IH s1 t' g' sJ1 phi1 V1 V2 V3 HL2 HA2 HW2 V5 HE1 V4 RJ1) as (sJ2 & phi2 & s2 & t2 & g2 & EJ2 & RJ2 & EG2 & AG2 & R2 & SG2 & VV2).
    { intros k Hk. pose proof (VA k Hk) as X. rewrite (rel_var_adj _ _ V6) in X by lia. injection X as X. rewrite <- V7. exact X. }
    exists sJ2, phi2, s2, t2, g2. split; [rewrite (mbind_ok _ _ _ _ _ EJ), (mbind_ok _ _ _ _ _ EJ2); reflexivity|]. split; auto.
    split; [rewrite (mbind_ok _ _ _ _ _ EGs), (mbind_ok _ _ _ _ _ EG2); reflexivity|]. split; auto.
Qed.

Theorem jacobian_components e s env (ws xs : list F) (f : fn) ys t : practical -> reachable e s -> (s_lvl s < 10)%Z ->
  Forall (alive s) env -> mapM (var_val s) env = Ok ws ->
  let t0 := map given (ws ++ xs) in let rs := seq 0 (length ws + length xs) in let w := (6 * zlen xs + cost f rs t0)%Z in
  well_formed f rs t0 -> roomy s w -> ~ exactly_full s w -> trace f rs t0 = Some (ys, t) -> ys <> [] ->
  exists l s' s'', jacobian (fun xv => call_fn f (env ++ xv)) xs s = Ok (l, s') /\
    mmap (fun i => gradient (component i f env) xs) (seq 0 (length ys)) s = Ok (l, s'') /\ length l = length ys /\
    s_head s'' = s_head s' /\ s_lvl s'' = s_lvl s' /\ t_head (s_tape s'') = t_head (s_tape s') /\
    forall h, alive s h -> same_val s' s'' h /\ same_adj s' s'' h.
Proof.
  intros HP HR HL HA HW t0 rs w HF HM HE ER HNE. pose proof HP as [HC HJ].
  destruct (reach_snd e s HP HR) as (g & R0 & HG).
  destruct (in_place_some ws f xs) as [P IP].
  assert (AG0 : agree (slots (gsize g) P) s s) by (apply (agree_self _ s g R0 HG); intros k Hk; apply slots_old; exact Hk).
  pose proof (cost_pos f rs t0) as W0. pose proof (zlen_nonneg xs) as W1.
  destruct (roomy_peak s g w R0 ltac:(unfold w; lia) HM) as [P1 P2].
  destruct (block_lines s g env ws xs f HP R0 HG HL HA HW HF P1 P2) as (s1 & xv & s2 & E1 & E2 & K). fold t0 rs in K. rewrite ER in K.
  destruct K as (ke & b & s3 & g3 & r & E3 & R3 & G3 & L3 & LK & EXV & BY & LT & HZ & NE & T3 & P3 & Eb & Er & EL & GD & RE & EKE & g1 & A1 & WG1 & GR).
  assert (R3' : Rel s3 (set_gadj g3 (g_adj g3))) by (destruct g3; exact R3).
  assert (FA : forall l k : list nat, Forall2 (fun i y => nth_error (l ++ k) i = Some y) (seq (length l) (length k)) k).
  { clear. intros l k. revert l. induction k as [|y k IH]; intros l; cbn [length seq]; constructor.
    - rewrite nth_error_app2, Nat.sub_diag by lia. reflexivity.
    - specialize (IH (l ++ y :: nil)). rewrite app_length in IH. cbn [length] in IH. rewrite Nat.add_1_r in IH. rewrite <- app_assoc in IH. exact IH. }
  specialize (FA nil ys). cbn [app length] in FA. subst b.
  assert (AD : forall k, k < gsize g -> g_adj g k = g_adj g3 k).
  { intros k Hk. destruct (sound_begin g g1 HG A1) as (_ & SZ1 & _ & AV1 & _). rewrite (gr_adj _ _ GR) by lia. symmetry. apply AV1. }
  destruct (step_rows P env ws xs f ys t ke g1 g3 g HP HF IP P2 ER HG A1 WG1 GR G3 L3 EKE LT _ _ FA s s g s3 (g_adj g3) AG0 R0 HG HL HA HW P1 HE ltac:(repeat split) R3' AD)
    as (s4 & a & s'' & t'' & g'' & EJ & R4 & EG & AG & R'' & SG & VA).
  assert (NZ : 0 < gsize g3).
  { destruct ys as [|y ys]; [congruence|]. pose proof (Forall_inv BY) as Hy. cbv beta in Hy. pose proof (place_lt ke (gsize g) g3 t y L3 Hy). lia. }
  destruct (filled HC s g s4 (set_gadj g3 a) _ R0 R4 T3 P3 NZ) as [_ FN].
  pose proof (live_vals s3 g3 _ R3 (lines_bound ke (gsize g) g3 t ys L3 BY)) as EV. rewrite (lines_vals ke (gsize g) g3 t ys L3 BY) in EV.
  destruct (end_fits s4 _ _ _ R4 NE (FN HE)) as (s5 & E5 & _).
  assert (LE : gsize g <= gsize g3) by (pose proof (ln_b _ _ _ _ L3); lia).
  pose proof (end_inv s4 _ _ _ s5 R4 NE E5) as R5.
  exists (map (fun y => value t y :: map (reverse t (seed y)) (seq (length ws) (length xs))) ys), s5, s''. split.
  { unfold jacobian. rewrite (mbind_ok _ _ _ _ _ E1), (mbind_ok _ _ _ _ _ E2), (mbind_ok _ _ _ _ _ E3), (mbind_ok _ _ _ _ _ EV).
    rewrite EXV. rewrite (mbind_ok _ _ _ _ _ EJ), (mbind_ok _ _ _ _ _ E5). unfold mret. do 2 f_equal.
    clear. induction ys as [|y ys IH]; [reflexivity|]. cbn [map combine fst snd]. f_equal. exact IH. }
  split; [exact EG|]. split; [apply map_length|].
  destruct SG as (Q1 & Q2 & Q3 & Q4 & Q5). assert (SZ'' : gsize g'' = gsize g) by (unfold gsize; congruence).
  assert (SZ5 : gsize (atrunc (mkMark (gsize g) (length (g_arrs g)) (g_top g)) r (set_gadj g3 a)) = gsize g).
  { unfold gsize at 1, atrunc. cbn [g_nodes mk_n set_gadj]. rewrite firstn_length. unfold gsize in *. lia. }
  split; [rewrite <- (ag_head _ _ _ AG), (r_head _ _ R''), (r_head _ _ R5), SZ'', SZ5; reflexivity|].
  split; [rewrite <- (ag_lvl _ _ _ AG), (r_lvl _ _ R''), (r_lvl _ _ R5), Q4, Er; reflexivity|].
  split; [rewrite <- (ag_tape _ _ _ AG), (r_thead _ _ R''), (r_thead _ _ R5), Q5; reflexivity|].
  intros h Hh. destruct (alive_node s g h R0 Hh) as (k & -> & Hk). unfold same_val, same_adj.
  rewrite (steady_val (hd k) _ s'' t'' AG), (steady_adj (hd k) _ s'' t'' AG).
  rewrite (rel_var_val _ _ R5), (rel_var_adj _ _ R5), (rel_var_val _ _ R''), (rel_var_adj _ _ R'') by lia.
  split; [|rewrite VA by lia; reflexivity]. f_equal. destruct EL as ((l & EL) & _). unfold gval, atrunc. cbn [g_nodes mk_n set_gadj]. rewrite nth_firstn by lia.
  rewrite Q1, EL, nth_error_app1 by exact Hk. reflexivity.
Qed.
End Again2.
