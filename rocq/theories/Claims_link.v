(* The lines of ReverseSpec in real arithmetic: their values are those of BranchSpec and
   the reverse pass gives the partial derivatives. *)
From Verif Require Import TapeFacts.
From Coq Require Import ZifyBool ZifyNat.
From Verif Require Import Claims_cvodes Claims_deriv Claims_idle.
From Verif Require Export Findings Claims_drive SmoothSpec.
Local Open Scope nat_scope.
Local Notation hd := Refine.hd.

Section Leaves.
Context {N : Num} {RL : RepLaws N} {C : Cfg N}.

(* a graph whose nodes have the values vs *)
Fixpoint leaf_graph (vs : list F) (g : graph) : graph :=
  match vs with [] => g | v :: r => leaf_graph r (a_new g v (BRec [] []) None) end.

Lemma leaf_graph_ok vs : forall g, sound g -> gwf g -> let g' := leaf_graph vs g in
  sound g' /\ gwf g' /\ gsize g' = gsize g + length vs /\ (forall i, i < gsize g -> gval g' i = gval g i) /\
  forall i, i < length vs -> gval g' (gsize g + i) = nth i vs f0.
Proof.
  induction vs as [|v vs IH]; intros g HG HW; cbn [leaf_graph length].
  - cbv zeta. split; auto. split; auto. split; [lia|]. split; auto. intros i Hi. lia.
  - assert (SZ : gsize (a_new g v (BRec [] []) None) = S (gsize g)).
    { unfold gsize. cbn [a_new g_nodes push_top]. rewrite app_length. cbn [length]. lia. }
    destruct (IH (a_new g v (BRec [] []) None) (sound_leaf g v HG)) as (A & B & D & E & G).
    { apply gwf_new; auto. constructor. }
    cbv zeta. split; auto. split; auto. split; [lia|]. rewrite SZ in *.
    assert (OLD : forall i, i < gsize g -> gval (a_new g v (BRec [] []) None) i = gval g i).
    { intros i Hi. unfold gval. cbn [a_new g_nodes push_top]. rewrite nth_error_app1 by exact Hi. reflexivity. }
    split; [intros i Hi; rewrite E by lia; apply OLD; exact Hi|].
    intros [|i] Hi; cbn [nth].
    + rewrite Nat.add_0_r, E by lia. unfold gval. cbn [a_new g_nodes push_top]. rewrite nth_error_app2 by (unfold gsize; lia).
      unfold gsize. rewrite Nat.sub_diag. reflexivity.
    + replace (gsize g + S i) with (S (gsize g) + i) by lia. apply G. lia.
Qed.
End Leaves.

Section Agree.
Context {N : Num} {RL : RepLaws N} {C : Cfg N}.

Lemma steadyh_zero_all : steadyh set_zero_all_adj.
Proof. apply steadyh_mput. intros p s t H. rewrite (ag_head _ _ _ H). apply fold_still. exact H. Qed.

Lemma gradient_agree p (s z : st) h zs ds : Steady.agree p s z -> gradient_is z h zs ds -> gradient_is s h zs ds.
Proof.
  intros H (z1 & z2 & E1 & E2 & E3). pose proof (steadyh_zero_all p s z H) as B1. rewrite E1 in B1.
  destruct (set_zero_all_adj s) as [[[] s1]| | |] eqn:F1; cbn [both] in B1; try contradiction. destruct B1 as [[_ A1] _]. cbn [snd] in A1.
  pose proof (steadyh_grad h p s1 z1 A1) as B2. rewrite E2 in B2.
  destruct (grad h s1) as [[[] s2]| | |] eqn:F2; cbn [both] in B2; try contradiction. destruct B2 as [[_ A2] _]. cbn [snd] in A2.
  exists s1, s2. split; auto. split; auto. rewrite <- E3. apply (steady_mapM (fun s a => var_adj s a) zs (fun a => steady_adj a) p s2 z2 A2).
Qed.

End Agree.

Section Link.
Context {lg : R -> R}.
Notation N := (RNum lg).

Lemma holds_written q (x y : R) : @written N q x y = holds q x y.
Proof. rewrite <- (@holds_rel lg). destruct q; reflexivity. Qed.

Lemma step_denote (t : list (@line N)) rs (o : @op N) : Forall (fun r => r < length t) rs -> Forall (fun r => r < length rs) (op_regs o) ->
  let ks := lines_at rs (op_regs o) in let xs : list R := map (value t) ks in
  op_dom o xs -> op_shape o -> neutral o = false ->
  match step o ks xs with
  | New ls => map l_value ls = denote o xs
  | Same => xs = denote o xs /\ words o xs = 0%Z
  | Stops => False
  end.
Proof.
  intros HB HR ks xs HD HS HN. pose (C := demo N).
  assert (HJ : exists j, @junk N C = Some j) by apply (demo_practical N).
  destruct (leaf_graph_ok (map l_value t) g_init) as (G1 & W1 & Z1 & _ & V1).
  { apply good_sound, good_init. }
  { apply (r_wf _ _ (rel_init (C := C))). }
  set (g := leaf_graph (map l_value t) g_init) in *. change (gsize g_init) with 0 in Z1, V1. rewrite map_length in Z1, V1. cbn [Nat.add] in Z1, V1.
  assert (VV : forall i, i < length t -> gval g i = value t i) by (intros i Hi; apply V1; exact Hi).
  assert (HB' : Forall (fun k => k < gsize g) rs) by (rewrite Z1; exact HB).
  destruct (reg_aregs g rs (op_regs o) HB' HR) as (kk & EK).
  assert (EKK : kk = ks).
  { pose proof (aregs_place (fun i => i) g rs (op_regs o) kk) as Q. rewrite map_id in Q. rewrite (Q EK), map_id. reflexivity. }
  subst kk.
  assert (HBK : Forall (fun r => r < length t) ks) by (apply lines_lt; auto).
  assert (EV : map (gval g) ks = xs).
  { apply map_ext_in. intros i Hi. rewrite Forall_forall in HBK. apply VV. auto. }
  assert (EA : at_regs (map (gval g) rs) (op_regs o) = xs).
  { rewrite <- EV. unfold at_regs, ks, lines_at. rewrite map_map. apply map_ext_in. intros r Hr. rewrite Forall_forall in HR.
    rewrite (nth_indep _ _ (gval g 0)) by (rewrite map_length; apply HR; exact Hr). apply map_nth. }
  assert (HN' : Forall (has_node g rs) (op_regs o)).
  { eapply Forall_impl; [|exact HR]. cbv beta. intros j Hj. destruct (lt_nth_error _ _ Hj) as [j2 E2].
    exists j2. unfold areg. rewrite E2. rewrite Forall_forall in HB'. pose proof (HB' j2 (nth_error_In _ _ E2)) as Hk. cbv beta in Hk.
    replace (Nat.ltb j2 (gsize g)) with true by lia. reflexivity. }
  destruct (sound_accept g rs o G1 HN' HS HN) as [A1 A2].
  assert (EK' : aregs g rs (op_regs o) = Some (map (fun i => i) ks)) by (rewrite map_id; exact EK).
  pose proof (step_lines (fun i => i) g rs o ks EK' HS HN (fun ks' g' E => sound_total HJ g' (A2 ks' g' E))) as ST.
  rewrite map_id, EV in ST.
  assert (HD' : op_dom o (at_regs (map (gval g) rs) (op_regs o))) by (rewrite EA; exact HD).
  destruct (step o ks xs) as [ls| |]; cbn [step_is] in ST.
  - destruct ST as (g' & EX & SZ & FL).
    pose proof (op_denote g g' rs o ks _ EK HB' HD' HS HN EX) as Q. rewrite EA in Q. rewrite Q.
    clear - FL. revert FL. generalize (gsize g). induction ls as [|l ls IH]; intros b FL; [reflexivity|].
    cbn [map length seq]. destruct (FL 0 l eq_refl) as [F1 _]. rewrite Nat.add_0_r in F1. rewrite F1. f_equal.
    apply IH. intros q ln E. replace (S b + q) with (b + S q) by lia. apply (FL (S q) ln). exact E.
  - rewrite map_id in ST. pose proof (op_denote g g rs o ks _ EK HB' HD' HS HN ST) as Q. rewrite EA in Q.
    split; [rewrite Q; symmetry; exact EV|].
    destruct (graph_words g rs o ks _ _ W1 EK ST) as (T & _ & _). rewrite EV in T. lia.
  - apply (in_dom_goes g rs o HR HD' ST).
Qed.

(* values, storage and registers agree with those of BranchSpec *)
Lemma trace_fval (f : @fn N) : forall rs (t : list (@line N)) (ws : list R), Forall (fun r => r < length t) rs -> map (value t) rs = ws ->
  fdom f ws -> fregs f ws -> well_formed f rs t /\ cost f rs t = fwords f ws /\
  exists ys t', trace f rs t = Some (ys, t') /\ map (value t') ys = fval f ws /\ Forall (fun y => y < length t') ys.
Proof.
  assert (NTH : forall (t : list (@line N)) rs r, r < length rs -> nth r (map (value t) rs) 0%R = value t (nth r rs 0)).
  { intros t rs r Hr. rewrite (nth_indep _ _ (value t 0)) by (rewrite map_length; exact Hr). apply map_nth. }
  induction f as [ys|o k IH|q a b k IH|q a d k IH]; intros rs t ws HB <- HD HR; cbn [well_formed cost trace fval fwords fdom fregs] in *.
  - rewrite map_length in HR. split; auto. split; auto. exists (lines_at rs ys), t. split; auto. split; [|apply lines_lt; auto].
    unfold lines_at. rewrite map_map. apply map_ext_in. intros y Hy. rewrite Forall_forall in HR. rewrite NTH; auto.
  - destruct HD as (D1 & D2 & D3 & D4). destruct HR as [R1 R2]. rewrite map_length in R1.
    assert (EX : at_regs (map (value t) rs) (op_regs o) = map (value t) (lines_at rs (op_regs o))).
    { unfold at_regs, lines_at. rewrite map_map. apply map_ext_in. intros y Hy. rewrite Forall_forall in R1. apply NTH; auto. }
    rewrite EX in *. pose proof (step_denote t rs o HB R1 D1 D2 D3) as Q.
    cbv zeta in Q |- *. destruct (step o (lines_at rs (op_regs o)) (map (value t) (lines_at rs (op_regs o)))) as [ls| |]; [|destruct Q as [Q Q0]|destruct Q].
    + destruct (IH (rs ++ seq (length t) (length ls)) (t ++ ls) (map (value t) rs ++ map l_value ls)) as (I1 & I2 & I3).
      * rewrite app_length. apply Forall_app. split; [eapply Forall_impl; [|exact HB]; cbv beta; lia|]. apply Forall_forall. intros j Hj. apply in_seq in Hj. lia.
      * rewrite map_app. f_equal; [apply map_ext_in; intros i Hi; apply value_app; rewrite Forall_forall in HB; auto|].
        unfold value. rewrite map_app. clear. replace (length t) with (length (map l_value t)) by apply map_length. generalize (map (@l_value N) t). intros l0.
        rewrite <- (map_length l_value). generalize (map (@l_value N) ls). intros l1. revert l0. induction l1 as [|x l1 J]; intros l0; [reflexivity|].
        cbn [length seq map]. f_equal; [rewrite app_nth2 by lia; rewrite Nat.sub_diag; reflexivity|].
        specialize (J (l0 ++ x :: nil)). rewrite app_length, <- app_assoc in J. cbn [length app] in J. rewrite Nat.add_1_r in J. exact J.
      * rewrite Q. exact D4.
      * rewrite Q. exact R2.
      * rewrite Q in I2, I3. split; [auto|]. split; [rewrite I2; reflexivity|]. exact I3.
    + destruct (IH (rs ++ lines_at rs (op_regs o)) t (map (value t) rs ++ map (value t) (lines_at rs (op_regs o)))) as (I1 & I2 & I3).
      * apply Forall_app. split; auto. apply lines_lt; auto.
      * apply map_app.
      * rewrite Q at 1. exact D4.
      * rewrite Q at 1. exact R2.
      * split; [auto|]. split; [rewrite I2, Q0, <- Q; reflexivity|]. rewrite <- Q. exact I3.
  - rewrite map_length in HR. destruct HR as (Ra & Rb & HR). destruct HD as [_ HD]. rewrite !NTH in * by auto. rewrite holds_written.
    destruct (IH _ rs t _ HB eq_refl HD HR) as (I1 & I2 & I3). auto.
  - rewrite map_length in HR. destruct HR as (Ra & HR). destruct HD as [_ HD]. rewrite !NTH in * by auto. rewrite holds_written.
    destruct (IH _ rs t _ HB eq_refl HD HR) as (I1 & I2 & I3). auto.
Qed.
End Link.

Section Derive.
Context {lg : R -> R}.
Notation N := (RNum lg).

Lemma pow2_mod3 n : (2 ^ Z.of_nat n mod 3 <> 0)%Z.
Proof.
  induction n as [|n IH]; [discriminate|]. rewrite Nat2Z.inj_succ, Z.pow_succ_r by lia. rewrite Z.mul_mod by lia.
  pose proof (Z.mod_pos_bound (2 ^ Z.of_nat n) 3 ltac:(lia)) as B. revert B IH. generalize (2 ^ Z.of_nat n mod 3)%Z. intros z B IH.
  assert (E : z = 1%Z \/ z = 2%Z) by lia. destruct E as [-> | ->]; cbn; lia.
Qed.

(* of two builds at most one has its storage filled to the last word *)
Lemma some_build (w : Z) : (0 < w)%Z -> exists C : Cfg N, @practical N C /\ ~ @exactly_full N C (@st_init N) w.
Proof.
  intros HW. pose (C3 := {| init_len := 3; junk := Some (fun _ => @f0 N, fun _ => 0%Z) |} : Cfg N).
  assert (S1 : forall C : Cfg N, @exactly_full N C (@st_init N) w -> exists j : nat, w = (@init_tape_size N C * 2 ^ Z.of_nat j)%Z).
  { intros C [_ H]. cbn [st_init s_tape tape_init t_size t_head] in H. destruct (H ltac:(lia)) as (j & E & _). exists j. lia. }
  destruct (Z.eq_dec (w mod 36) 0) as [E|E].
  - exists (demo N). split; [apply demo_practical|]. intros HF. destruct (S1 _ HF) as (j & Ej). change (@init_tape_size N (demo N)) with 12%Z in Ej.
    apply (pow2_mod3 j). apply Z.mod_divide in E; [|lia]. destruct E as [k Ek]. apply Z.mod_divide; [lia|]. exists k. lia.
  - exists C3. split; [split; [unfold cfg_ok; change (@init_tape_size N C3) with 36%Z; cbn [C3 init_len]; unfold max_int; lia|cbn [C3 junk]; eauto]|].
    intros HF. destruct (S1 _ HF) as (j & Ej). change (@init_tape_size N C3) with 36%Z in Ej. apply E. rewrite Ej, Z.mul_comm. apply Z.mod_mul. lia.
Qed.

Theorem reverse_derive (f : @fn N) (xs : list R) ys tr : fdom f xs -> fregs f xs -> (6 * zlen xs + fwords f xs < 1073741824)%Z ->
  trace f (seq 0 (length xs)) (map (@given N) xs) = Some (ys, tr) ->
  forall a y i, nth_error ys a = Some y -> i < length xs ->
    is_derive (fun u => nth a (fval f (hold i u 0 xs)) 0%R) (nth i xs 0%R) (reverse tr (seed y) i).
Proof.
  intros HD HR HW HT a y i Ha Hi. set (w := (6 * zlen xs + fwords f xs)%Z) in *.
  assert (W0 : (0 < w)%Z) by (unfold w, zlen; pose proof (fwords_pos f xs); lia).
  destruct (some_build w W0) as (C & HP & HF).
  assert (V0 : map (value (map (@given N) xs)) (seq 0 (length xs)) = xs).
  { unfold value. rewrite map_map. cbn [given l_value]. rewrite map_id. clear.
    apply (nth_ext _ _ 0%R 0%R); [rewrite map_length, seq_length; reflexivity|]. intros i Hi. rewrite map_length, seq_length in Hi.
    rewrite (nth_map_in _ (seq 0 (length xs)) i 0%R 0) by (rewrite seq_length; exact Hi). rewrite seq_nth by exact Hi. reflexivity. }
  destruct (trace_fval f (seq 0 (length xs)) (map (@given N) xs) xs) as (WF & EC & ys' & tr' & ET & EF & _); auto.
  { apply Forall_forall. intros j Hj. apply in_seq in Hj. rewrite map_length. exact (proj2 Hj). }
  assert (ys' = ys) by congruence. assert (tr' = tr) by congruence. subst ys' tr'.
  assert (HG : exists g, @Rel N C st_init g /\ sound g) by (exists g_init; split; [apply rel_init|apply good_sound, good_init]).
  assert (HM : @roomy N st_init w) by (split; cbn [st_init s_tape tape_init t_size t_head]; lia).
  assert (HY : ys <> []) by (destruct ys; [destruct a; discriminate|discriminate]).
  assert (HY' : fval f xs <> []) by (rewrite <- EF; destruct ys; [congruence|discriminate]).
  destruct (jacobian_complete (C := C) st_init [] [] xs f HP HG ltac:(cbn; lia) (Forall_nil _) eq_refl HD HR HY' HM HF) as (r & s' & EJ & LR & HDV).
  assert (HM2 : @roomy N st_init (6 * zlen xs + cost f (seq 0 (length xs)) (map (@given N) xs))%Z) by (rewrite EC; exact HM).
  assert (HF2 : ~ @exactly_full N C st_init (6 * zlen xs + cost f (seq 0 (length xs)) (map (@given N) xs))%Z) by (rewrite EC; exact HF).
  destruct (jacobian_reverse (C := C) st_init [] [] xs f ys tr HP HG ltac:(cbn; lia) (Forall_nil _) eq_refl) as (s2 & EJ2); cbn [app length Nat.add]; auto.
  rewrite EJ in EJ2. injection EJ2 as Er _.
  assert (HV : nth_error (fval f xs) a = Some (value tr y)) by (rewrite <- EF; apply map_nth_error; exact Ha).
  destruct (HDV a (value tr y) HV) as (ds & Hr & LD & HI). specialize (HI i Hi).
  rewrite Er in Hr. rewrite (map_nth_error _ _ _ Ha) in Hr. injection Hr as Ed.
  rewrite <- Ed in HI. rewrite (nth_map_in _ (seq 0 (length xs)) i 0%R 0) in HI by (rewrite seq_length; exact Hi). rewrite seq_nth in HI by exact Hi. exact HI.
Qed.
End Derive.

Section Answer.
Context {lg : R -> R}.
Notation N := (RNum lg).

(* the vectors made of the lines of a right-hand side are the answer wanted *)
Lemma vectors_answer (q : R -> @fn N) (p : list R) par (t : R) (y : list R) (yS : list (list R)) n ys tr : length y = n ->
  Forall (fun v => length v = n) yS -> (forall j k, j < length yS -> par j = Some k -> k < length p) ->
  rhs_at q p n t y -> (rhs_words q p t y < 1073741824)%Z ->
  trace (q t) (seq 0 (length (@rhs_args N y p))) (map (@given N) (@rhs_args N y p)) = Some (ys, tr) ->
  rhs_answer q p par t y yS (@sens_vectors N tr n ys yS par).
Proof.
  intros <- FS HPAR (HD & HR & LF) HW HT. set (n := length y) in *. unfold rhs_words in HW. change (@rhs_args N y p) with (y ++ repeat 0%R n ++ p) in HT.
  fold n in HD, HR, LF, HW. set (xs := y ++ repeat 0%R n ++ p) in *.
  pose proof (reverse_derive (q t) xs ys tr HD HR HW HT) as DER.
  assert (LR : length (repeat 0%R n) = n) by apply repeat_length.
  assert (LX : length xs = n + n + length p) by (unfold xs; rewrite !app_length, LR; fold n; lia).
  assert (LY : length ys = n).
  { destruct (trace_fval (q t) (seq 0 (length xs)) (map (@given N) xs) xs) as (_ & _ & ys' & tr' & ET & EF & _); auto.
    - apply Forall_forall. intros j Hj. apply in_seq in Hj. rewrite map_length. exact (proj2 Hj).
    - unfold value. rewrite map_map. cbn [given l_value]. rewrite map_id. clear.
      apply (nth_ext _ _ 0%R 0%R); [rewrite map_length, seq_length; reflexivity|]. intros i Hi. rewrite map_length, seq_length in Hi.
      rewrite (nth_map_in _ (seq 0 (length xs)) i 0%R 0) by (rewrite seq_length; exact Hi). rewrite seq_nth by exact Hi. reflexivity.
    - pose proof (eq_trans (eq_sym ET) HT) as EE. injection EE as -> _. rewrite <- LF, <- EF. symmetry. apply map_length. }
  unfold rhs_answer. split; [unfold sens_vectors; rewrite map_length; apply seq_length|].
  intros j Hj. unfold sens_vectors. rewrite (nth_map_in _ (seq 0 (length yS)) j [] 0) by (rewrite seq_length; exact Hj). rewrite seq_nth by exact Hj. cbn [Nat.add].
  split; [rewrite map_length; exact LY|]. intros i Hi. fold n in Hi. rewrite (nth_map_in _ ys i 0%R 0) by lia.
  destruct (lt_nth_error ys i) as [yi Eyi]; [lia|]. rewrite (nth_error_nth _ _ 0 Eyi).
  exists (reverse tr (seed yi)), (match par j with None => 0%R | Some k => reverse tr (seed yi) (2 * n + k) end). split; [|split].
  - intros l Hl. fold n in Hl. pose proof (DER i yi l Eyi ltac:(lia)) as D. replace (nth l xs 0%R) with (nth l y 0%R) in D by (unfold xs; rewrite app_nth1; auto).
    eapply deriv_ext; [|exact D]. intros u. cbv beta. unfold rhs_fval. rewrite hold_len. fold n. unfold xs. rewrite hold_first by exact Hl. reflexivity.
  - destruct (par j) as [k|] eqn:EP; [|reflexivity]. pose proof (HPAR j k Hj EP) as Hk.
    pose proof (DER i yi (n + n + k) Eyi ltac:(lia)) as D. replace (2 * n + k) with (n + n + k) by lia.
    replace (nth (n + n + k) xs 0%R) with (nth k p 0%R) in D.
    2:{ unfold xs. rewrite app_nth2 by (fold n; lia). fold n. rewrite app_nth2 by lia. rewrite LR. f_equal. lia. }
    eapply deriv_ext; [|exact D]. intros u. cbv beta. unfold rhs_fval. fold n. unfold xs.
    pose proof (hold_last k u y (repeat 0%R n) p) as HL. rewrite LR in HL. fold n in HL. rewrite HL. reflexivity.
  - unfold pushed. assert (Lv : length (nth j yS []) = n) by (exact (proj1 (Forall_forall _ _) FS _ (nth_In yS [] Hj))).
    assert (ED : @fdot N (map (reverse tr (seed yi)) (seq 0 n)) (nth j yS []) = rsum (map (fun l => (reverse tr (seed yi) l * nth l (nth j yS []) 0)%R) (seq 0 n))).
    { exact (rdot_seq (reverse tr (seed yi)) (nth j yS []) n 0 Lv). }
    destruct (par j) as [k|].
    + etransitivity; [|exact (f_equal (fun z => (z + reverse tr (seed yi) (2 * n + k))%R) ED)]. reflexivity.
    + rewrite Rplus_0_r. exact ED.
Qed.

Context {C : Cfg (RNum lg)}.

Lemma rhs_lines (q : R -> @fn N) (p : list R) n (t : R) (y : list R) : rhs_at q p n t y ->
  let xs := @rhs_args N y p in let t0 := map (@given N) xs in let rs := seq 0 (length xs) in
  well_formed (q t) rs t0 /\ (6 * zlen xs + cost (q t) rs t0 = rhs_words q p t y)%Z /\ exists ys tr, trace (q t) rs t0 = Some (ys, tr) /\ length ys = n.
Proof.
  intros (HD & HR & LF) xs t0 rs. destruct (trace_fval (q t) rs t0 xs) as (A & B & ys & tr & ET & EF & _); auto.
  - apply Forall_forall. intros j Hj. unfold rs in Hj. apply in_seq in Hj. unfold t0. rewrite map_length. exact (proj2 Hj).
  - unfold value, t0, rs. rewrite map_map. cbn [given l_value]. rewrite map_id. clear.
    apply (nth_ext _ _ 0%R 0%R); [rewrite map_length, seq_length; reflexivity|]. intros i Hi. rewrite map_length, seq_length in Hi.
    rewrite (nth_map_in _ (seq 0 (length xs)) i 0%R 0) by (rewrite seq_length; exact Hi). rewrite seq_nth by exact Hi. reflexivity.
  - split; auto. split; [rewrite B; reflexivity|]. exists ys, tr. split; auto. rewrite <- LF. etransitivity; [symmetry; apply map_length|]. rewrite EF. reflexivity.
Qed.

Theorem callback_initial_real env0 (s : @st N) (t : R) (y : list R) yS (q : R -> @fn N) : @practical N C -> reachable env0 s -> (s_lvl s < 10)%Z -> 0 < length y -> length yS = length y ->
  Forall (fun v => length v = length y) yS -> rhs_at q [] (length y) t y -> roomy s (rhs_words q [] t y) -> ~ exactly_full s (rhs_words q [] t y) ->
  exists r s', set_sens_rhs (t : @F N) (y : list (@F N)) yS (mkRhs true (length y) [] (@rhs_fn N C q)) s = Ok (r, s') /\ rhs_answer q [] (fun _ => None) t y yS r /\
    undisturbed s s' /\ forall h, alive s h -> var_adj s' h = var_adj s h.
Proof.
  intros HP HR HL NZ LS FS HA HM HE. destruct (rhs_lines q [] (length y) t y HA) as (WF & EW & ys & tr & ET & LY).
  pose proof (callback_initial env0 s t y yS q HP HR HL NZ LS WF) as Q. cbv zeta in Q. 
  specialize (Q (eq_ind_r (fun w => roomy s w) HM EW)).
  destruct (trace _ _ _) as [[o1 t1]|] eqn:E1 in Q; [|pose proof (eq_trans (eq_sym E1) ET) as EE; discriminate EE].
  pose proof (eq_trans (eq_sym E1) ET) as EE. injection EE as -> ->.
  destruct Q as [_ Q2]. destruct (Q2 (eq_ind_r (fun w => ~ exactly_full s w) HE EW)) as (s' & E & Q3). exists (@sens_vectors N tr (length y) ys yS (fun _ => None)), s'. split; auto. split; auto.
  apply vectors_answer; auto; try discriminate. destruct HM. destruct (reach_snd env0 s HP HR) as (g & R0 & _).
  pose proof (w_top g (r_wf _ _ R0)). rewrite (r_thead _ _ R0) in *. lia.
Qed.

Theorem callback_parameters_real env0 (s : @st N) (t : R) (y p : list R) yS (q : R -> @fn N) (ys : bool) : @practical N C -> reachable env0 s -> (s_lvl s < 10)%Z -> 0 < length y -> length p = 3 ->
  let first := if ys then length y else 0 in first < length yS <= first + 3 ->
  Forall (fun v => length v = length y) yS -> rhs_at q p (length y) t y -> roomy s (rhs_words q p t y) -> ~ exactly_full s (rhs_words q p t y) ->
  exists r s', set_sens_rhs (t : @F N) (y : list (@F N)) yS (mkRhs ys (length yS) (p : list (@F N)) (@rhs_fn N C q)) s = Ok (r, s') /\
    rhs_answer q p (fun j => if j <? first then None else Some (j - first)) t y yS r /\
    undisturbed s s' /\ forall h, alive s h -> var_adj s' h = var_adj s h.
Proof.
  intros HP HR HL NZ LP first LS FS HA HM HE. destruct (rhs_lines q p (length y) t y HA) as (WF & EW & os & tr & ET & LY).
  pose proof (callback_parameters env0 s t y p yS q ys HP HR HL NZ LP LS WF) as Q. cbv zeta in Q. 
  specialize (Q (eq_ind_r (fun w => roomy s w) HM EW)).
  destruct (trace _ _ _) as [[o1 t1]|] eqn:E1 in Q; [|pose proof (eq_trans (eq_sym E1) ET) as EE; discriminate EE].
  pose proof (eq_trans (eq_sym E1) ET) as EE. injection EE as -> ->.
  destruct Q as [_ Q2]. destruct (Q2 (eq_ind_r (fun w => ~ exactly_full s w) HE EW)) as (s' & E & Q3). exists (@sens_vectors N tr (length y) os yS (fun j => if j <? first then None else Some (j - first))), s'. split; auto. split; auto.
  apply vectors_answer; auto.
  - intros j k Hj. destruct (Nat.ltb_spec j first); [discriminate|]. intros Ek. injection Ek as <-.
    assert (LS' : @length (list R) yS <= first + 3) by exact (proj2 LS). assert (LP' : @length R p = 3) by exact LP. assert (Hj' : j < @length (list R) yS) by exact Hj. lia.
  - destruct HM. destruct (reach_snd env0 s HP HR) as (g & R0 & _).
    pose proof (w_top g (r_wf _ _ R0)). rewrite (r_thead _ _ R0) in *. lia.
Qed.

Lemma solves_real P (q : R -> @fn N) (p : list R) par n ns limit m c head size S e : @solves N C P q p par n ns limit m c head size S e ->
  (limit <= 1073741824)%Z -> (0 < head)%Z -> (forall j k, j < ns -> par j = Some k -> k < length p) -> @CvodesSpec.asks N (rhs_at q p n) n ns S ->
  forall l, e = Delivered l -> @delivers N (rhs_answer q p par) m S l.
Proof.
  intros HS HL H0 HPAR HA. revert H0 HA. induction HS as [c head size S|m c head size|m c head size y yS S size' e L1 L2 w HW ST _ IH
    |m c head size t y yS k ys tr size' e L1 L2 xs t0 rs w HF IP HW HT LY ST NF _ IH
    |m c head size t y yS k L1 L2 xs t0 rs w HF IP HW HT
    |m c head size t y yS k ys tr L1 L2 xs t0 rs w HF IP HW HT LY ST]; intros H0 HA l El; try discriminate El.
  - injection El as <-. constructor.
  - destruct e as [l'| |]; try discriminate El. injection El as <-. constructor. apply IH; auto; [|apply HA].
    assert (0 <= w)%Z by (unfold w; lia). lia.
  - destruct HA as (A1 & A2 & A3 & A4). destruct (rhs_lines q p n t y A1) as (_ & EW & _).
    assert (FW : (rhs_words q p t y < 1073741824)%Z).
    { rewrite <- EW. change (w < 1073741824)%Z. lia. }
    econstructor; [|apply IH; auto].
    + apply vectors_answer; auto; [apply L2|]. intros j k0 Hj. apply HPAR. destruct L2 as [<- _]. exact Hj.
    + apply A4. split; [unfold sens_vectors; rewrite map_length, seq_length; apply L2|].
      unfold sens_vectors. apply Forall_map. apply Forall_forall. intros j _. rewrite map_length. exact LY.
Qed.
End Answer.

Section Total.
Context {lg : R -> R} {C : Cfg (RNum lg)}.
Notation N := (RNum lg).

Lemma ends_gradient (HJ : exists j, @junk N C = Some j) (s : @st N) g ks n r l yt s' : Rel s g -> Forall (fun k => k < gsize g) ks ->
  ends_as g ks n s r (Delivered l) -> r = Ok (yt, s') -> NoDup (map hd ks) -> Forall (fun z => var_operands s z = Ok []) (map hd ks) ->
  forall k hs u uS i h, nth_error yt k = Some hs -> nth_error l k = Some (u, uS) -> nth_error hs i = Some h ->
    gradient_is s' h (map hd ks) (map (fun w => nth i w 0%R) uS).
Proof.
  intros R0 HB (yt1 & s1 & z' & g' & p & E & AG & R1 & G1 & EX & KP & FF) Er ND LF k hs u uS i h Hk Hl Hi.
  rewrite E in Er. injection Er as -> ->. apply (gradient_agree p s' z' h _ _ AG).
  destruct (f2_nth _ _ _ _ _ FF Hl) as (hs' & Hk' & B1 & B2 & B4).
  assert (hs' = hs) by congruence. subst hs'. cbn [fst snd] in *. destruct (B4 i h Hi) as (k1 & -> & Hk1 & PN).
  destruct (part_gval _ _ _ _ _ PN) as [_ Lk].
  destruct (reset_grad HJ z' g' k1 R1 G1 Lk) as (s1 & s2 & E1 & E2 & HT).
  exists s1, s2. split; auto. split; auto. pose proof (extends_size _ _ EX) as SG.
  assert (HB' : Forall (fun a => a < gsize g') ks) by (eapply Forall_impl; [|exact HB]; cbv beta; intros; lia).
  assert (EM : mapM (var_adj s2) (map hd ks) = Ok (map (fun j => tau g' 0 j k1) ks)).
  { clear - HT HB'. induction HB' as [|a ks Ha _ IH]; cbn [map mapM]; auto. rewrite (HT a Ha). cbn [bind]. rewrite IH. reflexivity. }
  assert (EQ : map (fun j => tau g' 0 j k1) ks = map (fun v => nth i v 0%R) uS); [|rewrite <- EQ; exact EM].
  apply (nth_ext _ _ 0%R 0%R); [rewrite !map_length; symmetry; exact B2|]. intros j Hj. rewrite map_length in Hj.
  rewrite (nth_map_in _ ks j 0%R O Hj).
  apply (part_tau HJ g' k1 (nth i u 0%R) ks (map (fun v => nth i v 0%R) uS) j (r_wf _ _ R1) PN); auto.
  - rewrite map_length. exact B2.
  - intros a Ha. rewrite Forall_forall in HB, LF. specialize (HB a Ha). specialize (LF (hd a) (in_map hd _ _ Ha)). cbv beta in HB, LF.
    destruct (nth_error (g_nodes g) a) as [nd|] eqn:En; [|apply nth_error_None in En; unfold gsize in HB; lia].
    rewrite (rel_var_operands s g a nd R0 En) in LF. unfold unit_eff, effect. cbn [set_gadj g_nodes g_adj g_ch].
    destruct (proj1 EX) as [ln ->]. rewrite nth_error_app1 by exact HB. rewrite En.
    destruct (n_body nd) as [ops ds|i0 j0 a0 b0]; cbn [zops] in LF; [|discriminate LF]. destruct ops; [|discriminate LF].
    destruct (contrib _ _ _ _ _); reflexivity.
  - eapply NoDup_map_inv; eauto.
  - intros Hin. rewrite Forall_forall in HB. specialize (HB _ Hin). cbv beta in HB. lia.
Qed.

Lemma sol_real P (q : R -> @fn N) (o : @cvs_rhs N) env s ops n words m S l (p : list R) par : @practical N C -> reachable env s -> (s_lvl s < 10)%Z -> Forall (alive s) ops -> ready o q n -> ode_ns o = length ops -> 0 < n ->
  (0 <= words)%Z -> roomy s words -> par_vals o n = p -> (forall j, j < length ops -> par j = par_of o n j) -> (forall j k, j < length ops -> par j = Some k -> k < length p) ->
  @solves N C P q p par n (length ops) (t_head (s_tape s) + words)%Z m 0 (t_head (s_tape s)) (t_size (s_tape s)) S (Delivered l) ->
  @CvodesSpec.asks N (rhs_at q p n) n (length ops) S ->
  exists yt s', drive o ops m S s = Ok (yt, s') /\ @delivers N (rhs_answer q p par) m S l /\ solution s s' ops n l yt /\
    (forall h, alive s h -> alive s' h /\ var_val s' h = var_val s h /\ var_adj s' h = var_adj s h) /\
    (NoDup ops -> Forall (fun z => var_operands s z = Ok []) ops ->
     forall k hs u uS i h, nth_error yt k = Some hs -> nth_error l k = Some (u, uS) -> nth_error hs i = Some h ->
       gradient_is s' h ops (map (fun w => nth i w 0%R) uS)).
Proof.
  intros HP HR HL HA RD LN NZ HW HM EP EPAR HPAR HS HK.
  assert (HS' : @solves N C P q (par_vals o n) (par_of o n) n (length ops) (t_head (s_tape s) + words)%Z m 0 (t_head (s_tape s)) (t_size (s_tape s)) S (Delivered l)).
  { rewrite EP. eapply solves_par; [|exact HS]. exact EPAR. }
  destruct (@drive_ends N _ C P q o env s ops n words m S _ HP HR HL HA RD LN NZ HW HM HS') as (g & ks & R0 & EO & HB & Q).
  pose proof (ends_finishes (proj2 HP) s g ks n _ _ R0 Q) as (yt & s' & E & SO & KP).
  exists yt, s'. split; auto. split; [|rewrite EO; split; auto; split; auto].
  - apply (solves_real P q p par n (length ops) _ m 0 _ _ S _ HS); auto; [apply HM|].
    pose proof (w_top g (r_wf _ _ R0)). rewrite (r_thead _ _ R0). lia.
  - intros ND LF. apply (ends_gradient (proj2 HP) s g ks n _ l yt s' R0 HB Q E ND LF).
Qed.

Theorem y0_sens_real P env s y (v : list R) nout (q : R -> @fn N) (S : @integrator N) words l : @practical N C -> reachable env s -> (s_lvl s < 10)%Z -> Forall (alive s) y -> mapM (var_val s) y = Ok v -> 0 < length y ->
  (0 <= words)%Z -> roomy s words ->
  @solves N C P q [] (fun _ => None) (length y) (length y) (t_head (s_tape s) + words)%Z nout 0 (t_head (s_tape s)) (t_size (s_tape s)) (S v (unit_vectors (length y))) (Delivered l) ->
  @CvodesSpec.asks N (rhs_at q [] (length y)) (length y) (length y) (S v (unit_vectors (length y))) ->
  exists yt s', cvodes_sol_y0_sens y nout (@rhs_fn N C q) S s = Ok (yt, s') /\
    @delivers N (rhs_answer q [] (fun _ => None)) nout (S v (unit_vectors (length y))) l /\ solution s s' y (length y) l yt /\
    (forall h, alive s h -> alive s' h /\ var_val s' h = var_val s h /\ var_adj s' h = var_adj s h) /\
    (NoDup y -> Forall (fun z => var_operands s z = Ok []) y ->
     forall k hs u uS i h, nth_error yt k = Some hs -> nth_error l k = Some (u, uS) -> nth_error hs i = Some h ->
       gradient_is s' h y (map (fun w => nth i w 0%R) uS)).
Proof.
  intros HP HR HL HA HV NZ HW HM HS HK.
  assert (PV : par_is_var (@mkRhs N true (length y) [] (@rhs_fn N C q)) (length y) = false) by (unfold par_is_var; cbn [ode_ys ode_ns]; rewrite Nat.eqb_refl; reflexivity).
  destruct (sol_real P q (mkRhs true (length y) [] (@rhs_fn N C q)) env s y (length y) words nout (S v (unit_vectors (length y))) l [] (fun _ => None) HP HR HL HA) as (yt & s' & E & Q); auto.
  - constructor; auto; rewrite PV; discriminate.
  - unfold par_vals. rewrite PV. reflexivity.
  - intros j _. unfold par_of. rewrite PV. reflexivity.
  - discriminate.
  - exists yt, s'. split; [|exact Q]. unfold cvodes_sol_y0_sens, mbind, vvals, mget. rewrite HV. cbn [bind]. rewrite init_unit. exact E.
Qed.

Theorem par_sens_real P env s (y : list R) param (v : list R) nout (q : R -> @fn N) (S : @integrator N) words l : @practical N C -> reachable env s -> (s_lvl s < 10)%Z -> Forall (alive s) param -> mapM (var_val s) param = Ok v ->
  0 < length y -> length param = 3 -> (0 <= words)%Z -> roomy s words ->
  @solves N C P q v Some (length y) 3 (t_head (s_tape s) + words)%Z nout 0 (t_head (s_tape s)) (t_size (s_tape s)) (S y (zero_vectors 3 (length y))) (Delivered l) ->
  @CvodesSpec.asks N (rhs_at q v (length y)) (length y) 3 (S y (zero_vectors 3 (length y))) ->
  exists yt s', cvodes_sol_par_sens (y : list (@F N)) param nout (@rhs_fn N C q) S s = Ok (yt, s') /\
    @delivers N (rhs_answer q v Some) nout (S y (zero_vectors 3 (length y))) l /\ solution s s' param (length y) l yt /\
    (forall h, alive s h -> alive s' h /\ var_val s' h = var_val s h /\ var_adj s' h = var_adj s h) /\
    (NoDup param -> Forall (fun z => var_operands s z = Ok []) param ->
     forall k hs u uS i h, nth_error yt k = Some hs -> nth_error l k = Some (u, uS) -> nth_error hs i = Some h ->
       gradient_is s' h param (map (fun w => nth i w 0%R) uS)).
Proof.
  intros HP HR HL HA HV NZ L3 HW HM HS HK.
  assert (LV : length v = 3) by (rewrite <- L3; eapply mapM_length; eauto).
  destruct (sol_real P q (@mkRhs N false (length param) (v : list (@F N)) (@rhs_fn N C q)) env s param (length y) words nout (S y (zero_vectors 3 (length y))) l v Some HP HR HL HA) as (yt & s' & E & Q); auto.
  - constructor; auto. intros _. unfold par_count, pvar_size. cbn [ode_ys ode_ns]. lia.
  - intros j _. unfold par_of, par_is_var, par_count. cbn [ode_ys ode_ns andb negb].
    rewrite Nat.sub_diag. cbn [Nat.ltb Nat.leb]. f_equal. lia.
  - intros j k Hj Ek. injection Ek as <-. lia.
  - rewrite L3. exact HS.
  - rewrite L3. exact HK.
  - exists yt, s'. split; [|exact Q]. unfold cvodes_sol_par_sens, mbind, vvals, mget. rewrite HV. cbn [bind]. rewrite init_zero, L3. rewrite L3 in E. exact E.
Qed.
End Total.
