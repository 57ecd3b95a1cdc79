(* C38: what gradient and jacobian do to the caller's adjoints. *)
From Verif Require Import TapeFacts.
From Coq Require Import ZifyBool ZifyNat.
From Verif Require Export Claims_repeat Blind.
Local Open Scope nat_scope.
Local Notation hd := Refine.hd.

Section Effect.
Context {N : Num} {RL : RepLaws N} {C : Cfg N}.

Lemma begin_renest s s1 : begin_nested s = Ok (tt, s1) -> exists l nv nt, s1 = renest l nv nt s.
Proof.
  unfold begin_nested, mput. destruct (nest_get (s_nv s) (s_lvl s + 1)); try discriminate. cbn [bind]. intros H. injection H as <-.
  eexists _, _, _. reflexivity.
Qed.

Lemma tail_same s s4 s5 g g4 m r : Rel s g -> Rel s4 g4 -> g_nest g4 = m :: r -> mk_n m = gsize g -> gsize g <= gsize g4 -> end_nested s4 = Ok (tt, s5) ->
  forall h, alive s h -> same_val s4 s5 h /\ same_adj s4 s5 h.
Proof.
  intros R0 R4 NE EM LE EE h Hh. pose proof (end_inv s4 g4 m r s5 R4 NE EE) as R5.
  destruct (alive_node s g h R0 Hh) as (k & -> & Hk).
  assert (SZ : gsize (atrunc m r g4) = gsize g).
  { unfold gsize, atrunc. cbn [g_nodes]. rewrite firstn_length. unfold gsize in *. lia. }
  unfold same_val, same_adj. rewrite (rel_var_val _ _ R5), (rel_var_adj _ _ R5), (rel_var_val _ _ R4), (rel_var_adj _ _ R4) by lia.
  split; [|reflexivity]. f_equal. unfold gval, atrunc. cbn [g_nodes]. rewrite nth_firstn by lia. reflexivity.
Qed.

Theorem gradient_effect s env (ws xs : list F) (f : fn) y ys t : practical -> (exists g, Rel s g /\ sound g) -> (s_lvl s < 10)%Z ->
  Forall (alive s) env -> mapM (var_val s) env = Ok ws ->
  let t0 := map given (ws ++ xs) in let rs := seq 0 (length ws + length xs) in let w := (6 * zlen xs + cost f rs t0)%Z in
  well_formed f rs t0 -> roomy s w -> ~ exactly_full s w -> trace f rs t0 = Some (y :: ys, t) ->
  exists v d s' xv h s1 s2 s3, gradient (fun xv => call_fn1 f (env ++ xv)) xs s = Ok (v :: d, s') /\
    new_var_vals xs s = Ok (xv, s1) /\ call_fn1 f (env ++ xv) s1 = Ok (h, s2) /\ grad h s2 = Ok (tt, s3) /\
    var_val s3 h = Ok v /\ mapM (var_adj s3) xv = Ok d /\
    forall h, alive s h -> same_val s3 s' h /\ same_adj s3 s' h.
Proof.
  intros HP (g & R0 & HG) HL HA HW t0 rs w HF HM HE ER. pose proof HP as [HC HJ].
  pose proof (cost_pos f rs t0) as W0. pose proof (zlen_nonneg xs) as W1.
  destruct (roomy_peak s g w R0 ltac:(unfold w; lia) HM) as [P1 P2].
  destruct (block_lines s g env ws xs f HP R0 HG HL HA HW HF P1 P2) as (s1 & xv & s2 & E1 & E2 & K). fold t0 rs in K. rewrite ER in K.
  destruct K as (ke & b & s3 & g3 & r & E3 & R3 & G3 & L3 & LK & EXV & BY & LT & HZ & NE & T3 & P3 & Eb & Er & EL & GD & RE & _).
  pose proof (Forall_inv BY) as Hy. cbv beta in Hy. subst xv.
  destruct (grad_lines HJ ke b s3 g3 t y R3 G3 L3 HZ Hy) as (s4 & a & EG & R4 & AV).
  pose proof (place_lt ke b g3 t y L3 Hy) as Hk.
  destruct (filled HC s g s4 (set_gadj g3 a) _ R0 R4 T3 P3) as [FF FN]; [change (0 < gsize g3); lia|].
  assert (EV : vval (hd (place ke b y)) s3 = Ok (value t y, s3)).
  { rewrite <- (ln_val _ _ _ _ L3 y Hy). apply rel_vval; auto. }
  set (kx := map (place ke b) (seq (length ws) (length xs))) in *.
  assert (BX : Forall (fun k => k < gsize g3) kx) by (apply (lines_bound ke b g3 t _ L3), seq_bound; exact LT).
  pose proof (live_adjs s4 _ kx R4 BX) as EA. set (d := map (g_adj (set_gadj g3 a)) kx) in *.
  assert (E3' : call_fn1 f (env ++ map hd kx) s2 = Ok (hd (place ke b y), s3)).
  { unfold call_fn1. rewrite (mbind_ok _ _ _ _ _ E3). reflexivity. }
  destruct (end_fits s4 _ _ _ R4 NE (FN HE)) as (s5 & E5 & _).
  assert (LE : gsize g <= gsize g3) by (pose proof (ln_b _ _ _ _ L3); lia).
  pose proof (tail_same s s4 s5 g (set_gadj g3 a) _ _ R0 R4 NE Eb LE E5) as TS.
  assert (EV4 : var_val s4 (hd (place ke b y)) = Ok (value t y)).
  { rewrite (rel_var_val _ _ R4) by exact Hk. rewrite <- (ln_val _ _ _ _ L3 y Hy). reflexivity. }
  destruct (begin_renest s s1 E1) as (l & nv & nt & ->).
  destruct (blind_back _ _ _ _ _ _ _ (blind_vals xs) E2) as (q2 & E2' & ->).
  destruct (blind_back _ _ _ _ _ _ _ (blind_fn1 f _) E3') as (q3 & E3'' & ->).
  destruct (blind_back _ _ _ _ _ _ _ (blind_grad _) EG) as (q4 & EG' & ->).
  exists (value t y), d, s5, (map hd kx), (hd (place ke b y)), q2, q3, q4.
  split.
  { unfold gradient. rewrite (mbind_ok _ _ _ _ _ E1), (mbind_ok _ _ _ _ _ E2).
    rewrite (mbind_ok _ _ _ _ _ E3'), (mbind_ok _ _ _ _ _ EV), (mbind_ok _ _ _ _ _ EG).
    unfold mbind at 1, vadjs, mget. rewrite EA. cbn [bind]. rewrite (mbind_ok _ _ _ _ _ E5). reflexivity. }
  repeat (split; [assumption|]). exact TS.
Qed.

(* ---- the rows of a jacobian and the gradients of the components ---- *)

Lemma apply_agree (l : list (nat * F)) : forall f f' k, f k = f' k -> apply_effect l f k = apply_effect l f' k.
Proof.
  unfold apply_effect. induction l as [|[j c] l IH]; intros f f' k H; cbn [fold_left]; auto.
  apply IH. unfold addto, nupd. cbn [fst snd]. destruct (Nat.eqb_spec k j) as [<-|]; rewrite ?H; reflexivity.
Qed.

Lemma tops_agree ke b g g' t : lined ke b g t -> lined ke b g' t -> forall n (f f' : nat -> F) h h', n <= gsize g - b ->
  (forall k, k < gsize g -> f k = f' k) -> asweep b n (set_gadj g f) = Some h -> asweep b n (set_gadj g' f') = Some h' ->
  forall k, k < gsize g -> g_adj h k = g_adj h' k.
Proof.
  intros L L'. pose proof (ln_len _ _ _ _ L) as LL. pose proof (ln_b _ _ _ _ L) as LB.
  induction n as [|n IH]; intros f f' h h' Hn HF E E'; cbn [asweep] in E, E'.
  - injection E as <-. injection E' as <-. exact HF.
  - pose proof (ln_in _ _ _ _ L (length ke + n) f ltac:(lia)) as EE. pose proof (ln_in _ _ _ _ L' (length ke + n) f' ltac:(lia)) as EE'.
    rewrite place_new in EE, EE' by lia. replace (b + (length ke + n - length ke)) with (b + n) in EE, EE' by lia.
    rewrite EE in E. rewrite EE' in E'. cbn [set_gadj g_adj] in E, E'. rewrite (HF (b + n)) in E by lia.
    refine (IH _ _ h h' ltac:(lia) _ E E'). intros k Hk. apply apply_agree. auto.
Qed.

(* two graphs with the same variables but other adjoints *)
Definition same_graph (g g' : graph) : Prop :=
  g_nodes g' = g_nodes g /\ g_arrs g' = g_arrs g /\ (forall k, k < gsize g -> g_ch g' k = g_ch g k) /\ g_nest g' = g_nest g /\ g_top g' = g_top g.

Lemma bottoms_agree g g' : same_graph g g' -> gwf g -> gwf g' -> forall n (f f' : nat -> F) h h', n <= gsize g ->
  (forall k, k < gsize g -> f k = f' k) -> asweep 0 n (set_gadj g f) = Some h -> asweep 0 n (set_gadj g' f') = Some h' ->
  forall k, k < gsize g -> g_adj h k = g_adj h' k.
Proof.
  intros (S1 & S2 & S3 & S4 & _) W W' n f f' h h' Hn HF E E' k Hk.
  assert (GR : grows g (set_gadj g' (g_adj g))).
  { constructor; cbn [set_gadj g_nodes g_arrs g_adj g_ch g_nest]; auto.
    - exists nil. rewrite app_nil_r. exact S1.
    - exists nil. rewrite app_nil_r. exact S2.
    - intros j Hj. unfold gsize in Hj. cbn [set_gadj g_nodes] in Hj. rewrite S1 in Hj. lia. }
  destruct (sweep_old g _ W (gwf_set_gadj _ _ W') GR n f f' h Hn HF E) as (h2 & E2 & V).
  change (set_gadj (set_gadj g' (g_adj g)) f') with (set_gadj g' f') in E2. rewrite E' in E2. injection E2 as <-. symmetry. apply V; auto.
Qed.

Lemma sweeps_agree ke b g1 g1' g g' t (f f' : nat -> F) h h' : lined ke b g t -> lined ke b g' t -> same_graph g1 g1' ->
  gwf g1 -> gwf g1' -> gwf g -> gwf g' -> grows g1 g -> grows g1' g' -> gsize g1 = b -> sound g1 -> (exists j, junk = Some j) ->
  (forall k, k < gsize g -> f k = f' k) -> asweep 0 (gsize g) (set_gadj g f) = Some h -> asweep 0 (gsize g') (set_gadj g' f') = Some h' ->
  forall k, k < b -> g_adj h k = g_adj h' k.
Proof.
  intros L L' SG W1 W1' W W' G G' SZ HG HJ HF E E' k Hk.
  pose proof (ln_len _ _ _ _ L) as LL. pose proof (ln_b _ _ _ _ L) as LB. pose proof (ln_len _ _ _ _ L') as LL'. pose proof (ln_b _ _ _ _ L') as LB'.
  replace (gsize g) with (b + (gsize g - b)) in E by lia. rewrite asweep_split in E.
  replace (gsize g') with (b + (gsize g - b)) in E' by lia. rewrite asweep_split in E'.
  destruct (asweep b _ (set_gadj g f)) as [q|] eqn:Q; [|discriminate].
  destruct (asweep b _ (set_gadj g' f')) as [q'|] eqn:Q'; [|discriminate].
  pose proof (tops_agree ke b g g' t L L' _ f f' q q' (le_n _) HF Q Q') as TA.
  destruct (asweep_form _ _ _ _ Q) as [a EQ]. destruct (asweep_form _ _ _ _ Q') as [a' EQ']. subst q q'. cbn [set_gadj g_adj] in TA.
  change (asweep 0 b (set_gadj g a) = Some h) in E. change (asweep 0 b (set_gadj g' a') = Some h') in E'.
  destruct (sound_sweep HJ g1 HG b 0 ltac:(lia) a) as [p P].
  destruct (sweep_old g1 g W1 W G b a a p ltac:(lia) ltac:(auto) P) as (p2 & P2 & V2). rewrite E in P2. injection P2 as <-.
  assert (SZ' : gsize g1' = b) by (unfold gsize in *; rewrite (proj1 SG); exact SZ).
  assert (HP' : exists p', asweep 0 b (set_gadj g1' a') = Some p').
  { assert (GR : grows g1 (set_gadj g1' (g_adj g1))).
    { destruct SG as (S1 & S2 & S3 & S4 & _). constructor; cbn [set_gadj g_nodes g_arrs g_adj g_ch g_nest]; auto.
      - exists nil. rewrite app_nil_r. exact S1.
      - exists nil. rewrite app_nil_r. exact S2.
      - intros j Hj. unfold gsize in Hj. cbn [set_gadj g_nodes] in Hj. rewrite S1 in Hj. lia. }
    destruct (sound_sweep HJ g1 HG b 0 ltac:(lia) a') as [p0 P0].
    destruct (sweep_old g1 _ W1 (gwf_set_gadj _ _ W1') GR b a' a' p0 ltac:(lia) ltac:(auto) P0) as (p3 & P3 & _). exists p3. exact P3. }
  destruct HP' as [p' P'].
  destruct (sweep_old g1' g' W1' W' G' b a' a' p' ltac:(lia) ltac:(auto) P') as (p2' & P2' & V2'). rewrite E' in P2'. injection P2' as <-.
  rewrite V2, V2' by lia. apply (bottoms_agree g1 g1' SG W1 W1' b a a' p p'); auto; try lia. intros j Hj. apply TA. lia.
Qed.

Lemma grad_swept (HJ : exists j, junk = Some j) s g k s2 a : Rel s g -> sound g -> k < gsize g -> grad (hd k) s = Ok (tt, s2) -> Rel s2 (set_gadj g a) ->
  exists h, asweep 0 (gsize g) (set_gadj g (nupd (g_adj g) k f1)) = Some h /\ forall j, j < gsize g -> g_adj h j = a j.
Proof.
  intros R0 HG Hk EG R2. destruct (sound_sweep HJ g HG (gsize g) 0 ltac:(lia) (nupd (g_adj g) k f1)) as (h & E2).
  assert (AG : agrad k g = Some h). { unfold agrad. replace (Nat.ltb k (gsize g)) with true by lia. exact E2. }
  destruct (grad_ok s g k h R0 AG) as (s2' & E3 & R3). rewrite EG in E3. injection E3 as <-. exists h. split; auto. intros j Hj.
  destruct (asweep_form _ _ _ _ E2) as [f ->].
  pose proof (rel_var_adj _ _ R3 j ltac:(exact Hj)) as X. pose proof (rel_var_adj _ _ R2 j ltac:(exact Hj)) as Y. rewrite X in Y. injection Y as Y. exact Y.
Qed.

(* the user's function that returns the i-th result of f *)
Definition component (i : nat) (f : fn) (env xv : list Z) : M Z := mbind (call_fn f (env ++ xv)) (fun hs => reg hs i).

Lemma begin_same g g' g1 g1' : same_graph g g' -> abegin g = Some g1 -> abegin g' = Some g1' -> same_graph g1 g1'.
Proof.
  intros (S1 & S2 & S3 & S4 & S5) E E'. unfold abegin in *. rewrite S4 in E'. destruct (Nat.ltb _ _); [|discriminate]. injection E as <-. injection E' as <-.
  unfold same_graph. cbn [g_nodes g_arrs g_ch g_nest g_top]. unfold gsize in *. cbn [g_nodes]. rewrite ?S1, ?S2, ?S5. repeat split; auto.
Qed.

Lemma same_place ke ke' : map hd ke = map hd ke' -> ke = ke'.
Proof.
  revert ke'. induction ke as [|k ke IH]; intros [|k' ke'] H; try discriminate; auto. injection H as H1 H2. f_equal; [|auto].
  unfold Refine.hd in H1. lia.
Qed.

Lemma step_row s g env (ws xs : list F) (f : fn) ys t y i ke g1 g3 sJ (phi : nat -> F) gJ : practical -> Rel s g -> sound g -> (s_lvl s < 10)%Z ->
  Forall (alive s) env -> mapM (var_val s) env = Ok ws ->
  let t0 := map given (ws ++ xs) in let rs := seq 0 (length ws + length xs) in let w := (6 * zlen xs + cost f rs t0)%Z in
  well_formed f rs t0 -> (g_peak g <= cap)%Z -> (g_top g + w <= cap)%Z -> ~ exactly_full s w ->
  trace f rs t0 = Some (ys, t) -> nth_error ys i = Some y ->
  same_graph gJ g -> sound gJ -> abegin gJ = Some g1 -> gwf g1 -> grows g1 g3 -> sound g3 -> lined ke (gsize gJ) g3 t -> env = map hd ke ->
  length ws + length xs <= length t ->
  Rel sJ (set_gadj g3 phi) -> (forall k, k < gsize gJ -> g_adj g k = phi k) ->
  let xv := map hd (map (place ke (gsize gJ)) (seq (length ws) (length xs))) in
  let row := map (reverse t (seed y)) (seq (length ws) (length xs)) in
  exists sJ' phi' s', jac_row xv (hd (place ke (gsize gJ) y)) sJ = Ok (row, sJ') /\ Rel sJ' (set_gadj g3 phi') /\
    gradient (component i f env) xs s = Ok (value t y :: row, s') /\ left_by s g env f w s' /\
    forall k, k < gsize gJ -> var_adj s' (hd k) = Ok (phi' k).
Proof.
  intros HP R0 HG HL HA HW t0 rs w HF M1 M2 HE ER EI SG SJ AJ WJ GJ S3 LJ EKE LT0 RJ HPHI. pose proof HP as [HC HJ].
  destruct (block_lines s g env ws xs f HP R0 HG HL HA HW HF M1 M2) as (s1 & xv' & s2 & E1 & E2 & K). fold t0 rs in K. rewrite ER in K.
  destruct K as (ke' & b & s3 & g3' & r & E3 & R3 & G3 & L3 & LK & EXV & BY & LT & HZ & NE & T3 & P3 & Eb & Er & EL & GD & RE & EKE' & g1' & A1' & W1' & GR').
  assert (EBB : gsize gJ = b) by (rewrite Eb; unfold gsize; rewrite (proj1 SG); reflexivity).
  assert (ke' = ke) by (apply same_place; congruence). subst ke'. rewrite EBB in *. clear EBB. intros xv row.
  assert (Hy : y < length t) by (rewrite Forall_forall in BY; apply BY; eapply nth_error_In; eauto).
  (* the row *)
  assert (NEJ : exists aa tt0 rJ, g_nest g3 = mkMark b aa tt0 :: rJ).
  { rewrite (gr_nest _ _ GJ). unfold abegin in AJ. destruct (Nat.ltb _ _); [|discriminate]. injection AJ as <-. cbn [g_nest].
    eexists _, _, _. f_equal. f_equal. unfold gsize in *. rewrite Eb, (proj1 SG). reflexivity. }
  destruct NEJ as (aa & tt0 & rJ & NEJ).
  destruct (zero_nested_ok sJ (set_gadj g3 phi) _ _ RJ NEJ) as (sZ & EZ & RZ). cbn [mk_n] in RZ.
  assert (LG : forall h, lined ke b (set_gadj g3 h) t). { intros h. constructor; apply LJ. }
  set (gZ := azero_from b (set_gadj g3 phi)) in *.
  assert (SZ : sound gZ) by (apply zero_adj_sound, zero_adj_sound; exact S3).
  assert (ZZ : forall k, b <= k < gsize gZ -> g_adj gZ k = f0).
  { intros k Hk. change (gsize gZ) with (gsize g3) in Hk. unfold gZ, azero_from. cbn [set_gadj g_adj].
      change (gsize (set_gadj g3 phi)) with (gsize g3). replace (b <=? k) with true by lia. replace (k <? gsize g3) with true by lia. reflexivity. }
  destruct (grad_lines HJ ke b sZ gZ t y RZ SZ (LG _) ZZ Hy) as (sJ' & a & EGJ & RJ' & AVJ).
  change (Rel sJ' (set_gadj g3 a)) in RJ'.
  assert (BX : Forall (fun k => k < gsize g3) (map (place ke b) (seq (length ws) (length xs)))) by (apply (lines_bound ke b g3 t _ LJ), seq_bound; exact LT).
  assert (EAJ : vadjs xv sJ' = Ok (row, sJ')).
  { unfold vadjs, mget, xv. rewrite (live_adjs sJ' _ _ RJ' BX). cbn [bind]. unfold row. do 2 f_equal. cbn [set_gadj g_adj]. rewrite map_map.
    apply map_ext_in. intros j Hj. apply in_seq in Hj. apply AVJ. lia. }
  (* the gradient *)
  destruct (grad_lines HJ ke b s3 g3' t y R3 G3 L3 HZ Hy) as (s4 & a' & EG & R4 & AV).
  pose proof (place_lt ke b g3' t y L3 Hy) as Hk.
  destruct (filled HC s g s4 (set_gadj g3' a') _ R0 R4 T3 P3) as [_ FN]; [change (0 < gsize g3'); lia|].
  assert (EV : vval (hd (place ke b y)) s3 = Ok (value t y, s3)).
  { rewrite <- (ln_val _ _ _ _ L3 y Hy). apply rel_vval; auto. }
  assert (BX' : Forall (fun k => k < gsize g3') (map (place ke b) (seq (length ws) (length xs)))) by (apply (lines_bound ke b g3' t _ L3), seq_bound; exact LT).
  assert (EA : vadjs xv s4 = Ok (row, s4)).
  { unfold vadjs, mget, xv. rewrite (live_adjs s4 _ _ R4 BX'). cbn [bind]. unfold row. do 2 f_equal. cbn [set_gadj g_adj]. rewrite map_map.
    apply map_ext_in. intros j Hj. apply in_seq in Hj. apply AV. lia. }
  destruct (end_fits s4 _ _ _ R4 NE (FN HE)) as (s5 & E5 & _).
  assert (LE : gsize g <= gsize g3') by (pose proof (ln_b _ _ _ _ L3); lia).
  exists sJ', a, s5. split.
  { unfold jac_row. rewrite (mbind_ok _ _ _ _ _ EZ), (mbind_ok _ _ _ _ _ EGJ). exact EAJ. }
  split; auto. split.
  { unfold gradient. rewrite (mbind_ok _ _ _ _ _ E1), (mbind_ok _ _ _ _ _ E2).
    assert (E3' : component i f env xv' s2 = Ok (hd (place ke b y), s3)).
    { unfold component. rewrite (mbind_ok _ _ _ _ _ E3). unfold reg. rewrite !nth_error_map, EI. reflexivity. }
    rewrite (mbind_ok _ _ _ _ _ E3'), (mbind_ok _ _ _ _ _ EV), (mbind_ok _ _ _ _ _ EG).
    rewrite EXV. fold xv. rewrite (mbind_ok _ _ _ _ _ EA), (mbind_ok _ _ _ _ _ E5). reflexivity. }
  split.
  { rewrite Eb, Er in NE. apply (Claims_reverse2.leaves HC s g env f _ s4 g3' a' (map hd (map (place ke b) ys)) s5 R0 R4 NE EL); auto; try lia.
    intros e HR NM HI. destruct (RE e HR NM HI) as (e' & V1 & V2 & V3). exists e'.
    assert (IN : In (hd (place ke b y)) (map hd (map (place ke b) ys))) by (do 2 apply in_map; eapply nth_error_In; eauto).
    split; [apply (reach_grad e' s3 _ s4 V1 (V3 _ IN) (node_alive s3 g3' _ R3 Hk) EG)|]. split; auto. }
  intros k Hkb.
  pose proof (tail_same s s4 s5 g (set_gadj g3' a') _ _ R0 R4 NE Eb LE E5) as TS.
  destruct (TS (hd k)) as [_ TA]; [apply (node_alive s g k R0); lia|]. unfold same_adj in TA. rewrite TA.
  rewrite (rel_var_adj _ _ R4) by (change (k < gsize g3'); lia). cbn [set_gadj g_adj]. f_equal. symmetry.
  destruct (grad_swept HJ sZ gZ _ sJ' a RZ SZ (place_lt ke b gZ t y (LG _) Hy) EGJ RJ') as (h & Q & V).
  destruct (grad_swept HJ s3 g3' _ s4 a' R3 G3 Hk EG R4) as (h' & Q' & V').
  pose proof (ln_len _ _ _ _ LJ) as LL. pose proof (ln_b _ _ _ _ LJ) as LB. pose proof (ln_len _ _ _ _ L3) as LL'. pose proof (ln_b _ _ _ _ L3) as LB'.
  rewrite <- V by (change (k < gsize g3); lia). rewrite <- V' by lia.
  destruct (sound_begin gJ g1 SJ AJ) as (SG1 & SZ1 & _).
  assert (SZB : gsize gJ = b) by (rewrite Eb; unfold gsize; rewrite (proj1 SG); reflexivity).
  change (asweep 0 (gsize gZ) (set_gadj gZ (nupd (g_adj gZ) (place ke b y) f1))) with (asweep 0 (gsize g3) (set_gadj g3 (nupd (g_adj gZ) (place ke b y) f1))) in Q.
  pose proof (r_wf _ _ RJ) as WJ3. assert (WJ3' : gwf g3) by (destruct g3; exact (gwf_set_gadj _ _ WJ3)).
  apply (sweeps_agree ke b g1 g1' g3 g3' t _ _ h h' LJ L3 (begin_same gJ g g1 g1' SG AJ A1') WJ W1' WJ3' (r_wf _ _ R3) GJ GR' ltac:(lia) SG1 HJ) with (4 := Hkb) (2 := Q) (3 := Q').
  intros j Hj. unfold nupd. destruct (Nat.eqb j (place ke b y)); auto. unfold gZ, azero_from. cbn [set_gadj g_adj].
  change (gsize (set_gadj g3 phi)) with (gsize g3). destruct (Nat.leb_spec b j) as [Hb|Hb].
  - replace (j <? gsize g3) with true by lia. cbn [andb]. symmetry. apply HZ. lia.
  - cbn [andb]. rewrite <- HPHI by lia. destruct (sound_begin g g1' HG A1') as (_ & SZ1' & _ & AV1 & _).
    rewrite (gr_adj _ _ GR') by lia. symmetry. apply AV1.
Qed.

End Effect.
