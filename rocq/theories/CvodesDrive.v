(* The variables cvodes_sol returns (C47), for any arithmetic. *)
From Verif Require Import TapeFacts.
From Coq Require Import ZifyBool ZifyNat.
From Verif Require Export CvodesSpec CvodesFacts.

Section Drive.
Context {N : Num} {RL : RepLaws N} {C : Cfg N}.
Notation graph := (@graph N).

Lemma f2_nth {A B} (P : A -> B -> Prop) l l' i a : Forall2 P l l' -> nth_error l i = Some a -> exists b, nth_error l' i = Some b /\ P a b.
Proof. intros H. revert i. induction H as [|x y l l' H1 _ IH]; intros [|i] E; cbn [nth_error] in *; try discriminate; eauto. injection E as <-. eauto. Qed.

(* variable k was made by var_with_partials *)
Definition part_node (g : graph) (k : nat) (v : F) (ks : list nat) (ps : list F) : Prop :=
  (exists nd, nth_error (g_nodes g) k = Some nd /\ n_val nd = v /\ n_body nd = BRec ks ps) /\ g_ch g k = ChEager.

Lemma part_grows g g' k v ks ps : grows g g' -> part_node g k v ks ps -> part_node g' k v ks ps.
Proof.
  intros G [(nd & E & E1 & E2) H]. destruct (gr_nodes _ _ G) as [l En].
  assert (Hk : (k < gsize g)%nat) by (apply nth_error_Some; congruence). split.
  - exists nd. split; auto. rewrite En, nth_error_app1 by exact Hk. exact E.
  - rewrite (gr_ch _ _ G k Hk). exact H.
Qed.

Lemma part_gval g k v ks ps : part_node g k v ks ps -> gval g k = v /\ (k < gsize g)%nat.
Proof. intros [(nd & E & E1 & E2) H]. split; [unfold gval; rewrite E; exact E1|apply nth_error_Some; congruence]. Qed.

Lemma part_effect (HJ : exists j, junk = Some j) g k v ks ps : part_node g k v ks ps -> length ps = length ks ->
  effect g k = Some (combine ks (map (fmul (g_adj g k)) ps)).
Proof.
  intros [(nd & E & E1 & E2) H] HL. unfold effect. rewrite E, E2, H. destruct HJ as [j HJ].
  assert (EC : contrib ChEager (n_val nd) (g_adj g k) (map (gval g) ks) ps = Some (map (fmul (g_adj g k)) ps)).
  { unfold contrib, leaf_safe. rewrite HJ. cbn [is_mat negb]. rewrite map_length, HL, Nat.eqb_refl.
    destruct ks; cbn [map is_nil]; [|reflexivity]. destruct ps; [reflexivity|discriminate HL]. }
  rewrite EC. reflexivity.
Qed.

Lemma part_records (HJ : exists j, junk = Some j) s g s' g1 k v ks ps : Rel s g -> Rel s' g1 -> (gsize g <= k)%nat -> part_node g1 k v ks ps ->
  length ps = length ks -> records s s' (hd k) v (fun a => combine (map hd ks) (map (fmul a) ps)).
Proof.
  intros R0 R1 Hg HP HL. destruct (part_gval _ _ _ _ _ HP) as [EV Hk].
  apply (node_records s g s' g1 k v (fun a => combine ks (map (fmul a) ps)) _ R0 R1 (conj Hg Hk) EV).
  - intros f. exact (part_effect HJ (set_gadj g1 f) k v ks ps HP HL).
  - intros a f j. apply apply_due.
Qed.

(* one call of var_with_partials that returns *)
Lemma part_step (HC : cfg_ok C) s g v ks ps h s1 : Rel s g -> good g -> Forall (fun k => (k < gsize g)%nat) ks -> length ps = length ks ->
  var_with_partials v (map hd ks) ps s = Ok (h, s1) ->
  exists g1, Rel s1 g1 /\ good g1 /\ grows g g1 /\ gsize g1 = S (gsize g) /\ h = hd (gsize g) /\ part_node g1 (gsize g) v ks ps.
Proof.
  intros R0 HG HB HL HX.
  assert (P : performs (var_with_partials v (map hd ks) ps) s g (ANew v ks ps (Some ChEager))).
  { unfold var_with_partials, performs. rewrite (mbind_ok _ _ s ps s).
    + apply perf_rec_d; auto.
    + unfold mlift, explicit_dummy. rewrite map_length, HL, Nat.leb_refl. cbn [bind]. rewrite firstn_all2 by lia. reflexivity. }
  unfold performs in P. cbn [do_act] in P. specialize (P _ (fun H => H)). rewrite HX in P. unfold yields, wp in P. cbn [fst snd] in P.
  destruct P as [Eh R1]. set (g1 := a_new g v (BRec ks ps) (Some ChEager)) in *.
  assert (PN : part_node g1 (gsize g) v ks ps).
  { split.
    - exists (mkNode v (BRec ks ps) (g_top g)). split; [|split; reflexivity]. unfold g1, a_new, push_top. cbn [g_nodes].
      rewrite nth_error_app2 by (unfold gsize; lia). unfold gsize. rewrite Nat.sub_diag. reflexivity.
    - unfold g1, a_new, push_top. cbn [g_ch]. unfold nupd. rewrite Nat.eqb_refl. reflexivity. }
  exists g1. split; auto. split.
  { apply good_new; auto. fold g1. unfold fits. destruct PN as [(nd & E & _ & E2) H]. rewrite E, E2, H.
    unfold cshape. rewrite HL, Nat.eqb_refl. destruct (Nat.eqb (length ks) 0 && Nat.eqb (length ks) 0); auto. }
  split; [apply grows_new|]. split; [apply new_size|]. split; auto.
Qed.

Lemma column_step (HC : cfg_ok C) ks y (yS : list (list F)) l : length yS = length ks -> forall s g hs s1, Rel s g -> good g ->
  Forall (fun k => (k < gsize g)%nat) ks ->
  mmap (fun i => var_with_partials (nth i y f0) (map hd ks) (map (fun v => nth i v f0) yS)) l s = Ok (hs, s1) ->
  exists g1, Rel s1 g1 /\ good g1 /\ grows g g1 /\
    Forall2 (fun i h => exists k, h = hd k /\ (gsize g <= k)%nat /\ part_node g1 k (nth i y f0) ks (map (fun v => nth i v f0) yS)) l hs.
Proof.
  intros LS. induction l as [|i l IH]; intros s g hs s1 R0 HG HB HX.
  - cbn [mmap] in HX. unfold mret in HX. assert (hs = []) by congruence. assert (s1 = s) by congruence. subst.
    exists g. split; auto. split; auto. split; [apply grows_refl|constructor].
  - cbn [mmap] in HX. unfold mbind in HX.
    destruct (var_with_partials (nth i y f0) (map hd ks) (map (fun v => nth i v f0) yS) s) as [[h s2]| | |] eqn:E1; try discriminate. cbn [bind] in HX.
    destruct (mmap _ l s2) as [[t s3]| | |] eqn:E2; try discriminate. cbn [bind] in HX. unfold mret in HX.
    assert (hs = h :: t) by congruence. assert (s3 = s1) by congruence. subst.
    destruct (part_step HC s g _ ks _ h s2 R0 HG HB ltac:(rewrite map_length; exact LS) E1) as (g2 & R2 & G2 & GR2 & SZ & -> & PN).
    assert (HB2 : Forall (fun k => (k < gsize g2)%nat) ks) by (eapply Forall_impl; [|exact HB]; cbv beta; intros; lia).
    destruct (IH s2 g2 t s1 R2 G2 HB2 E2) as (g1 & R1 & G1 & GR1 & FF).
    exists g1. split; auto. split; auto. split; [eapply grows_trans; eauto|]. constructor.
    + exists (gsize g). split; auto. split; [lia|]. eapply part_grows; eauto.
    + eapply Forall2_impl; [|exact FF]. intros a b (k & -> & Hk & HP). exists k. split; auto. split; auto. lia.
Qed.

(* sizes of an answer *)
Lemma srows_len o n yv pv hs : forall s ab s', srows o n yv pv hs s ab s' -> length ab = length hs.
Proof.
  induction hs as [|h hs IH]; intros s [|p ab] s' H; cbn [srows length] in *; try tauto.
  destruct H as (s1 & s2 & _ & _ & _ & _ & H). f_equal. eauto.
Qed.
Lemma answer_size t y yS (o : cvs_rhs) q outs s r s' : ode_f o = rhs_prog q outs -> set_sens_rhs t y yS o s = Ok (r, s') ->
  length r = ode_ns o /\ Forall (fun v => length v = length outs) r.
Proof.
  intros EF HX. destruct (sens_inv t y yS o q outs s r s' EF HX) as (s1 & yv & fv & pv & s2 & env' & s3 & hs & ab & s4 & _ & _ & _ & _ & _ & _ & E4 & _ & E5 & _ & ->).
  unfold columns. split; [rewrite map_length, seq_length; reflexivity|]. apply Forall_forall. intros v Hv. apply in_map_iff in Hv.
  destruct Hv as (j & <- & _). rewrite !map_length, (srows_len _ _ _ _ _ _ _ _ E5). clear - E4. induction E4; cbn [length]; auto.
Qed.

(* the columns of the result *)
Lemma drive_step o q outs ks (A : F -> list F -> list (list F) -> list (list F) -> Prop) (D : F -> list F -> Prop) n : practical -> ode_f o = rhs_prog q outs -> length outs = n -> ode_ns o = length ks ->
  (forall t y, D t y -> prog_ok' (q t) /\ mat_free (q t)) ->
  (forall t y yS s r s', D t y -> length y = n -> length yS = length ks -> Forall (fun v => length v = n) yS -> valid s ->
     set_sens_rhs t y yS o s = Ok (r, s') -> A t y yS r) ->
  forall p nout s g yt s', asks D n (length ks) p -> Rel s g -> good g -> Forall (fun k => (k < gsize g)%nat) ks ->
  drive o (map hd ks) nout p s = Ok (yt, s') ->
  exists l g', delivers A nout p l /\ Rel s' g' /\ good g' /\ grows g g' /\
    Forall2 (fun (out : list F * list (list F)) hs => length hs = n /\ length (fst out) = n /\ length (snd out) = length ks /\
      forall i h, nth_error hs i = Some h -> exists k, h = hd k /\ (gsize g <= k)%nat /\ part_node g' k (nth i (fst out) f0) ks (map (fun v => nth i v f0) (snd out))) l yt.
Proof.
  intros HP EF LO LN HO HA. pose proof HP as [HC HJ].
  induction p as [|t y yS k IH|y yS p IH]; intros nout s g yt s' HK R0 HG HB HX; (destruct nout as [|nout];
    [unfold drive, mret in HX; assert (yt = []) by congruence; assert (s' = s) by congruence; subst;
     exists [], g; split; [constructor|]; split; auto; split; auto; split; [apply grows_refl|constructor]|]); cbn [drive] in HX.
  - discriminate HX.
  - unfold mbind in HX. destruct (set_sens_rhs t y yS o s) as [[r s1]| | |] eqn:E1; try discriminate. cbn [bind] in HX.
    cbn [asks] in HK. destruct HK as (HD & L1 & (L2 & L3) & HK).
    destruct (answer_size t y yS o q outs s r s1 EF E1) as [LR FR]. rewrite LO in FR. rewrite LN in LR.
    destruct (callback_keeps t y yS o q outs s g r s1 HP EF (proj1 (HO t y HD)) (proj2 (HO t y HD)) R0 HG E1) as (g1 & R1 & G1 & GR1 & SZ).
    destruct (IH r (S nout) s1 g1 yt s' (HK r (conj LR FR)) R1 G1 ltac:(rewrite SZ; exact HB) HX) as (l & g' & Q1 & Q2 & Q3 & Q4 & Q5).
    exists l, g'. split.
    { constructor 3 with (r := r); auto. apply (HA t y yS s r s1); auto. exists g. split; auto. }
    split; auto. split; auto. split; [eapply grows_trans; eauto|]. rewrite SZ in Q5. exact Q5.
  - unfold mbind in HX. destruct (sol_column (map hd ks) y yS s) as [[c s1]| | |] eqn:E1; try discriminate. cbn [bind] in HX.
    destruct (drive o (map hd ks) nout p s1) as [[cs s2]| | |] eqn:E2; try discriminate. cbn [bind] in HX. unfold mret in HX.
    assert (yt = c :: cs) by congruence. assert (s2 = s') by congruence. subst yt s2.
    cbn [asks] in HK. destruct HK as (L1 & (L2 & L3) & HK).
    destruct (column_step HC ks y yS (seq 0 (length y)) L2 s g c s1 R0 HG HB E1) as (g1 & R1 & G1 & GR1 & FF).
    pose proof (grows_size _ _ GR1) as SG.
    assert (HB1 : Forall (fun k => (k < gsize g1)%nat) ks) by (eapply Forall_impl; [|exact HB]; cbv beta; intros; lia).
    destruct (IH nout s1 g1 cs s' HK R1 G1 HB1 E2) as (l & g' & Q1 & Q2 & Q3 & Q4 & Q5).
    exists ((y, yS) :: l), g'. split; [constructor; auto|]. split; auto. split; auto. split; [eapply grows_trans; eauto|].
    constructor.
    + cbn [fst snd]. split; [|split; [exact L1|split; [exact L2|]]].
      * rewrite <- L1, <- (seq_length (length y) 0). clear - FF. induction FF; cbn [length]; auto.
      * intros i h Hi. assert (HS : nth_error (seq 0 (length y)) i = Some i).
        { assert (Hi' : (i < length (seq 0 (length y)))%nat).
          { assert (i < length c)%nat by (apply nth_error_Some; congruence). assert (length c = length (seq 0 (length y))) by (clear - FF; induction FF; cbn [length]; auto). lia. }
          rewrite (nth_error_nth' _ O Hi'). rewrite seq_length in Hi'. rewrite seq_nth by exact Hi'. reflexivity. }
        assert (FI : exists k, h = hd k /\ (gsize g <= k)%nat /\ part_node g1 k (nth i y f0) ks (map (fun v => nth i v f0) yS)).
        { destruct (f2_nth _ _ _ _ _ FF HS) as (b & Eb & Hb). assert (b = h) by congruence. subst b. exact Hb. }
        destruct FI as (k & -> & Hk & PN). exists k. split; auto. split; auto. eapply part_grows; eauto.
    + eapply Forall2_impl; [|exact Q5]. intros a b (B1 & B2 & B3 & B4). split; auto. split; auto. split; auto.
      intros i h Hi. destruct (B4 i h Hi) as (k & -> & Hk & PN). exists k. split; auto. split; auto. lia.
Qed.

Lemma nth_error_both {A B} (P : A -> B -> Prop) l l' : Forall2 P l l' -> length l' = length l /\
  forall i b, nth_error l' i = Some b -> exists a, nth_error l i = Some a /\ P a b.
Proof.
  induction 1 as [|x y l l' H _ [IH1 IH2]]; [split; auto; intros [|i] b E; discriminate|]. split; [cbn [length]; auto|].
  intros [|i] b E; cbn [nth_error] in *; eauto. injection E as <-. eauto.
Qed.

Lemma delivers_len (A : F -> list F -> list (list F) -> list (list F) -> Prop) n p l : delivers A n p l -> length l = n.
Proof. induction 1; cbn [length]; auto. Qed.

Lemma drive_full s o q outs ops (A : F -> list F -> list (list F) -> list (list F) -> Prop) (D : F -> list F -> Prop) n p nout yt s' :
  practical -> valid s -> Forall (alive s) ops -> ode_f o = rhs_prog q outs -> length outs = n -> ode_ns o = length ops ->
  (forall t y, D t y -> prog_ok' (q t) /\ mat_free (q t)) ->
  (forall t y yS s r s', D t y -> length y = n -> length yS = length ops -> Forall (fun v => length v = n) yS -> valid s ->
     set_sens_rhs t y yS o s = Ok (r, s') -> A t y yS r) ->
  asks D n (length ops) p -> drive o ops nout p s = Ok (yt, s') ->
  exists l, delivers A nout p l /\ solution s s' ops n l yt /\ valid s' /\
    (forall z, alive s z -> alive s' z /\ var_val s' z = var_val s z /\ var_adj s' z = var_adj s z) /\
    exists g g' ks, Rel s g /\ Rel s' g' /\ good g' /\ grows g g' /\ ops = map hd ks /\ Forall (fun k => (k < gsize g)%nat) ks /\
      Forall2 (fun (out : list F * list (list F)) hs => length hs = n /\ length (fst out) = n /\ length (snd out) = length ks /\
      forall i h, nth_error hs i = Some h -> exists k, h = hd k /\ (gsize g <= k)%nat /\ part_node g' k (nth i (fst out) f0) ks (map (fun v => nth i v f0) (snd out))) l yt.
Proof.
  intros HP (g & R0 & HG) HL EF LO LN HO HA HK HX. destruct (gen_nodes s g ops R0 HL) as (ks & -> & HB). rewrite map_length in *.
  destruct (drive_step o q outs ks A D n HP EF LO LN HO HA p nout s g yt s' HK R0 HG HB HX) as (l & g' & Q1 & Q2 & Q3 & Q4 & Q5).
  exists l. split; auto. split; [|split; [exists g'; split; auto|split; [|exists g, g', ks; auto 10]]].
  - destruct (nth_error_both _ _ _ Q5) as [LL NN]. split; [exact LL|].
    intros k hs Hk. destruct (NN k hs Hk) as ([y yS] & Hl & B1 & B2 & B3 & B4). cbn [fst snd] in *.
    exists y, yS. split; auto. split; auto. intros i h Hi. destruct (B4 i h Hi) as (j & -> & Hj & PN).
    assert (LP : length (map (fun v => nth i v f0) yS) = length ks) by (rewrite map_length; exact B3).
    exact (part_records (proj2 HP) s g s' g' j _ ks _ R0 Q2 Hj PN LP).
  - pose proof (grows_size _ _ Q4) as SG. intros z Hz. destruct (alive_node s g z R0 Hz) as (k & -> & Hk).
    destruct (grows_old g g' k (r_wf _ _ R0) Q4 Hk) as (_ & EV & Hk').
    split; [apply (node_alive s' g' k Q2 Hk')|].
    rewrite (rel_var_val s' g' Q2 k Hk'), (rel_var_val s g R0 k Hk), (rel_var_adj s' g' Q2 k Hk'), (rel_var_adj s g R0 k Hk), EV, (gr_adj _ _ Q4 k Hk). auto.
Qed.

Lemma init_unit n : init_sens true n n = unit_vectors n.
Proof.
  unfold init_sens, unit_vectors. apply map_ext_in. intros j Hj. apply in_seq in Hj. apply map_ext_in. intros i _.
  replace (Nat.ltb j n) with true by lia. reflexivity.
Qed.
Lemma init_zero k n : init_sens false k n = zero_vectors k n.
Proof.
  unfold init_sens, zero_vectors. cbn [andb].
  assert (H : forall a m, map (fun _ : nat => @f0 N) (seq a m) = repeat f0 m).
  { intros a m. revert a. induction m as [|m IH]; intros a; cbn [seq map repeat]; auto. f_equal. apply IH. }
  rewrite H. generalize 0%nat. induction k as [|k IH]; intros a; cbn [seq map repeat]; auto. f_equal. apply IH.
Qed.
Lemma vvals_inv s xs w s' : vvals xs s = Ok (w, s') -> s' = s /\ mapM (var_val s) xs = Ok w.
Proof.
  unfold vvals, mget. destruct (mapM (var_val s) xs); cbn [bind]; intros H; try discriminate. split; congruence.
Qed.

(* cvodes_sol with initial values / with parameters, for any arithmetic: each
   callback is answered by set_sens_rhs *)
Definition calls_ok (q : F -> list op) (t : F) (_ : list F) : Prop := prog_ok' (q t) /\ mat_free (q t).
Definition by_rhs (o : cvs_rhs) (t : F) (y : list F) (yS r : list (list F)) : Prop :=
  exists s1 s2, valid s1 /\ set_sens_rhs t y yS o s1 = Ok (r, s2).

Theorem y0_sens_ok s y nout q outs (S : integrator) v yt s' : practical -> valid s -> Forall (alive s) y -> mapM (var_val s) y = Ok v -> length outs = length y ->
  asks (calls_ok q) (length y) (length y) (S v (unit_vectors (length y))) ->
  cvodes_sol_y0_sens y nout (rhs_prog q outs) S s = Ok (yt, s') ->
  exists l,
    delivers (by_rhs (mkRhs true (length y) [] (rhs_prog q outs))) nout (S v (unit_vectors (length y))) l /\
    length yt = nout /\ solution s s' y (length y) l yt /\
    forall z, alive s z -> alive s' z /\ var_val s' z = var_val s z /\ var_adj s' z = var_adj s z.
Proof.
  intros HP HV HA EW LO HK HX. unfold cvodes_sol_y0_sens, mbind in HX.
  destruct (vvals y s) as [[v' s1]| | |] eqn:E1; try discriminate. cbn [bind] in HX. destruct (vvals_inv _ _ _ _ E1) as [-> EV].
  assert (v' = v) by congruence. subst v'.
  rewrite init_unit in HX.
  destruct (drive_full s (mkRhs true (length y) [] (rhs_prog q outs)) q outs y (by_rhs (mkRhs true (length y) [] (rhs_prog q outs))) (calls_ok q) (length y) (S v (unit_vectors (length y))) nout yt s'
    HP HV HA eq_refl LO eq_refl (fun t y0 H => H)) with (2 := HK) (3 := HX) as (l & Q1 & Q2 & _ & Q3 & _).
  - intros t y0 yS s0 r s2 _ _ _ _ HV0 E. exists s0, s2. auto.
  - exists l. split; auto. split; [rewrite (proj1 Q2); eapply delivers_len; eauto|]. split; auto.
Qed.

Theorem par_sens_ok s y param nout q outs (S : integrator) v yt s' : practical -> valid s -> Forall (alive s) param -> mapM (var_val s) param = Ok v -> length outs = length y ->
  asks (calls_ok q) (length y) (length param) (S y (zero_vectors (length param) (length y))) ->
  cvodes_sol_par_sens y param nout (rhs_prog q outs) S s = Ok (yt, s') ->
  exists l,
    delivers (by_rhs (mkRhs false (length param) v (rhs_prog q outs))) nout (S y (zero_vectors (length param) (length y))) l /\
    length yt = nout /\ solution s s' param (length y) l yt /\
    forall z, alive s z -> alive s' z /\ var_val s' z = var_val s z /\ var_adj s' z = var_adj s z.
Proof.
  intros HP HV HA EW LO HK HX. unfold cvodes_sol_par_sens, mbind in HX.
  destruct (vvals param s) as [[v' s1]| | |] eqn:E1; try discriminate. cbn [bind] in HX. destruct (vvals_inv _ _ _ _ E1) as [-> EV].
  assert (v' = v) by congruence. subst v'.
  rewrite init_zero in HX.
  destruct (drive_full s (mkRhs false (length param) v (rhs_prog q outs)) q outs param (by_rhs (mkRhs false (length param) v (rhs_prog q outs))) (calls_ok q) (length y) (S y (zero_vectors (length param) (length y))) nout yt s'
    HP HV HA eq_refl LO eq_refl (fun t y0 H => H)) with (2 := HK) (3 := HX) as (l & Q1 & Q2 & _ & Q3 & _).
  - intros t y0 yS s0 r s2 _ _ _ _ HV0 E. exists s0, s2. auto.
  - exists l. split; auto. split; [rewrite (proj1 Q2); eapply delivers_len; eauto|]. split; auto.
Qed.

(* the callback alone *)
Theorem callback_outer t y yS (o : cvs_rhs) q outs s r s' : practical -> valid s -> ode_f o = rhs_prog q outs ->
  prog_ok' (q t) -> mat_free (q t) -> set_sens_rhs t y yS o s = Ok (r, s') ->
  valid s' /\ (forall z, alive s' z <-> alive s z) /\
  forall z, alive s z -> var_val s' z = var_val s z /\ var_adj s' z = var_adj s z.
Proof.
  intros HP (g & R0 & HG) EF HO HM HX.
  destruct (callback_keeps t y yS o q outs s g r s' HP EF HO HM R0 HG HX) as (g' & R1 & G1 & GR & SZ).
  split; [exists g'; split; auto|]. split.
  - intros z. unfold alive. rewrite (r_head _ _ R0), (r_head _ _ R1), SZ. tauto.
  - intros z Hz. destruct (alive_node s g z R0 Hz) as (k & -> & Hk). destruct (grows_old g g' k (r_wf _ _ R0) GR Hk) as (_ & EV & Hk').
    rewrite (rel_var_val s' g' R1 k Hk'), (rel_var_val s g R0 k Hk), (rel_var_adj s' g' R1 k Hk'), (rel_var_adj s g R0 k Hk), EV, (gr_adj _ _ GR k Hk). auto.
Qed.
End Drive.
