(* C53: the recorded graph is the list of lines of ReverseSpec. *)
From Verif Require Import TapeFacts.
From Coq Require Import ZifyBool ZifyNat.
From Verif Require Export ReverseSpec Claims_run.
Local Open Scope nat_scope.

Section Lines.
Context {N : Num} {RL : RepLaws N} {C : Cfg N} (sg : nat -> nat).

Definition sh (l : list (nat * F)) : list (nat * F) := map (fun p => (sg (fst p), snd p)) l.

Lemma sh_combine ks : forall cs, sh (combine ks cs) = combine (map sg ks) cs.
Proof. induction ks as [|k ks IH]; intros [|c cs]; try reflexivity. cbn [combine map sh fst snd]. f_equal. apply IH. Qed.

Definition total (g : graph) : Prop := forall f k, k < gsize g -> exists es, effect (set_gadj g f) k = Some es.

Definition fits_line (g : graph) (k : nat) (ln : line) : Prop :=
  gval g k = l_value ln /\ forall f, effect (set_gadj g f) k = Some (sh (l_back ln (f k))).

Lemma new_line (g : graph) v ks ds ch ln (cs : F -> list F) : Forall (fun k => k < gsize g) (map sg ks) ->
  total (a_new g v (BRec (map sg ks) ds) ch) -> l_value ln = v -> (forall a, l_back ln a = combine ks (cs a)) ->
  (ks = [] \/ exists c, ch = Some c /\ forall a, contrib c v a (map (gval g) (map sg ks)) ds = Some (cs a)) ->
  fits_line (a_new g v (BRec (map sg ks) ds) ch) (gsize g) ln.
Proof.
  intros HB HT HV HK HC. set (g1 := a_new g v (BRec (map sg ks) ds) ch) in *. split.
  { unfold g1. rewrite gval_new, Nat.eqb_refl. auto. }
  intros f. rewrite HK, sh_combine.
  assert (ND : nth_error (g_nodes (set_gadj g1 f)) (gsize g) = Some (mkNode v (BRec (map sg ks) ds) (g_top g))).
  { simpl. rewrite nth_error_app2 by (unfold gsize; lia). unfold gsize. rewrite Nat.sub_diag. reflexivity. }
  destruct (HT f (gsize g)) as [es E]; [unfold g1; rewrite new_size; lia|].
  rewrite E. unfold effect in E. rewrite ND in E. cbn [n_body n_val] in E.
  destruct HC as [->|(c & -> & HE)].
  - cbn [map combine]. destruct (contrib _ _ _ _ _) as [l|]; [|discriminate]. cbn [map option_map combine] in E. congruence.
  - assert (EM : map (gval (set_gadj g1 f)) (map sg ks) = map (gval g) (map sg ks)).
    { apply map_ext_in. intros k Hk. rewrite Forall_forall in HB. specialize (HB k Hk).
      change (gval g1 k = gval g k). unfold g1. rewrite gval_new. destruct (Nat.eqb_spec k (gsize g)); [lia|reflexivity]. }
    rewrite EM in E. cbn [set_gadj g_adj g_ch g1 a_new push_top] in E. unfold nupd in E. rewrite Nat.eqb_refl in E.
    rewrite HE in E. cbn [option_map] in E. congruence.
Qed.

Definition step_is (g : graph) (r : ares (list nat * graph)) (ks : list nat) (u : outcome) : Prop :=
  match u with
  | Stops => r = AStop
  | Same => r = AOk (map sg ks, g)
  | New ls => exists g', r = AOk (seq (gsize g) (length ls), g') /\ gsize g' = gsize g + length ls /\
      forall q ln, nth_error ls q = Some ln -> fits_line g' (gsize g + q) ln
  end.

Definition act_is (g : graph) (a : act) (ks : list nat) (u : outcome) : Prop :=
  (forall k' g', do_act g a = AOk (k', g') -> total g') ->
  step_is g (abind (do_act g a) (fun p => AOk ([fst p], snd p))) ks u.

Lemma act_new (g : graph) v ks ds ch ln (cs : F -> list F) : Forall (fun k => k < gsize g) (map sg ks) ->
  l_value ln = v -> (forall a, l_back ln a = combine ks (cs a)) ->
  (ks = [] \/ exists c, ch = Some c /\ forall a, contrib c v a (map (gval g) (map sg ks)) ds = Some (cs a)) ->
  act_is g (ANew v (map sg ks) ds ch) ks (New [ln]).
Proof.
  intros HB HV HK HC HT. cbn [do_act abind step_is fst snd length seq]. eexists. split; [reflexivity|].
  split; [rewrite new_size; cbn [length]; lia|]. intros [|q] l Hq; [|destruct q; discriminate Hq].
  cbn [nth_error] in Hq. injection Hq as <-. rewrite Nat.add_0_r. eapply new_line; eauto. eapply HT. reflexivity.
Qed.

(* calls with operands of their own kind: the empty list too *)
Lemma act_list (g : graph) v ks ds ch ln (cs : F -> list F) : Forall (fun k => k < gsize g) (map sg ks) ->
  l_value ln = v -> (forall a, l_back ln a = combine ks (cs a)) ->
  (ks <> [] -> forall a, contrib ch v a (map (gval g) (map sg ks)) ds = Some (cs a)) ->
  act_is g (ANew v (map sg ks) ds (Some ch)) ks (New [ln]).
Proof. intros HB HV HK HC. eapply act_new; eauto. destruct ks; [left; reflexivity|right]. exists ch. split; auto. apply HC. discriminate. Qed.

Lemma un_lines u (g : graph) k : sg k < gsize g -> act_is g (act_un u g (sg k)) [k] (step (OUn u 0) [k] [gval g (sg k)]).
Proof.
  intros Hk. assert (HB : Forall (fun j => j < gsize g) (map sg [k])) by (constructor; auto).
  assert (GO : forall v c ch, (forall a, contrib ch v a [gval g (sg k)] [] = Some [c a]) ->
    act_is g (ANew v [sg k] [] (Some ch)) [k] (New [mkLine v (fun a => [(k, c a)])])).
  { intros v c ch HE. apply (act_new g v [k] [] (Some ch) _ (fun a => [c a]) HB); try reflexivity. right. exists ch. split; auto. }
  set (x := gval g (sg k)) in *.
  destruct u; cbn [act_un step un_records nth]; unfold anew1; fold x; try (apply GO; intros a; reflexivity).
  - destruct (is_nan_d x); cbn [negb andb]; [intros _; reflexivity|]. destruct (fle x f1); cbn [negb]; [intros _; reflexivity|].
    apply GO. reflexivity.
  - unfold fge. destruct (is_nan_d x); cbn [negb andb]; [intros _; reflexivity|]. destruct (fle x (fneg f1)); cbn [negb andb orb]; [intros _; reflexivity|].
    destruct (fle f1 x); cbn [negb]; [intros _; reflexivity|]. apply GO. reflexivity.
  - intros _; reflexivity.
  - unfold act_abs, abs_line. fold x. unfold fgt. destruct (flt f0 x); [intros _; reflexivity|].
    destruct (flt x f0); [apply GO; reflexivity|]. destruct (feq x f0).
    + intros HT. cbn [do_act abind step_is fst snd length seq]. eexists. split; [reflexivity|].
      split; [rewrite new_size; cbn [length]; lia|]. intros [|q] l Hq; [|destruct q; discriminate Hq].
      cbn [nth_error] in Hq. injection Hq as <-. rewrite Nat.add_0_r.
      apply (new_line g f0 [] [] None _ (fun _ => [])); auto; [constructor|]. eapply HT. reflexivity.
    + apply (act_new g c_nan [k] [] (Some ChAbs) _ (fun _ => if is_nan_d c_nan then [c_nan] else []) HB); try reflexivity.
      * intros a. cbn [l_back]. destruct (is_nan_d c_nan); reflexivity.
      * right. exists ChAbs. split; auto.
Qed.

Lemma vv_lines b (g : graph) k1 k2 : sg k1 < gsize g -> sg k2 < gsize g ->
  act_is g (act_vv b g (sg k1) (sg k2)) [k1; k2] (step (OVV b 0 1) [k1; k2] [gval g (sg k1); gval g (sg k2)]).
Proof.
  intros H1 H2. assert (HB : Forall (fun j => j < gsize g) (map sg [k1; k2])) by (repeat constructor; auto).
  cbn [step nth]. set (x := gval g (sg k1)). set (y := gval g (sg k2)).
  assert (GO : forall v (c : F -> list F) ch, (forall a, contrib ch v a [x; y] [] = Some (c a)) ->
    act_is g (ANew v [sg k1; sg k2] [] (Some ch)) [k1; k2] (New [mkLine v (fun a => combine [k1; k2] (c a))])).
  { intros v c ch HE. apply (act_new g v [k1; k2] [] (Some ch) _ c HB); try reflexivity. right. exists ch. split; auto. }
  destruct b; cbn [act_vv]; fold x y; apply GO; intros a; cbn [contrib vv_step is_nil andb]; try reflexivity.
  unfold fne. destruct (feq x f0); reflexivity.
Qed.

Lemma vd_lines b (g : graph) k d : sg k < gsize g -> neutral (OVD b 0 d) = false ->
  act_is g (act_vd b g (sg k) d) [k] (step (OVD b 0 d) [k] [gval g (sg k)]).
Proof.
  intros Hk HN. assert (HB : Forall (fun j => j < gsize g) (map sg [k])) by (constructor; auto).
  assert (GO : forall v (c : F -> list F) ds ch, (forall a, contrib ch v a [gval g (sg k)] ds = Some (c a)) ->
    act_is g (ANew v [sg k] ds (Some ch)) [k] (New [mkLine v (fun a => combine [k] (c a))])).
  { intros v c ds ch HE. apply (act_new g v [k] ds (Some ch) _ c HB); try reflexivity. right. exists ch. split; auto. }
  set (x := gval g (sg k)) in *.
  destruct b; cbn [act_vd step vd_records nth neutral] in *; unfold anew1, fne in *; fold x; rewrite ?HN; cbn [negb];
    try (apply GO; intros a; reflexivity).
  cbn [vd_value vd_step]. unfold pow_as.
  destruct (feq d fhalf); [apply GO; reflexivity|]. destruct (feq d f1); [intros _; reflexivity|].
  destruct (feq d f2); [apply GO; reflexivity|]. destruct (feq d (fneg f2)); [apply GO; reflexivity|].
  destruct (feq d (fneg f1)); [apply GO; reflexivity|]. destruct (feq d (fneg fhalf)); [apply GO; reflexivity|].
  apply GO. intros a. cbn [contrib is_nil andb]. unfold fne. destruct (feq x f0); reflexivity.
Qed.

Lemma dv_lines b (g : graph) k d : sg k < gsize g -> neutral (ODV b d 0) = false ->
  act_is g (act_dv b g d (sg k)) [k] (step (ODV b d 0) [k] [gval g (sg k)]).
Proof.
  intros Hk HN. assert (HB : Forall (fun j => j < gsize g) (map sg [k])) by (constructor; auto).
  assert (GO : forall v (c : F -> list F) ds ch, (forall a, contrib ch v a [gval g (sg k)] ds = Some (c a)) ->
    act_is g (ANew v [sg k] ds (Some ch)) [k] (New [mkLine v (fun a => combine [k] (c a))])).
  { intros v c ds ch HE. apply (act_new g v [k] ds (Some ch) _ c HB); try reflexivity. right. exists ch. split; auto. }
  set (x := gval g (sg k)) in *.
  destruct b; cbn [act_dv step dv_records nth neutral] in *; unfold anew1, fne in *; fold x; rewrite ?HN; cbn [negb];
    try (apply GO; intros a; reflexivity).
  apply GO. intros a. cbn [contrib is_nil andb dv_step]. unfold fne. destruct (feq d f0); reflexivity.
Qed.

Lemma amat_lines (g : graph) ch m c n ca cb av bv ks ls (es : nat -> nat -> F -> list (nat * F)) :
  length av = m * c -> length bv = c * n -> (Z.of_nat m <= max_int)%Z -> (Z.of_nat c <= max_int)%Z -> (Z.of_nat n <= max_int)%Z ->
  ls = map (fun e => let (i, j) := e : nat * nat in mkLine (fmm (row f0 m c i av) (col f0 c j bv)) (es i j)) (entries m n) ->
  (forall (g1 : graph) q i j a p1 p2 nd, i < m -> j < n -> (forall x, x < gsize g -> gval g1 x = gval g x) ->
     nth_error (g_nodes g1) q = Some nd -> n_body nd = BMat i j (length (g_arrs g)) (S (length (g_arrs g))) -> g_ch g1 q = ch ->
     nth_error (g_arrs g1) (length (g_arrs g)) = Some (mkArr m c ca p1) -> nth_error (g_arrs g1) (S (length (g_arrs g))) = Some (mkArr c n cb p2) ->
     g_adj g1 q = a -> effect g1 q = Some (sh (es i j a))) ->
  step_is g (amat ch m c n ca cb av bv g) ks (New ls).
Proof.
  intros L1 L2 B1 B2 B3 HLS HE. unfold amat. rewrite L1, L2, !Nat.eqb_refl.
  assert (HD : dims_ok m c n = true) by (unfold dims_ok, dim_ok; unfold max_int in *; lia). rewrite HD. cbn [andb]. cbv zeta.
  set (ps := combine (mpairs m n) (mat_vals m c n av bv)) in *.
  assert (LL : length (mpairs m n) = length (mat_vals m c n av bv)) by (unfold mat_vals; rewrite map_length; reflexivity).
  assert (LP : length ps = m * n) by (unfold ps; rewrite combine_length, <- LL, mpairs_len; apply Nat.min_id).
  set (g2 := a_arr (a_arr g m c ca) c n cb) in *. set (ia := length (g_arrs g)) in *. set (g1 := mat_nodes ch ia (S ia) ps g2) in *.
  assert (LS : length ls = m * n) by (rewrite HLS, map_length; apply mpairs_len).
  assert (SZ : gsize g1 = gsize g + m * n) by (unfold g1; rewrite mat_nodes_size, LP; reflexivity).
  unfold step_is. exists g1. rewrite LP, LS. split; [reflexivity|]. split; [exact SZ|]. intros q ln Hq.
  rewrite HLS, nth_error_map in Hq. destruct (nth_error (entries m n) q) as [[i j]|] eqn:EQ; [|discriminate]. cbn [option_map] in Hq. injection Hq as <-.
  assert (Hq : q < m * n). { rewrite <- (mpairs_len m n). eapply nth_error_lt. exact EQ. }
  assert (HIJ : i < m /\ j < n).
  { apply nth_error_In in EQ. unfold entries in EQ. apply in_flat_map in EQ. destruct EQ as (j' & Hj' & Hi'). apply in_seq in Hj'.
    apply in_map_iff in Hi'. destruct Hi' as (i' & E' & Hi'). apply in_seq in Hi'. injection E' as -> ->. lia. }
  destruct HIJ as [Hi Hj].
  destruct (mat_node_at ch ia (S ia) ps g2 q ltac:(lia)) as (nd & N1 & N2 & N3 & N4). fold g1 in N1, N4.
  change (gsize g2) with (gsize g) in N1, N4.
  assert (EP : nth q ps ((O, O), f0) = ((i, j), fmm (row f0 m c i av) (col f0 c j bv))).
  { unfold ps. rewrite combine_nth by auto. change (mpairs m n) with (entries m n). rewrite (nth_error_nth _ _ (O, O) EQ). f_equal. unfold mat_vals.
    rewrite (nth_map_in _ (mpairs m n) _ f0 (O, O)) by (rewrite mpairs_len; lia). change (mpairs m n) with (entries m n). rewrite (nth_error_nth _ _ (O, O) EQ). reflexivity. }
  rewrite EP in N2, N3. cbn [fst snd] in N2, N3. split.
  { unfold gval. rewrite N1. exact N3. }
  intros f. cbn [l_back]. apply (HE _ (gsize g + q) i j (f (gsize g + q)) (g_top g) (g_top (a_arr g m c ca)) nd Hi Hj); auto.
  - intros x Hx. change (gval g1 x = gval g x). assert (G : grows g g1).
    { eapply grows_trans; [apply grows_arr|]. eapply grows_trans; [apply grows_arr|]. apply grows_mat. }
    apply (grows_val g g1 x G Hx).
  - cbn [set_gadj g_arrs]. unfold g1. rewrite mat_arrs. unfold g2, a_arr, push_top. cbn [g_arrs].
    rewrite nth_error_app1 by (rewrite app_length; cbn [length]; unfold ia; lia). unfold ia. rewrite nth_error_app2, Nat.sub_diag by lia. reflexivity.
  - cbn [set_gadj g_arrs]. unfold g1. rewrite mat_arrs. unfold g2, a_arr, push_top. cbn [g_arrs].
    rewrite nth_error_app2 by (rewrite app_length; cbn [length]; unfold ia; lia). rewrite app_length. cbn [length]. fold ia.
    replace (S ia - (ia + 1)) with 0 by lia. reflexivity.
Qed.

Lemma row_sg m c i ks : length ks = m * c -> i < m -> mrow 0 m c i (map sg ks) = map sg (row 0 m c i ks).
Proof.
  intros HL Hi. unfold row, mrow. rewrite map_map. apply map_ext_in. intros j Hj. apply in_seq in Hj.
  rewrite (nth_map_in sg ks _ 0 0) by nia. reflexivity.
Qed.
Lemma col_sg c n j ks : length ks = c * n -> j < n -> mcol 0 c j (map sg ks) = map sg (col 0 c j ks).
Proof.
  intros HL Hi. unfold col, mcol. rewrite map_map. apply map_ext_in. intros i Hj. apply in_seq in Hj.
  rewrite (nth_map_in sg ks _ 0 0) by nia. reflexivity.
Qed.
Lemma sh_app l l' : sh (l ++ l') = sh l ++ sh l'.
Proof. apply map_app. Qed.

Lemma aregs_app (g : graph) ke l l' : forall kk, aregs g ke (l ++ l') = Some kk ->
  exists k1 k2, aregs g ke l = Some k1 /\ aregs g ke l' = Some k2 /\ kk = k1 ++ k2 /\ length k1 = length l.
Proof.
  induction l as [|r l IH]; intros kk; cbn [app aregs]; intros E.
  - exists [], kk. auto.
  - destruct (areg g ke r) as [k|]; [|discriminate]. destruct (aregs g ke (l ++ l')) as [k1|] eqn:E1; [|discriminate].
    injection E as <-. destruct (IH _ eq_refl) as (a & b & E2 & E3 & -> & E4). exists (k :: a), b. rewrite E2. cbn [length]. auto.
Qed.

Lemma aregs_live (g : graph) ke : forall l kk, aregs g ke l = Some kk -> Forall (fun k => k < gsize g) kk.
Proof.
  induction l as [|r l IH]; cbn [aregs]; intros kk E; [injection E as <-; constructor|].
  unfold areg in E. destruct (nth_error ke r) as [k|]; [|discriminate]. destruct (Nat.ltb_spec k (gsize g)); [|discriminate].
  destruct (aregs g ke l); [|discriminate]. injection E as <-. constructor; auto.
Qed.

Lemma split_sg ks n : firstn n (map sg ks) = map sg (firstn n ks) /\ skipn n (map sg ks) = map sg (skipn n ks).
Proof. split; [apply firstn_map|apply skipn_map]. Qed.

Lemma step_lines (g : graph) ke o ks : aregs g ke (op_regs o) = Some (map sg ks) -> op_shape o -> neutral o = false ->
  (forall ks' g', aexec_op g ke o = AOk (ks', g') -> total g') ->
  step_is g (aexec_op g ke o) ks (step o ks (map (gval g) (map sg ks))).
Proof.
  intros EK HS HN HT. pose proof (aregs_live g ke _ _ EK) as HL.
  assert (ACT : forall a, aexec_op g ke o = abind (do_act g a) (fun p => AOk ([fst p], snd p)) ->
    act_is g a ks (step o ks (map (gval g) (map sg ks))) -> step_is g (aexec_op g ke o) ks (step o ks (map (gval g) (map sg ks)))).
  { intros a E H. rewrite E. apply H. intros k' g' E'. eapply (HT [k'] g'). rewrite E, E'. reflexivity. }
  assert (R1 : forall a, op_regs o = [a] -> exists k, ks = [k] /\ areg g ke a = Some (sg k) /\ sg k < gsize g).
  { intros a Ea. rewrite Ea in EK. cbn [aregs] in EK. destruct (areg g ke a) as [k'|] eqn:E1; [|discriminate].
    injection EK as E2. destruct ks as [|k [|k2 ks]]; try discriminate E2. cbn [map] in E2. injection E2 as ->. exists k. split; auto. split; auto.
    inversion HL; auto. }
  pose proof (aregs_len g ke _ _ EK) as LK. rewrite map_length in LK.
  destruct o; cbn [op_regs] in *.
  - destruct ks; [|discriminate LK]. apply (ACT (ANew d [] [] None) eq_refl).
    apply (act_new g d [] [] None _ (fun _ => [])); auto.
  - destruct ks; [|discriminate LK]. apply (ACT (ANew f0 [] [] None) eq_refl).
    apply (act_new g f0 [] [] None _ (fun _ => [])); auto.
  - destruct (R1 _ eq_refl) as (k & -> & E1 & Hk). apply (ACT (act_un u g (sg k))); [cbn [aexec_op act_op]; rewrite E1; reflexivity|]. apply un_lines; auto.
  - cbn [aregs] in EK. destruct (areg g ke x) as [k1'|] eqn:E1; [|discriminate]. destruct (areg g ke y) as [k2'|] eqn:E2; [|discriminate].
    injection EK as EK. destruct ks as [|k1 [|k2 [|k3 ks]]]; try discriminate EK. cbn [map] in EK. injection EK as -> ->.
    apply (ACT (act_vv b g (sg k1) (sg k2))); [cbn [aexec_op act_op]; rewrite E1, E2; reflexivity|].
    inversion HL as [|? ? Ha HL2]; subst. inversion HL2; subst. apply vv_lines; auto.
  - destruct (R1 _ eq_refl) as (k & -> & E1 & Hk). apply (ACT (act_vd b g (sg k) d)); [cbn [aexec_op act_op]; rewrite E1; reflexivity|]. apply vd_lines; auto.
  - destruct (R1 _ eq_refl) as (k & -> & E1 & Hk). apply (ACT (act_dv b g d (sg k))); [cbn [aexec_op act_op]; rewrite E1; reflexivity|]. apply dv_lines; auto.
  - eapply ACT; [cbn [aexec_op act_op]; rewrite EK; reflexivity|]. eapply act_list; [exact HL|reflexivity|reflexivity|].
    intros HK a. unfold contrib. destruct ks; [contradiction|]. reflexivity.
  - eapply ACT; [cbn [aexec_op act_op]; rewrite EK; reflexivity|]. eapply act_list; [exact HL|reflexivity|reflexivity|].
    intros HK a. unfold contrib. destruct ks; [contradiction|]. reflexivity.
  - eapply ACT; [cbn [aexec_op act_op]; rewrite EK; reflexivity|]. eapply act_list; [exact HL|reflexivity|reflexivity|].
    intros HK a. unfold contrib. destruct ks; [contradiction|]. reflexivity.
  - destruct (aregs_app g ke l1 l2 _ EK) as (k1 & k2 & E1 & E2 & E3 & E4). cbn [op_shape] in HS.
    pose proof (aregs_len g ke _ _ E2) as LK2.
    eapply ACT; [cbn [aexec_op act_op]; rewrite E1, E2; replace (Nat.eqb (length k1) (length k2)) with true by lia; rewrite <- E3; reflexivity|].
    assert (F1 : firstn (length l1) (map (gval g) (map sg ks)) = map (gval g) k1).
    { rewrite E3, map_app, firstn_app, map_length, E4, Nat.sub_diag. cbn [firstn]. rewrite app_nil_r. rewrite firstn_all2 by (rewrite map_length; lia). reflexivity. }
    assert (F2 : skipn (length l1) (map (gval g) (map sg ks)) = map (gval g) k2).
    { rewrite E3, map_app, skipn_app, map_length, E4, Nat.sub_diag. cbn [skipn]. rewrite skipn_all2 by (rewrite map_length; lia). reflexivity. }
    eapply act_list; [exact HL|cbn [l_value]; rewrite F1, F2; reflexivity|reflexivity|].
    intros HK a. unfold contrib. destruct ks as [|k ks]; [contradiction|]. cbn [map is_nil andb]. cbv zeta.
    change (gval g (sg k) :: map (gval g) (map sg ks)) with (map (gval g) (map sg (k :: ks))). rewrite !map_length, LK, app_length.
    rewrite <- HS. replace (length l1 + length l1) with (2 * length l1) by lia. rewrite Nat.div2_double, Nat.eqb_refl. reflexivity.
  - cbn [op_shape] in HS. eapply ACT; [cbn [aexec_op act_op]; rewrite EK; rewrite map_length; replace (Nat.eqb (length ks) (length d)) with true by lia; reflexivity|].
    eapply act_list; [exact HL|reflexivity|reflexivity|]. intros HK a. unfold contrib. destruct ks as [|k ks]; [contradiction|].
    cbn [map is_nil andb]. change (gval g (sg k) :: map (gval g) (map sg ks)) with (map (gval g) (map sg (k :: ks))). rewrite !map_length.
    replace (Nat.eqb (length (k :: ks)) (length d)) with true by lia. reflexivity.
  - cbn [op_shape] in HS. eapply ACT; [cbn [aexec_op act_op]; rewrite EK; rewrite map_length; replace (Nat.eqb (length d) (length ks)) with true by lia; reflexivity|].
    eapply act_list; [exact HL|reflexivity|reflexivity|]. intros HK a. unfold contrib. destruct ks as [|k ks]; [contradiction|].
    cbn [map is_nil andb]. change (gval g (sg k) :: map (gval g) (map sg ks)) with (map (gval g) (map sg (k :: ks))). rewrite !map_length.
    replace (Nat.eqb (length (k :: ks)) (length d)) with true by lia. reflexivity.
  - destruct (aregs_app g ke a b _ EK) as (k1 & k2 & E1 & E2 & E3 & E4). cbn [op_shape] in HS. destruct HS as (S1 & S2 & S3 & S4 & S5).
    pose proof (aregs_len g ke _ _ E2) as LK2.
    cbn [aexec_op]. rewrite E1, E2. cbn [step].
    assert (F1 : firstn (length a) (map sg ks) = k1).
    { rewrite E3, firstn_app, E4, Nat.sub_diag. cbn [firstn]. rewrite app_nil_r. apply firstn_all2. lia. }
    assert (F2 : skipn (length a) (map sg ks) = k2).
    { rewrite E3, skipn_app, E4, Nat.sub_diag. cbn [skipn]. rewrite skipn_all2 by lia. reflexivity. }
    assert (G1 : k1 = map sg (firstn (length a) ks)) by (rewrite <- firstn_map; auto).
    assert (G2 : k2 = map sg (skipn (length a) ks)) by (rewrite <- skipn_map; auto).
    assert (HL' : Forall (fun k => k < gsize g) k1 /\ Forall (fun k => k < gsize g) k2) by (rewrite E3 in HL; apply Forall_app; auto).
    destruct HL' as [HL1 HL2].
    rewrite (firstn_map (gval g)), (skipn_map (gval g)), F1, F2.
    set (ka := firstn (length a) ks) in *. set (kb := skipn (length a) ks) in *.
    assert (LA : length ka = m * k) by (rewrite <- (map_length sg), <- G1; lia).
    assert (LB : length kb = k * n) by (rewrite <- (map_length sg), <- G2; lia).
    eapply (amat_lines g ChMatVV m k n (AVar k1) (AVar k2) (map (gval g) k1) (map (gval g) k2) ks _
      (fun i j a => combine (row 0 m k i ka) (map (fmul a) (col f0 k j (map (gval g) k2))) ++
                    combine (col 0 k j kb) (map (fmul a) (row f0 m k i (map (gval g) k1))))); auto; rewrite ?map_length; try lia.
    intros g1 q i j x p1 p2 nd Hi Hj HG N1 N2 N3 N4 N5 N6. unfold effect. rewrite N1, N2, N3, N4, N5, N6.
    rewrite (proj2 (Nat.ltb_lt i m) Hi), (proj2 (Nat.ltb_lt j n) Hj), Nat.eqb_refl. cbn [andb]. cbv zeta.
    rewrite sh_app, !sh_combine. rewrite <- (row_sg m k i ka LA Hi), <- (col_sg k n j kb LB Hj), <- G1, <- G2.
    do 3 f_equal.
    + rewrite <- map_map with (f := gval g1) (g := fmul x). rewrite (col_gv g g1 k n j k2) by (auto; lia). reflexivity.
    + rewrite <- map_map with (f := gval g1) (g := fmul x). rewrite (row_gv g g1 m k i k1) by (auto; lia). reflexivity.
  - cbn [op_shape] in HS. destruct HS as (S1 & S2 & S3 & S4 & S5). cbn [aexec_op]. rewrite EK. cbn [step].
    eapply (amat_lines g ChMatVD m k n (AVar (map sg ks)) (ADat b) (map (gval g) (map sg ks)) b ks _
      (fun i j a => combine (row 0 m k i ks) (map (fmul a) (col f0 k j b)))); auto; rewrite ?map_length; try lia.
    intros g1 q i j x p1 p2 nd Hi Hj HG N1 N2 N3 N4 N5 N6. unfold effect. rewrite N1, N2, N3, N4, N5, N6.
    rewrite (proj2 (Nat.ltb_lt i m) Hi), (proj2 (Nat.ltb_lt j n) Hj), Nat.eqb_refl. cbn [andb].
    rewrite sh_combine, (row_sg m k i ks) by (auto; lia). reflexivity.
  - cbn [op_shape] in HS. destruct HS as (S1 & S2 & S3 & S4 & S5). cbn [aexec_op]. rewrite EK. cbn [step].
    eapply (amat_lines g ChMatDV m k n (ADat a) (AVar (map sg ks)) a (map (gval g) (map sg ks)) ks _
      (fun i j x => combine (col 0 k j ks) (map (fmul x) (row f0 m k i a)))); auto; rewrite ?map_length; try lia.
    intros g1 q i j x p1 p2 nd Hi Hj HG N1 N2 N3 N4 N5 N6. unfold effect. rewrite N1, N2, N3, N4, N5, N6.
    rewrite (proj2 (Nat.ltb_lt i m) Hi), (proj2 (Nat.ltb_lt j n) Hj), Nat.eqb_refl. cbn [andb].
    rewrite sh_combine, (col_sg k n j ks) by (auto; lia). reflexivity.
  - cbn [op_shape] in HS. assert (HP : length (p (map (gval g) (map sg ks))) = length ks) by (rewrite LK; apply HS; rewrite !map_length; exact LK).
    eapply ACT; [cbn [aexec_op act_op]; rewrite EK; cbv zeta; rewrite HP, map_length, Nat.eqb_refl; reflexivity|].
    eapply act_list; [exact HL|reflexivity|reflexivity|]. intros HK a. unfold contrib. destruct ks as [|k ks]; [contradiction|].
    cbn [map is_nil andb]. change (gval g (sg k) :: map (gval g) (map sg ks)) with (map (gval g) (map sg (k :: ks))). rewrite !map_length, HP, Nat.eqb_refl. reflexivity.
Qed.
End Lines.
