(* matmul in any arithmetic: values and steps of the entries of a product (C50). *)
From Coq Require Import ZifyBool ZifyNat.
From Verif Require Import TapeFacts.
From Verif Require Export Claims_exact.

Section ExactMat.
Context {N : Num} {RL : RepLaws N} {C : Cfg N}.

Definition named (l : list (nat * F)) : list (Z * F) := map (fun p => (hd (fst p), snd p)) l.

Lemma apply_named l : forall (f : nat -> F) k, apply_effect l f k = fold_left fadd (due (hd k) (named l)) (f k).
Proof.
  induction l as [|[o c] l IH]; intros f k; [reflexivity|].
  unfold apply_effect. cbn [fold_left]. fold (apply_effect l (addto f (o, c))). rewrite IH.
  unfold due at 2. cbn [named map fst snd filter]. unfold addto. cbn [fst snd]. unfold nupd.
  destruct (Nat.eqb_spec k o) as [->|Hne].
  - rewrite Z.eqb_refl. reflexivity.
  - destruct (Z.eqb_spec (hd o) (hd k)) as [E|E]; [unfold hd in E; lia|]. reflexivity.
Qed.

Lemma mat_arrs ch ia ib ps : forall g : graph, g_arrs (mat_nodes ch ia ib ps g) = g_arrs g.
Proof. induction ps as [|q ps IH]; intros g; auto. rewrite mat_nodes_cons, IH. reflexivity. Qed.
Lemma mat_top ch ia ib ps : forall g : graph, g_top (mat_nodes ch ia ib ps g) = g_top g + 10 * zlen ps /\
  g_peak (mat_nodes ch ia ib ps g) <= Z.max (g_peak g) (g_top g + 10 * zlen ps).
Proof.
  induction ps as [|q ps IH]; intros g0.
  - unfold mat_nodes, zlen; simpl. lia.
  - rewrite mat_nodes_cons. destruct (IH (a_new g0 (snd q) (BMat (fst (fst q)) (snd (fst q)) ia ib) (Some ch))) as [I1 I2].
    simpl in I1, I2. rewrite I1. unfold zlen in *. simpl length. lia.
Qed.
Lemma mat_node_at ch ia ib ps : forall (g : graph) q, (q < length ps)%nat ->
  exists nd, nth_error (g_nodes (mat_nodes ch ia ib ps g)) (gsize g + q) = Some nd /\
    n_body nd = BMat (fst (fst (nth q ps ((O, O), f0)))) (snd (fst (nth q ps ((O, O), f0)))) ia ib /\
    n_val nd = snd (nth q ps ((O, O), f0)) /\
    g_ch (mat_nodes ch ia ib ps g) (gsize g + q) = ch.
Proof.
  induction ps as [|p ps IH]; intros g q Hq; cbn [length] in Hq; [lia|]. rewrite mat_nodes_cons.
  set (g1 := a_new g (snd p) (BMat (fst (fst p)) (snd (fst p)) ia ib) (Some ch)).
  assert (SZ : gsize g1 = S (gsize g)) by apply new_size.
  destruct q as [|q].
  - destruct (grows_mat ch ia ib ps g1) as [[l En] _ _ _ Ech _].
    exists (mkNode (snd p) (BMat (fst (fst p)) (snd (fst p)) ia ib) (g_top g)). rewrite Nat.add_0_r. split; [|split; [|split]]; try reflexivity.
    + rewrite En. rewrite nth_error_app1 by (fold (gsize g1); lia). unfold g1, a_new, push_top. cbn [g_nodes].
      rewrite nth_error_app2 by (unfold gsize; lia). unfold gsize. rewrite Nat.sub_diag. reflexivity.
    + rewrite Ech by lia. unfold g1, a_new, push_top. cbn [g_ch]. unfold nupd. rewrite Nat.eqb_refl. reflexivity.
  - destruct (IH g1 q ltac:(lia)) as (nd & E1 & E2 & E3). rewrite SZ in E1, E3.
    replace (gsize g + S q)%nat with (S (gsize g) + q)%nat by lia. exists nd. auto.
Qed.

Lemma pair_at m n i j : (i < m)%nat -> (j < n)%nat -> nth (i + j * m) (mpairs m n) (O, O) = (i, j).
Proof.
  intros Hi Hj. unfold mpairs.
  assert (E : forall l c, (c < length l)%nat -> nth (i + c * m) (flat_map (fun j => map (fun i => (i, j)) (seq 0 m)) l) (O, O) = (i, nth c l O)).
  { induction l as [|a0 l IH]; intros c Hc; cbn [length] in Hc; [lia|]. cbn [flat_map].
    destruct c as [|c]; cbn [nth].
    - rewrite app_nth1 by (rewrite map_length, seq_length; lia). rewrite Nat.mul_0_l, Nat.add_0_r.
      rewrite (nth_map_in (fun i => (i, a0)) (seq 0 m) i (O, O) O) by (rewrite seq_length; auto). rewrite seq_nth by auto. reflexivity.
    - rewrite app_nth2 by (rewrite map_length, seq_length; nia). rewrite map_length, seq_length.
      replace (i + S c * m - m)%nat with (i + c * m)%nat by nia. apply IH. lia. }
  rewrite E by (rewrite seq_length; auto). rewrite seq_nth by auto. reflexivity.
Qed.

(* entries of a product that performs amat *)
Lemma mat_records mm s g ch m k n ca cb av bv w (es : nat -> nat -> F -> list (nat * F)) : Rel s g ->
  performsL mm s (amat ch m k n ca cb av bv g) -> length av = (m * k)%nat -> length bv = (k * n)%nat ->
  Z.of_nat m <= max_int -> Z.of_nat k <= max_int -> Z.of_nat n <= max_int ->
  alen (mkArr m k ca 0) + alen (mkArr k n cb 0) + 10 * Z.of_nat (m * n) <= w -> roomy s w ->
  (forall (g1 : graph) q i j a p1 p2 nd, (i < m)%nat -> (j < n)%nat -> (forall x, (x < gsize g)%nat -> gval g1 x = gval g x) ->
     nth_error (g_nodes g1) q = Some nd -> n_body nd = BMat i j (length (g_arrs g)) (S (length (g_arrs g))) -> g_ch g1 q = ch ->
     nth_error (g_arrs g1) (length (g_arrs g)) = Some (mkArr m k ca p1) -> nth_error (g_arrs g1) (S (length (g_arrs g))) = Some (mkArr k n cb p2) ->
     g_adj g1 q = a -> effect g1 q = Some (es i j a)) ->
  exists hs s', mm s = Ok (hs, s') /\ length hs = (m * n)%nat /\
    forall i j, (i < m)%nat -> (j < n)%nat -> exists h, nth_error hs (i + j * m) = Some h /\
      records s s' h (fmm (row f0 m k i av) (col f0 k j bv)) (fun a => named (es i j a)).
Proof.
  intros R0 HP L1 L2 B1 B2 B3 Hw HM HE. unfold amat in HP. rewrite L1, L2, !Nat.eqb_refl in HP.
  assert (HD : dims_ok m k n = true) by (unfold dims_ok, dim_ok; unfold max_int in *; lia). rewrite HD in HP. cbn [andb] in HP. cbv zeta in HP.
  set (ps := combine (mpairs m n) (mat_vals m k n av bv)) in *.
  assert (LL : length (mpairs m n) = length (mat_vals m k n av bv)) by (unfold mat_vals; rewrite map_length; reflexivity).
  assert (LP : length ps = (m * n)%nat) by (unfold ps; rewrite combine_length, <- LL, mpairs_len; apply Nat.min_id).
  set (g2 := a_arr (a_arr g m k ca) k n cb) in *. set (ia := length (g_arrs g)) in *. set (g1 := mat_nodes ch ia (S ia) ps g2) in *.
  assert (AL1 := alen_pos (mkArr m k ca 0)). assert (AL2 := alen_pos (mkArr k n cb 0)).
  destruct (roomy_peak s g w R0 ltac:(lia) HM) as [P1 P2].
  cbn [performsL] in HP. specialize (HP False).
  assert (HX : excused False g1).
  { intros H. exfalso. revert H. pose proof (mat_top ch ia (S ia) ps g2) as [_ MT]. fold g1 in MT.
    unfold g2, a_arr, push_top in MT. cbn [g_top g_peak] in MT. unfold zlen in MT. rewrite LP in MT. unfold alen in *. cbn [a_c] in *. lia. }
  specialize (HP HX). destruct (mm s) as [[hs s']| |[]|]; cbn in HP; try tauto. destruct HP as [E R1]. exists hs, s'.
  split; auto. subst hs. rewrite LP. split; [rewrite map_length, seq_length; auto|]. intros i j Hi Hj.
  set (q := (i + j * m)%nat). assert (Hq : (q < m * n)%nat) by (unfold q; nia). exists (hd (gsize g + q)).
  assert (SZ : gsize g1 = (gsize g + m * n)%nat) by (unfold g1; rewrite mat_nodes_size, LP; reflexivity).
  split.
  { rewrite nth_error_map. rewrite (nth_error_nth' (seq (gsize g) (m * n)) O) by (rewrite seq_length; auto). rewrite seq_nth by auto. reflexivity. }
  destruct (mat_node_at ch ia (S ia) ps g2 q ltac:(lia)) as (nd & N1 & N2 & N3 & N4). fold g1 in N1, N4.
  change (gsize g2) with (gsize g) in N1, N4.
  assert (EP : nth q ps ((O, O), f0) = ((i, j), fmm (row f0 m k i av) (col f0 k j bv))).
  { unfold ps. rewrite combine_nth by auto. unfold q. rewrite pair_at by auto. f_equal. unfold mat_vals.
    rewrite (nth_map_in _ (mpairs m n) _ f0 (O, O)) by (rewrite mpairs_len; fold q; lia). rewrite pair_at by auto. reflexivity. }
  rewrite EP in N2, N3. cbn [fst snd] in N2, N3.
  apply (node_records s g s' g1 _ _ (es i j)); auto; [lia|unfold gval; rewrite N1; exact N3| |intros a f k0; apply apply_named].
  intros f. apply (HE _ (gsize g + q)%nat i j (f (gsize g + q)%nat) (g_top g) (g_top (a_arr g m k ca)) nd Hi Hj); auto.
  - intros x Hx. change (gval g1 x = gval g x). assert (G : grows g g1).
    { eapply grows_trans; [apply grows_arr|]. eapply grows_trans; [apply grows_arr|]. apply grows_mat. }
    destruct G as [[l El] _ _ _ _ _]. unfold gval. rewrite El, nth_error_app1 by exact Hx. reflexivity.
  - cbn [set_gadj g_arrs]. unfold g1. rewrite mat_arrs. unfold g2, a_arr, push_top. cbn [g_arrs].
    rewrite nth_error_app1 by (rewrite app_length; cbn [length]; unfold ia; lia). unfold ia. rewrite nth_error_app2, Nat.sub_diag by lia. reflexivity.
  - cbn [set_gadj g_arrs]. unfold g1. rewrite mat_arrs. unfold g2, a_arr, push_top. cbn [g_arrs].
    rewrite nth_error_app2 by (rewrite app_length; cbn [length]; unfold ia; lia). rewrite app_length. cbn [length]. fold ia.
    replace (S ia - (ia + 1))%nat with O by lia. reflexivity.
Qed.

Lemma row_hd m k i ks : length ks = (m * k)%nat -> (i < m)%nat -> row 0 m k i (map hd ks) = map hd (mrow O m k i ks).
Proof.
  intros HL Hi. unfold row, mrow. rewrite map_map. apply map_ext_in. intros c Hc. apply in_seq in Hc.
  rewrite (nth_map_in hd ks _ 0 O) by nia. reflexivity.
Qed.
Lemma col_hd k n j ks : length ks = (k * n)%nat -> (j < n)%nat -> col 0 k j (map hd ks) = map hd (mcol O k j ks).
Proof.
  intros HL Hi. unfold col, mcol. rewrite map_map. apply map_ext_in. intros c Hc. apply in_seq in Hc.
  rewrite (nth_map_in hd ks _ 0 O) by nia. reflexivity.
Qed.
Lemma row_gv (g g1 : graph) m k i ks : length ks = (m * k)%nat -> (i < m)%nat -> Forall (fun x => (x < gsize g)%nat) ks ->
  (forall x, (x < gsize g)%nat -> gval g1 x = gval g x) -> map (gval g1) (mrow O m k i ks) = row f0 m k i (map (gval g) ks).
Proof.
  intros HL Hi HB HG. unfold row, mrow. rewrite map_map. apply map_ext_in. intros c Hc. apply in_seq in Hc.
  rewrite (nth_map_in (gval g) ks _ f0 O) by nia. apply HG. rewrite Forall_forall in HB. apply HB, nth_In. nia.
Qed.
Lemma col_gv (g g1 : graph) k n j ks : length ks = (k * n)%nat -> (j < n)%nat -> Forall (fun x => (x < gsize g)%nat) ks ->
  (forall x, (x < gsize g)%nat -> gval g1 x = gval g x) -> map (gval g1) (mcol O k j ks) = col f0 k j (map (gval g) ks).
Proof.
  intros HL Hi HB HG. unfold col, mcol. rewrite map_map. apply map_ext_in. intros c Hc. apply in_seq in Hc.
  rewrite (nth_map_in (gval g) ks _ f0 O) by nia. apply HG. rewrite Forall_forall in HB. apply HB, nth_In. nia.
Qed.
Lemma named_combine l cs : named (combine l cs) = combine (map hd l) cs.
Proof. unfold named. revert cs. induction l as [|x l IH]; intros [|c cs]; try reflexivity. cbn [combine map fst snd]. rewrite IH. reflexivity. Qed.
Lemma named_app l l' : named (l ++ l') = named l ++ named l'.
Proof. apply map_app. Qed.

Lemma records_ext s s' h v l l' : (forall a, l a = l' a) -> records s s' h v l -> records s s' h v l'.
Proof.
  intros E (H1 & H2 & H3). split; auto. split; auto. intros ps a s1 HP HS Ha. destruct (H3 ps a s1 HP HS Ha) as (s2 & A & B & D).
  exists s2. split; auto. split; auto. intros z b Hz Hb. rewrite <- E. auto.
Qed.

(* entry (i,j) of matmul(X,Y): a*Y(l,j) for X(i,l), then a*X(i,l) for Y(l,j) *)
Theorem mat_vv_exact env0 s m k n xs ys ws us : practical -> reachable env0 s -> Forall (alive s) xs -> Forall (alive s) ys ->
  mapM (var_val s) xs = Ok ws -> mapM (var_val s) ys = Ok us -> length xs = (m * k)%nat -> length ys = (k * n)%nat ->
  Z.of_nat m <= max_int -> Z.of_nat k <= max_int -> Z.of_nat n <= max_int -> roomy s (4 + zlen xs + zlen ys + 10 * Z.of_nat (m * n)) ->
  exists hs s', mat_mul_vv m k n xs ys s = Ok (hs, s') /\ length hs = (m * n)%nat /\
    forall i j, (i < m)%nat -> (j < n)%nat -> exists h, nth_error hs (i + j * m) = Some h /\
      records s s' h (fmm (row f0 m k i ws) (col f0 k j us))
        (fun a => combine (row 0 m k i xs) (map (fmul a) (col f0 k j us)) ++ combine (col 0 k j ys) (map (fmul a) (row f0 m k i ws))).
Proof.
  intros HP HR HA HA2 HX HY L1 L2 B1 B2 B3 HM. destruct (reach_rel env0 s HP HR) as (g & R0).
  destruct (many_nodes s g xs ws R0 HA HX) as (ka & -> & HB & EW). destruct (many_nodes s g ys us R0 HA2 HY) as (kb & -> & HB2 & EU).
  rewrite map_length in L1, L2.
  destruct (mat_records (mat_mul_vv m k n (map hd ka) (map hd kb)) s g ChMatVV m k n (AVar ka) (AVar kb) (map (gval g) ka) (map (gval g) kb)
    (4 + zlen (map hd ka) + zlen (map hd kb) + 10 * Z.of_nat (m * n))
    (fun i j a => combine (mrow O m k i ka) (map (fmul a) (col f0 k j us)) ++ combine (mcol O k j kb) (map (fmul a) (row f0 m k i ws))) R0) as (hs & s' & E & L & Q); auto.
  - apply mat_vv_ok; auto. apply HP.
  - rewrite map_length; auto.
  - rewrite map_length; auto.
  - unfold alen, zlen. cbn [a_c]. rewrite !map_length. lia.
  - intros g1 q i j a p1 p2 nd Hi Hj HG E1 E2 E3 E4 E5 E6. unfold effect. rewrite E1, E2, E3, E4, E5, E6.
    rewrite (proj2 (Nat.ltb_lt i m) Hi), (proj2 (Nat.ltb_lt j n) Hj), Nat.eqb_refl. cbn [andb]. do 3 f_equal.
    + rewrite <- map_map with (f := gval g1) (g := fmul a). rewrite (col_gv g g1 k n j kb) by auto. rewrite EU. reflexivity.
    + rewrite <- map_map with (f := gval g1) (g := fmul a). rewrite (row_gv g g1 m k i ka) by auto. rewrite EW. reflexivity.
  - exists hs, s'. split; auto. split; auto. intros i j Hi Hj. destruct (Q i j Hi Hj) as (h & Hh & Rc). exists h. split; auto.
    rewrite EW, EU in Rc. eapply records_ext; [|exact Rc]. intros a. cbv beta. rewrite named_app, !named_combine.
    rewrite (row_hd m k i ka), (col_hd k n j kb) by auto. reflexivity.
Qed.

(* X variables, D data: a*D(l,j) for X(i,l) *)
Theorem mat_vd_exact env0 s m k n xs ws ds : practical -> reachable env0 s -> Forall (alive s) xs ->
  mapM (var_val s) xs = Ok ws -> length xs = (m * k)%nat -> length ds = (k * n)%nat ->
  Z.of_nat m <= max_int -> Z.of_nat k <= max_int -> Z.of_nat n <= max_int -> roomy s (4 + zlen xs + 2 * zlen ds + 10 * Z.of_nat (m * n)) ->
  exists hs s', mat_mul_vd m k n xs ds s = Ok (hs, s') /\ length hs = (m * n)%nat /\
    forall i j, (i < m)%nat -> (j < n)%nat -> exists h, nth_error hs (i + j * m) = Some h /\
      records s s' h (fmm (row f0 m k i ws) (col f0 k j ds)) (fun a => combine (row 0 m k i xs) (map (fmul a) (col f0 k j ds))).
Proof.
  intros HP HR HA HX L1 L2 B1 B2 B3 HM. destruct (reach_rel env0 s HP HR) as (g & R0).
  destruct (many_nodes s g xs ws R0 HA HX) as (ka & -> & HB & EW). rewrite map_length in L1.
  destruct (mat_records (mat_mul_vd m k n (map hd ka) ds) s g ChMatVD m k n (AVar ka) (ADat ds) (map (gval g) ka) ds
    (4 + zlen (map hd ka) + 2 * zlen ds + 10 * Z.of_nat (m * n))
    (fun i j a => combine (mrow O m k i ka) (map (fmul a) (col f0 k j ds))) R0) as (hs & s' & E & L & Q); auto.
  - apply mat_vd_ok; auto. apply HP.
  - rewrite map_length; auto.
  - unfold alen, zlen. cbn [a_c]. rewrite !map_length. lia.
  - intros g1 q i j a p1 p2 nd Hi Hj HG E1 E2 E3 E4 E5 E6. unfold effect. rewrite E1, E2, E3, E4, E5, E6.
    rewrite (proj2 (Nat.ltb_lt i m) Hi), (proj2 (Nat.ltb_lt j n) Hj), Nat.eqb_refl. reflexivity.
  - exists hs, s'. split; auto. split; auto. intros i j Hi Hj. destruct (Q i j Hi Hj) as (h & Hh & Rc). exists h. split; auto.
    rewrite EW in Rc. eapply records_ext; [|exact Rc]. intros a. cbv beta. rewrite !named_combine.
    rewrite (row_hd m k i ka) by auto. reflexivity.
Qed.

(* D data, Y variables: a*D(i,l) for Y(l,j) *)
Theorem mat_dv_exact env0 s m k n ds ys us : practical -> reachable env0 s -> Forall (alive s) ys ->
  mapM (var_val s) ys = Ok us -> length ds = (m * k)%nat -> length ys = (k * n)%nat ->
  Z.of_nat m <= max_int -> Z.of_nat k <= max_int -> Z.of_nat n <= max_int -> roomy s (4 + 2 * zlen ds + zlen ys + 10 * Z.of_nat (m * n)) ->
  exists hs s', mat_mul_dv m k n ds ys s = Ok (hs, s') /\ length hs = (m * n)%nat /\
    forall i j, (i < m)%nat -> (j < n)%nat -> exists h, nth_error hs (i + j * m) = Some h /\
      records s s' h (fmm (row f0 m k i ds) (col f0 k j us)) (fun a => combine (col 0 k j ys) (map (fmul a) (row f0 m k i ds))).
Proof.
  intros HP HR HA HX L1 L2 B1 B2 B3 HM. destruct (reach_rel env0 s HP HR) as (g & R0).
  destruct (many_nodes s g ys us R0 HA HX) as (kb & -> & HB & EU). rewrite map_length in L2.
  destruct (mat_records (mat_mul_dv m k n ds (map hd kb)) s g ChMatDV m k n (ADat ds) (AVar kb) ds (map (gval g) kb)
    (4 + 2 * zlen ds + zlen (map hd kb) + 10 * Z.of_nat (m * n))
    (fun i j a => combine (mcol O k j kb) (map (fmul a) (row f0 m k i ds))) R0) as (hs & s' & E & L & Q); auto.
  - apply mat_dv_ok; auto. apply HP.
  - rewrite map_length; auto.
  - unfold alen, zlen. cbn [a_c]. rewrite !map_length. lia.
  - intros g1 q i j a p1 p2 nd Hi Hj HG E1 E2 E3 E4 E5 E6. unfold effect. rewrite E1, E2, E3, E4, E5, E6.
    rewrite (proj2 (Nat.ltb_lt i m) Hi), (proj2 (Nat.ltb_lt j n) Hj), Nat.eqb_refl. reflexivity.
  - exists hs, s'. split; auto. split; auto. intros i j Hi Hj. destruct (Q i j Hi Hj) as (h & Hh & Rc). exists h. split; auto.
    rewrite EU in Rc. eapply records_ext; [|exact Rc]. intros a. cbv beta. rewrite !named_combine.
    rewrite (col_hd k n j kb) by auto. reflexivity.
Qed.
End ExactMat.
