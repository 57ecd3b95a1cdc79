(* Whole programs: every register of a straight-line program changes with
   register x at the rate the sweep coefficients give. *)
From Verif Require Import TapeFacts.
From Coq Require Import ZifyBool ZifyNat.
From Verif Require Export Deriv.
Local Open Scope R_scope.

Section MatNodes.
Context {lg : R -> R} {C : Cfg (RNum lg)}.
Notation N := (RNum lg).
Notation graph := (@graph N).

Lemma mat_nodes_arrs ch ia ib ps : forall g : graph, g_arrs (mat_nodes ch ia ib ps g) = g_arrs g.
Proof. induction ps as [|q ps IH]; intros g; auto. rewrite mat_nodes_cons, IH. reflexivity. Qed.

Lemma mat_nodes_at ch ia ib ps : forall (g : graph) q, (q < length ps)%nat ->
  exists nd, nth_error (g_nodes (mat_nodes ch ia ib ps g)) (gsize g + q) = Some nd /\
    n_body nd = BMat (fst (fst (nth q ps ((O, O), 0)))) (snd (fst (nth q ps ((O, O), 0)))) ia ib /\
    g_ch (mat_nodes ch ia ib ps g) (gsize g + q) = ch.
Proof.
  induction ps as [|p ps IH]; intros g q Hq; cbn [length] in Hq; [lia|]. rewrite mat_nodes_cons.
  set (g1 := a_new g (snd p) (BMat (fst (fst p)) (snd (fst p)) ia ib) (Some ch)).
  assert (SZ : gsize g1 = S (gsize g)) by apply new_size.
  destruct q as [|q].
  - destruct (grows_mat ch ia ib ps g1) as [[l En] _ _ _ Ech _].
    exists (mkNode (snd p) (BMat (fst (fst p)) (snd (fst p)) ia ib) (g_top g)). rewrite Nat.add_0_r. split; [|split].
    + rewrite En. rewrite nth_error_app1 by (fold (gsize g1); lia). unfold g1, a_new, push_top. cbn [g_nodes].
      rewrite nth_error_app2 by (unfold gsize; lia). unfold gsize. rewrite Nat.sub_diag. reflexivity.
    + reflexivity.
    + rewrite Ech by lia. unfold g1, a_new, push_top. cbn [g_ch]. unfold nupd. rewrite Nat.eqb_refl. reflexivity.
  - destruct (IH g1 q ltac:(lia)) as (nd & E1 & E2 & E3). rewrite SZ in E1, E3.
    replace (gsize g + S q)%nat with (S (gsize g) + q)%nat by lia. exists nd. auto.
Qed.

End MatNodes.

Section DerivProg.
Context {lg : R -> R} {C : Cfg (RNum lg)}.
Notation N := (RNum lg).
Notation graph := (@graph N).

Lemma Forall2_nth_in {A B} (P : A -> B -> Prop) l1 l2 i d1 d2 : Forall2 P l1 l2 -> (i < length l1)%nat ->
  P (nth i l1 d1) (nth i l2 d2).
Proof.
  intros H. revert i. induction H as [|a b l1 l2 Hab _ IH]; intros i Hi; cbn [length] in Hi; [lia|].
  destruct i as [|i]; cbn [nth]; auto. apply IH. lia.
Qed.

(* row i and column j of the two factors move as their entries do *)
Lemma follow_row (g : graph) tau t0 cs kk m k i : Forall2 (moves g tau t0) cs kk -> length kk = (m * k)%nat -> (i < m)%nat ->
  Forall2 (moves g tau t0) (mrow (fun _ => 0) m k i cs) (mrow O m k i kk).
Proof.
  intros H HL Hi. pose proof (follow_len _ _ _ _ _ H) as LC. unfold mrow.
  assert (HI : forall j, In j (seq 0 k) -> (i + j * m < length cs)%nat) by (intros j Hj; apply in_seq in Hj; nia).
  induction (seq 0 k) as [|j l IH]; cbn [map]; constructor.
  - apply Forall2_nth_in; auto. apply HI. left; auto.
  - apply IH. intros; apply HI; right; auto.
Qed.
Lemma follow_col (g : graph) tau t0 cs kk k n j : Forall2 (moves g tau t0) cs kk -> length kk = (k * n)%nat -> (j < n)%nat ->
  Forall2 (moves g tau t0) (mcol (fun _ => 0) k j cs) (mcol O k j kk).
Proof.
  intros H HL Hi. pose proof (follow_len _ _ _ _ _ H) as LC. unfold mcol.
  assert (HI : forall i, In i (seq 0 k) -> (i + j * k < length cs)%nat) by (intros i Hj; apply in_seq in Hj; nia).
  induction (seq 0 k) as [|i l IH]; cbn [map]; constructor.
  - apply Forall2_nth_in; auto. apply HI. left; auto.
  - apply IH. intros; apply HI; right; auto.
Qed.

Lemma mrow_curves (cs : list (R -> R)) m k i t : map (fun c : R -> R => c t) (mrow (fun _ => 0) m k i cs) = mrow 0 m k i (map (fun c : R -> R => c t) cs).
Proof.
  unfold mrow. rewrite map_map. apply map_ext. intros j.
  rewrite <- (map_nth (fun c : R -> R => c t) cs (fun _ => 0)). reflexivity.
Qed.
Lemma mcol_curves (cs : list (R -> R)) k j t : map (fun c : R -> R => c t) (mcol (fun _ => 0) k j cs) = mcol 0 k j (map (fun c : R -> R => c t) cs).
Proof.
  unfold mcol. rewrite map_map. apply map_ext. intros i.
  rewrite <- (map_nth (fun c : R -> R => c t) cs (fun _ => 0)). reflexivity.
Qed.

(* the entry of the product at position q *)
Definition pairq (m n q : nat) : nat * nat := nth q (mpairs m n) (O, O).

Lemma nth_map_in {A B} (f : A -> B) l i d d' : (i < length l)%nat -> nth i (map f l) d = f (nth i l d').
Proof. intros H. rewrite (nth_indep _ d (f d')) by (rewrite map_length; auto). apply map_nth. Qed.

Lemma mm_entry m k n a b q : (q < m * n)%nat ->
  nth q (mm_fun m k n a b) 0 = rdot (mrow 0 m k (fst (pairq m n q)) a) (mcol 0 k (snd (pairq m n q)) b).
Proof.
  intros Hq. unfold mm_fun.
  set (f := fun i j => rsum (map (fun l => nth (i + l * m) a 0 * nth (l + j * k) b 0) (seq 0 k))).
  change (nth q (flat_map (fun j => map (fun i => f i j) (seq 0 m)) (seq 0 n)) 0 = rdot (mrow 0 m k (fst (pairq m n q)) a) (mcol 0 k (snd (pairq m n q)) b)).
  pose proof (@mpairs_plain N f m n) as EP. change (@F N) with R in EP. rewrite <- EP. clear EP.
  rewrite (nth_map_in (fun p => f (fst p) (snd p)) (mpairs m n) q 0 (O, O)) by (rewrite mpairs_len; lia). fold (pairq m n q). unfold f, rdot, mrow, mcol. f_equal.
  induction (seq 0 k) as [|l ls IH]; cbn [map combine]; auto. rewrite IH. reflexivity.
Qed.

Lemma pairq_lt m n q : (q < m * n)%nat -> (fst (pairq m n q) < m)%nat /\ (snd (pairq m n q) < n)%nat.
Proof.
  intros Hq. pose proof (mpairs_bound m n) as H. rewrite Forall_forall in H. apply (H (pairq m n q)).
  apply nth_In. rewrite mpairs_len. lia.
Qed.

Lemma mm_len m k n a b : length (mm_fun m k n a b) = (m * n)%nat.
Proof.
  unfold mm_fun. assert (H : forall l : list nat, length (flat_map (fun j => map (fun i =>
      rsum (map (fun l => nth (i + l * m) a 0 * nth (l + j * k) b 0) (seq 0 k))) (seq 0 m)) l) = (m * length l)%nat).
  { induction l as [|j l IH]; cbn [flat_map length]; [lia|]. rewrite app_length, map_length, seq_length, IH. lia. }
  rewrite H, seq_length. reflexivity.
Qed.

Lemma mrow_map {A B} (f : A -> B) d d' m k i l : length l = (m * k)%nat -> (i < m)%nat ->
  map f (mrow d m k i l) = mrow d' m k i (map f l).
Proof.
  intros HL Hi. unfold mrow. rewrite map_map. apply map_ext_in. intros j Hj. apply in_seq in Hj.
  symmetry. apply nth_map_in. nia.
Qed.
Lemma mcol_map {A B} (f : A -> B) d d' k n j l : length l = (k * n)%nat -> (j < n)%nat ->
  map f (mcol d k j l) = mcol d' k j (map f l).
Proof.
  intros HL Hi. unfold mcol. rewrite map_map. apply map_ext_in. intros i Hj. apply in_seq in Hj.
  symmetry. apply nth_map_in. nia.
Qed.

Lemma combine_fst_nth {A B} (l1 : list A) (l2 : list B) i d1 d2 : length l1 = length l2 ->
  fst (nth i (combine l1 l2) (d1, d2)) = nth i l1 d1.
Proof. intros H. rewrite combine_nth by auto. reflexivity. Qed.

Lemma Forall2_refl_in {A B C0} (P : B -> C0 -> Prop) (f : A -> B) (h : A -> C0) l : (forall x, In x l -> P (f x) (h x)) ->
  Forall2 P (map f l) (map h l).
Proof. induction l as [|x l IH]; intros H; cbn [map]; constructor; [apply H; left; auto|apply IH; intros; apply H; right; auto]. Qed.

(* what a call leaves at result q: the value, and the rate the coefficients of
   the new node give *)
Definition result_right (g g' : graph) (tau : nat -> R) (t0 : R) (kk : list nat) (G : R -> R) (q k : nat) : Prop :=
  G t0 = gval g' k /\ ((kk = [k] /\ q = O /\ is_derive G t0 (tau k)) \/
   (k = (gsize g + q)%nat /\ is_derive G t0 (lsum (unit_eff g' k) tau))).

Lemma act_right (g g' : graph) tau t0 kk G a ks : step_right g tau t0 kk G a ->
  Forall (fun k => (k < gsize g)%nat) kk ->
  abind (do_act g a) (fun p => AOk ([fst p], snd p)) = AOk (ks, g') ->
  exists k, ks = [k] /\ result_right g g' tau t0 kk G 0 k.
Proof.
  intros S HF H. destruct a as [v ops ds [ch|]|k [ch|]| |]; cbn [step_right] in S; try tauto;
    cbn [do_act abind fst snd] in H; inversion H; subst; clear H.
  - destruct S as (-> & S1 & cl & S2 & S3). exists (gsize g). split; auto. split.
    + rewrite gval_new, Nat.eqb_refl. auto.
    + right. split; [lia|]. eapply deriv_eq; [exact S3|]. rewrite <- lsum_combine. f_equal.
      unfold unit_eff, effect, a_new, push_top. cbn [set_gadj g_nodes g_adj g_ch].
      rewrite nth_error_app2 by (unfold gsize; lia). unfold gsize. rewrite Nat.sub_diag. cbn [nth_error n_body n_val].
      unfold nupd. rewrite Nat.eqb_refl.
      match goal with |- context [map ?f kk] => assert (EM : map f kk = map (gval g) kk) end.
      { apply map_ext_in. intros i Hi. rewrite Forall_forall in HF. specialize (HF i Hi). cbv beta in HF. 
        match goal with |- @eq ?T _ _ => change (@eq T (gval (a_new g v (BRec kk ds) (Some ch)) i) (gval g i)) end.
        rewrite gval_new. destruct (Nat.eqb_spec i (gsize g)); [lia|reflexivity]. }
      rewrite EM. match goal with |- _ = match option_map _ ?c with _ => _ end => change c with (@contrib N C ch v 1 (map (gval g) kk) ds) end.
      rewrite S2. reflexivity.
  - destruct S as (-> & -> & S1 & S2). exists (gsize g). split; auto. split.
    + rewrite gval_new, Nat.eqb_refl. auto.
    + right. split; [lia|]. eapply deriv_eq; [exact S2|].
      unfold unit_eff, effect, a_new, push_top. cbn [set_gadj g_nodes g_adj g_ch].
      rewrite nth_error_app2 by (unfold gsize; lia). unfold gsize. rewrite Nat.sub_diag. cbn [nth_error n_body n_val].
      destruct (contrib _ _ _ _ _); reflexivity.
  - destruct S as (-> & S1 & S2). exists k. split; auto. split; auto.
Qed.

Lemma amat_at ch m k n ca cb (av bv : list R) (g : graph) ks g' : @amat N ch m k n ca cb av bv g = AOk (ks, g') ->
  length av = (m * k)%nat /\ length bv = (k * n)%nat /\ ks = seq (gsize g) (m * n) /\
  exists p1 p2, nth_error (g_arrs g') (length (g_arrs g)) = Some (mkArr m k ca p1) /\
    nth_error (g_arrs g') (S (length (g_arrs g))) = Some (mkArr k n cb p2) /\
  forall q, (q < m * n)%nat ->
    gval g' (gsize g + q) = rdot (mrow 0 m k (fst (pairq m n q)) av) (mcol 0 k (snd (pairq m n q)) bv) /\
    exists nd, nth_error (g_nodes g') (gsize g + q) = Some nd /\
    n_body nd = BMat (fst (pairq m n q)) (snd (pairq m n q)) (length (g_arrs g)) (S (length (g_arrs g))) /\
    g_ch g' (gsize g + q) = ch.
Proof.
  intros H. pose proof (amat_vals _ _ _ _ _ _ _ _ _ _ _ H) as HV. rewrite <- mat_vals_plain in HV. unfold amat in H.
  destruct (_ && _ && _) eqn:B; [|discriminate].
  apply andb_prop in B. destruct B as [B _]. apply andb_prop in B. destruct B as [B1 B2].
  apply Nat.eqb_eq in B1. apply Nat.eqb_eq in B2. split; auto. split; auto.
  set (ps := combine (mpairs m n) (@mat_vals N m k n av bv)) in *.
  assert (LL : length (mpairs m n) = length (@mat_vals N m k n av bv)) by (unfold mat_vals; rewrite map_length; reflexivity).
  assert (LP : length ps = (m * n)%nat) by (unfold ps; rewrite combine_length, <- LL, mpairs_len; apply Nat.min_id).
  assert (E1 : ks = seq (gsize g) (m * n)) by (rewrite <- LP; inversion H; auto).
  assert (E2 : g' = mat_nodes ch (length (g_arrs g)) (S (length (g_arrs g))) ps
                (a_arr (a_arr g m k ca) k n cb)) by (inversion H; auto).
  clear H. split; auto. exists (g_top g), (g_top (a_arr g m k ca)). rewrite E2. rewrite !mat_nodes_arrs.
  split; [|split].
  - unfold a_arr, push_top. cbn [g_arrs]. rewrite nth_error_app1 by (rewrite app_length; cbn [length]; lia).
    rewrite nth_error_app2, Nat.sub_diag by lia. reflexivity.
  - unfold a_arr, push_top. cbn [g_arrs]. rewrite nth_error_app2 by (rewrite app_length; cbn [length]; lia).
    rewrite app_length. cbn [length]. replace (S (length (g_arrs g)) - (length (g_arrs g) + 1))%nat with O by lia. reflexivity.
  - intros q Hq. rewrite <- E2. split.
    + assert (HN : nth q (map (gval g') ks) 0 = nth q (@mat_vals N m k n av bv) 0) by (rewrite HV; reflexivity).
      rewrite (nth_map_in (gval g') ks q 0 O) in HN by (rewrite E1, seq_length; auto).
      rewrite E1, seq_nth in HN by auto. etransitivity; [exact HN|]. unfold mat_vals.
      rewrite (nth_map_in _ (mpairs m n) q 0 (O, O)) by (rewrite mpairs_len; lia). reflexivity.
    + destruct (@mat_nodes_at lg ch (length (g_arrs g)) (S (length (g_arrs g))) ps (a_arr (a_arr g m k ca) k n cb) q ltac:(lia)) as (nd & X1 & X2 & X3).
      change (gsize (a_arr (a_arr g m k ca) k n cb)) with (gsize g) in *. rewrite <- E2 in X1, X3. exists nd. split; auto. split; auto.
      rewrite X2. assert (EP : fst (nth q ps ((O, O), 0)) = pairq m n q) by (unfold ps; rewrite combine_nth by auto; reflexivity).
      rewrite EP. reflexivity.
Qed.

Lemma rdot_map_mul1 (f : nat -> R) l (t : list R) : rdot (map (fun x => 1 * f x) l) t = rdot (map f l) t.
Proof. f_equal. apply map_ext. intros x. ring. Qed.

Lemma gval_follow (g g' : graph) l : grows g g' -> Forall (fun k => (k < gsize g)%nat) l -> map (gval g') l = map (gval g) l.
Proof.
  intros G H. apply map_ext_in. intros i Hi. rewrite Forall_forall in H. apply (grows_gval g g' i G). auto.
Qed.

Lemma mrow_Forall (P : nat -> Prop) m k i l : Forall P l -> length l = (m * k)%nat -> (i < m)%nat -> Forall P (mrow O m k i l).
Proof.
  intros H HL Hi. unfold mrow. apply Forall_forall. intros x Hx. apply in_map_iff in Hx. destruct Hx as (j & <- & Hj).
  apply in_seq in Hj. rewrite Forall_forall in H. apply H. apply nth_In. nia.
Qed.
Lemma mcol_Forall (P : nat -> Prop) k n j l : Forall P l -> length l = (k * n)%nat -> (j < n)%nat -> Forall P (mcol O k j l).
Proof.
  intros H HL Hi. unfold mcol. apply Forall_forall. intros x Hx. apply in_map_iff in Hx. destruct Hx as (i & <- & Hj).
  apply in_seq in Hj. rewrite Forall_forall in H. apply H. apply nth_In. nia.
Qed.

(* each entry of a product, both factors variable *)
Lemma matvv_right (g g' : graph) tau t0 m k n ka kb ca cb ks q : @amat N ChMatVV m k n (AVar ka) (AVar kb) (map (gval g) ka) (map (gval g) kb) g = AOk (ks, g') ->
  grows g g' -> Forall2 (moves g tau t0) ca ka -> Forall2 (moves g tau t0) cb kb ->
  Forall (fun k => (k < gsize g)%nat) ka -> Forall (fun k => (k < gsize g)%nat) kb -> (q < m * n)%nat ->
  let G := fun t => nth q (mm_fun m k n (map (fun c : R -> R => c t) ca) (map (fun c : R -> R => c t) cb)) 0 in
  G t0 = gval g' (gsize g + q) /\ is_derive G t0 (lsum (unit_eff g' (gsize g + q)) tau).
Proof.
  intros HX GR MA MB FA FB Hq G. destruct (amat_at _ _ _ _ _ _ _ _ _ _ _ HX) as (L1 & L2 & -> & p1 & p2 & A1 & A2 & HQ).
  rewrite map_length in L1, L2.
  destruct (HQ q Hq) as (V & nd & E1 & E2 & E3). destruct (pairq_lt m n q Hq) as [P1 P2].
  set (i := fst (pairq m n q)) in *. set (j := snd (pairq m n q)) in *.
  assert (EG : forall t, G t = rdot (map (fun c : R -> R => c t) (mrow (fun _ => 0) m k i ca)) (map (fun c : R -> R => c t) (mcol (fun _ => 0) k j cb))).
  { intros t. unfold G. rewrite mm_entry by auto. fold i j. rewrite mrow_curves, mcol_curves. reflexivity. }
  pose proof (follow_row _ _ _ _ _ _ _ i MA L1 P1) as MR. pose proof (follow_col _ _ _ _ _ _ _ j MB L2 P2) as MC.
  split.
  - rewrite EG, V. rewrite (follow_vals _ _ _ _ _ MR), (follow_vals _ _ _ _ _ MC).
    rewrite (mrow_map (gval g) O 0), (mcol_map (gval g) O 0 k n) by auto. reflexivity.
  - eapply deriv_ext; [intros t; symmetry; apply EG|].
    assert (EU : unit_eff g' (gsize g + q) = combine (mrow O m k i ka) (map (fun x => 1 * gval g x) (mcol O k j kb)) ++
                       combine (mcol O k j kb) (map (fun x => 1 * gval g x) (mrow O m k i ka))).
    { unfold unit_eff, effect. cbn [set_gadj g_nodes g_adj g_ch g_arrs]. rewrite E1, E2, E3, A1, A2.
      replace (Nat.ltb i m && Nat.ltb j n && Nat.eqb k k) with true by (rewrite Nat.eqb_refl; lia).
      f_equal; f_equal; apply map_ext_in; intros x Hx; apply f_equal; apply (grows_gval g g' x GR).
      - pose proof (mcol_Forall _ _ _ _ _ FB L2 P2) as F. rewrite Forall_forall in F. auto.
      - pose proof (mrow_Forall _ _ _ _ _ FA L1 P1) as F. rewrite Forall_forall in F. auto. }
    rewrite EU, lsum_app, !lsum_combine, !rdot_map_mul1.
    pose proof (d_rdot _ _ t0 _ _ (follow_rates _ _ _ _ _ MR) (follow_rates _ _ _ _ _ MC)) as D.
    rewrite (follow_vals _ _ _ _ _ MR), (follow_vals _ _ _ _ _ MC) in D.
    apply D. unfold mrow, mcol. rewrite !map_length. reflexivity.
Qed.

Lemma matvd_right (g g' : graph) tau t0 m k n ka (bv : list R) ca ks q : @amat N ChMatVD m k n (@AVar N ka) (@ADat N bv) (map (gval g) ka) bv g = AOk (ks, g') ->
  Forall2 (moves g tau t0) ca ka -> Forall (fun k => (k < gsize g)%nat) ka -> (q < m * n)%nat ->
  let G := fun t => nth q (mm_fun m k n (map (fun c : R -> R => c t) ca) bv) 0 in
  G t0 = gval g' (gsize g + q) /\ is_derive G t0 (lsum (unit_eff g' (gsize g + q)) tau).
Proof.
  intros HX MA FA Hq G. destruct (amat_at _ _ _ _ _ _ _ _ _ _ _ HX) as (L1 & L2 & -> & p1 & p2 & A1 & A2 & HQ).
  rewrite map_length in L1.
  destruct (HQ q Hq) as (V & nd & E1 & E2 & E3). destruct (pairq_lt m n q Hq) as [P1 P2].
  set (i := fst (pairq m n q)) in *. set (j := snd (pairq m n q)) in *.
  assert (EG : forall t, G t = rdot (map (fun c : R -> R => c t) (mrow (fun _ => 0) m k i ca)) (mcol 0 k j bv)).
  { intros t. unfold G. rewrite mm_entry by auto. fold i j. rewrite mrow_curves. reflexivity. }
  pose proof (follow_row _ _ _ _ _ _ _ i MA L1 P1) as MR.
  split.
  - rewrite EG, V. rewrite (follow_vals _ _ _ _ _ MR).
    rewrite (mrow_map (gval g) O 0) by auto. reflexivity.
  - eapply deriv_ext; [intros t; symmetry; apply EG|].
    assert (EU : unit_eff g' (gsize g + q) = combine (mrow O m k i ka) (map (Rmult 1) (mcol 0 k j bv))).
    { unfold unit_eff, effect. cbn [set_gadj g_nodes g_adj g_ch g_arrs]. rewrite E1, E2, E3, A1, A2.
      replace (Nat.ltb i m && Nat.ltb j n && Nat.eqb k k) with true by (rewrite Nat.eqb_refl; lia). reflexivity. }
    rewrite EU, lsum_combine, rdot_scal, Rmult_1_l.
    apply (d_rdot_const _ _ t0 _ (follow_rates _ _ _ _ _ MR)). unfold mrow, mcol. rewrite !map_length. reflexivity.
Qed.

Lemma matdv_right (g g' : graph) tau t0 m k n (av : list R) kb cb ks q : @amat N ChMatDV m k n (@ADat N av) (AVar kb) av (map (gval g) kb) g = AOk (ks, g') ->
  Forall2 (moves g tau t0) cb kb -> Forall (fun k => (k < gsize g)%nat) kb -> (q < m * n)%nat ->
  let G := fun t => nth q (mm_fun m k n av (map (fun c : R -> R => c t) cb)) 0 in
  G t0 = gval g' (gsize g + q) /\ is_derive G t0 (lsum (unit_eff g' (gsize g + q)) tau).
Proof.
  intros HX MB FB Hq G. destruct (amat_at _ _ _ _ _ _ _ _ _ _ _ HX) as (L1 & L2 & -> & p1 & p2 & A1 & A2 & HQ).
  rewrite map_length in L2.
  destruct (HQ q Hq) as (V & nd & E1 & E2 & E3). destruct (pairq_lt m n q Hq) as [P1 P2].
  set (i := fst (pairq m n q)) in *. set (j := snd (pairq m n q)) in *.
  assert (EG : forall t, G t = rdot (map (fun c : R -> R => c t) (mcol (fun _ => 0) k j cb)) (mrow 0 m k i av)).
  { intros t. unfold G. rewrite mm_entry by auto. fold i j. rewrite mcol_curves. apply rdot_comm. }
  pose proof (follow_col _ _ _ _ _ _ _ j MB L2 P2) as MC.
  split.
  - rewrite EG, V. rewrite (follow_vals _ _ _ _ _ MC).
    rewrite (mcol_map (gval g) O 0 k n) by auto. apply rdot_comm.
  - eapply deriv_ext; [intros t; symmetry; apply EG|].
    assert (EU : unit_eff g' (gsize g + q) = combine (mcol O k j kb) (map (Rmult 1) (mrow 0 m k i av))).
    { unfold unit_eff, effect. cbn [set_gadj g_nodes g_adj g_ch g_arrs]. rewrite E1, E2, E3, A1, A2.
      replace (Nat.ltb i m && Nat.ltb j n && Nat.eqb k k) with true by (rewrite Nat.eqb_refl; lia). reflexivity. }
    rewrite EU, lsum_combine, rdot_scal, Rmult_1_l.
    apply (d_rdot_const _ _ t0 _ (follow_rates _ _ _ _ _ MC)). unfold mrow, mcol. rewrite !map_length. reflexivity.
Qed.

Lemma firstn_curves (cs : list (R -> R)) n t : firstn n (map (fun c : R -> R => c t) cs) = map (fun c : R -> R => c t) (firstn n cs).
Proof. apply firstn_map. Qed.
Lemma skipn_curves (cs : list (R -> R)) n t : skipn n (map (fun c : R -> R => c t) cs) = map (fun c : R -> R => c t) (skipn n cs).
Proof. apply skipn_map. Qed.

Lemma aregs_lt (g : graph) env l : forall kk, aregs g env l = Some kk -> Forall (fun k => (k < gsize g)%nat) kk.
Proof.
  induction l as [|r l IH]; intros kk; cbn [aregs].
  - intros H; apply some_eq in H; subst; constructor.
  - destruct (areg g env r) eqn:E; [|discriminate]. destruct (aregs g env l); [|discriminate].
    intros H; apply some_eq in H; subst. constructor; [eapply areg_lt; eauto|auto].
Qed.

(* any call *)
Lemma op_right (g g' : graph) tau t0 env (o : @op N) kk cs ks : @aregs N g env (op_regs o) = Some kk ->
  Forall2 (moves g tau t0) cs kk -> op_dom o (map (fun c : R -> R => c t0) cs) -> op_shape o -> neutral o = false ->
  aexec_op g env o = AOk (ks, g') ->
  (forall xs : list R, length (denote o xs) = length ks) /\
  forall q k, nth_error ks q = Some k ->
    result_right g g' tau t0 kk (fun t => nth q (denote o (map (fun c : R -> R => c t) cs)) 0) q k.
Proof.
  intros HA HM HD HS HN HX. pose proof (aregs_lt _ _ _ _ HA) as HL.
  destruct (op_frame _ _ _ _ _ HN HX) as [GR _].
  destruct (is_matmul o) eqn:HMM.
  - assert (MAT : forall mm nn q k, nth_error (seq (gsize g) (mm * nn)) q = Some k -> (q < mm * nn)%nat /\ k = (gsize g + q)%nat).
    { intros mm nn q k H. pose proof (nth_error_lt _ _ _ H) as Hq. rewrite seq_length in Hq. split; auto.
      apply nth_error_nth with (d := O) in H. rewrite seq_nth in H by auto. auto. }
    destruct o; try discriminate HMM; cbn [aexec_op op_regs] in HA, HX.
    + rewrite aregs_app in HA. destruct (aregs g env a) as [ka|] eqn:EA; [|discriminate].
      destruct (aregs g env b) as [kb|] eqn:EB; [|discriminate]. apply some_eq in HA; subst kk.
      apply Forall_app in HL. destruct HL as [FA FB]. destruct (follow_app _ _ _ _ _ _ HM) as (ca & cb & -> & MA & MB & LC).
      pose proof (aregs_len _ _ _ _ EA) as LA.
      destruct (amat_at _ _ _ _ _ _ _ _ _ _ _ HX) as (_ & _ & EK & _). subst ks. split.
      * intros xs. cbn [denote]. rewrite mm_len, seq_length. reflexivity.
      * intros q kq HQ. destruct (MAT _ _ _ _ HQ) as [Hq ->].
        destruct (matvv_right g g' tau t0 m k n ka kb ca cb _ q HX GR MA MB FA FB Hq) as [R1 R2].
        assert (EG : forall t, nth q (denote (@OMatVV N m k n a b) (map (fun c : R -> R => c t) (ca ++ cb))) 0 =
             nth q (mm_fun m k n (map (fun c : R -> R => c t) ca) (map (fun c : R -> R => c t) cb)) 0).
        { intros t. cbn [denote]. rewrite firstn_curves, skipn_curves, firstn_app, skipn_app, <- LA, <- LC, Nat.sub_diag, firstn_all, skipn_all.
          cbn [firstn skipn app]. rewrite app_nil_r. reflexivity. }
        split; [rewrite EG; exact R1|]. right. split; auto. eapply deriv_ext; [intros t; symmetry; apply EG|exact R2].
    + rewrite HA in HX. destruct (amat_at _ _ _ _ _ _ _ _ _ _ _ HX) as (_ & _ & EK & _). subst ks. split.
      * intros xs. cbn [denote]. rewrite mm_len, seq_length. reflexivity.
      * intros q kq HQ. destruct (MAT _ _ _ _ HQ) as [Hq ->].
        destruct (matvd_right g g' tau t0 m k n kk b cs _ q HX HM HL Hq) as [R1 R2].
        split; auto.
    + rewrite HA in HX. destruct (amat_at _ _ _ _ _ _ _ _ _ _ _ HX) as (_ & _ & EK & _). subst ks. split.
      * intros xs. cbn [denote]. rewrite mm_len, seq_length. reflexivity.
      * intros q kq HQ. destruct (MAT _ _ _ _ HQ) as [Hq ->].
        destruct (matdv_right g g' tau t0 m k n a kk cs _ q HX HM HL Hq) as [R1 R2].
        split; auto.
  - pose proof (op_step g tau t0 env o kk cs HMM HA HM HD HS HN) as ST.
    assert (HX2 : abind (do_act g (act_op g env o)) (fun p => AOk ([fst p], snd p)) = AOk (ks, g')).
    { destruct o; try discriminate HMM; exact HX. }
    destruct (act_right _ _ _ _ _ _ _ _ ST HL HX2) as (k & -> & RR). split.
    + intros xs. destruct o; try discriminate HMM; reflexivity.
    + intros q k' HQ. destruct q as [|q]; [|destruct q; discriminate]. cbn [nth_error] in HQ. apply some_eq in HQ; subst k'. exact RR.
Qed.

End DerivProg.
