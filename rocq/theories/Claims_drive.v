(* Lemmas behind the exact part of C47: the whole of cvodes_sol for an arbitrary integrator. *)
From Verif Require Import TapeFacts.
From Coq Require Import ZifyBool ZifyNat.
From Verif Require Export Claims_sens.
Local Open Scope nat_scope.
Local Notation hd := Refine.hd.

Section Drive.
Context {N : Num} {RL : RepLaws N} {C : Cfg N}.
Notation graph := (@graph N).

(* ---- one variable with given partial derivatives ---- *)
Lemma part_go (HC : cfg_ok C) z g v ks ps : Rel z g -> sound g -> Forall (fun k => k < gsize g) ks -> length ps = length ks ->
  (g_peak g <= cap)%Z -> (g_top g + (6 + 3 * Z.of_nat (length ks)) <= cap)%Z ->
  let g1 := a_new g v (BRec ks ps) (Some ChEager) in
  exists z1, var_with_partials v (map hd ks) ps z = Ok (hd (gsize g), z1) /\ Rel z1 g1 /\ sound g1 /\ part_node g1 (gsize g) v ks ps.
Proof.
  intros R0 HG HB HL P1 P2 g1.
  assert (EW : bwidth (BRec ks ps) = (6 + 3 * Z.of_nat (length ks))%Z) by (unfold bwidth, zlen; rewrite HL; lia).
  assert (P : performs (var_with_partials v (map hd ks) ps) z g (ANew v ks ps (Some ChEager))).
  { unfold var_with_partials, performs. rewrite (mbind_ok _ _ z ps z).
    + apply perf_rec_d; auto.
    + unfold mlift, explicit_dummy. rewrite map_length, HL, Nat.leb_refl. cbn [bind]. rewrite firstn_all2 by lia. reflexivity. }
  unfold performs in P. cbn [do_act] in P. specialize (P False).
  assert (HX : excused False g1) by (unfold excused, g1; cbn [a_new push_top g_peak]; unfold cap in *; lia).
  specialize (P HX). unfold yields in P.
  assert (PN : part_node g1 (gsize g) v ks ps).
  { split.
    - exists (mkNode v (BRec ks ps) (g_top g)). split; [|split; reflexivity]. unfold g1, a_new, push_top. cbn [g_nodes].
      rewrite nth_error_app2 by (unfold gsize; lia). unfold gsize. rewrite Nat.sub_diag. reflexivity.
    - unfold g1, a_new, push_top. cbn [g_ch]. unfold nupd. rewrite Nat.eqb_refl. reflexivity. }
  destruct (var_with_partials v (map hd ks) ps z) as [[h z1]| |[]|]; cbn in P; try contradiction.
  destruct P as [Eh R1]. subst h. exists z1. split; auto. split; [exact R1|]. split; [|exact PN].
  unfold sound. change (unnest g1) with (a_new (unnest g) v (BRec ks ps) (Some ChEager)). apply good_new; [exact HG|left; reflexivity|].
  change (gsize (unnest g)) with (gsize g). destruct PN as [(nd & E & _ & E2) H].
  change (fits g1 (gsize g) = true). unfold fits. rewrite E, E2, H.
  unfold cshape. rewrite HL, Nat.eqb_refl. destruct (Nat.eqb (length ks) 0 && Nat.eqb (length ks) 0)%bool; auto.
Qed.

Lemma steady_part v ops ps : steady (var_with_partials v ops ps).
Proof. unfold var_with_partials. apply steady_bind; [apply steady_lift|]. intros p. apply steady_record_d. reflexivity. Qed.

(* ---- a column of the result ---- *)
Lemma column_go (HC : cfg_ok C) ks y (yS : list (list F)) l : length yS = length ks -> forall z g, Rel z g -> sound g ->
  Forall (fun k => k < gsize g) ks -> (g_peak g <= cap)%Z -> (g_top g + Z.of_nat (length l) * (6 + 3 * Z.of_nat (length ks)) <= cap)%Z ->
  exists z1 g1, mmap (fun i => var_with_partials (nth i y f0) (map hd ks) (map (fun v => nth i v f0) yS)) l z = Ok (map hd (seq (gsize g) (length l)), z1) /\
    Rel z1 g1 /\ sound g1 /\ grows g g1 /\ gsize g1 = gsize g + length l /\
    g_top g1 = (g_top g + Z.of_nat (length l) * (6 + 3 * Z.of_nat (length ks)))%Z /\ g_peak g1 = Z.max (g_peak g) (g_top g1) /\
    forall i x, nth_error l i = Some x -> part_node g1 (gsize g + i) (nth x y f0) ks (map (fun v => nth x v f0) yS).
Proof.
  intros LS. induction l as [|x l IH]; intros z g R0 HG HB P1 P2.
  - exists z, g. cbn [mmap length seq map]. unfold mret. split; auto. split; auto. split; auto. split; [apply grows_refl|]. split; [lia|].
    split; [lia|]. split; [pose proof (w_top g (r_wf _ _ R0)); lia|]. intros [|i] x E; discriminate.
  - cbn [length] in P2. set (v := nth x y f0). set (ps := map (fun v => nth x v f0) yS).
    assert (LP : length ps = length ks) by (unfold ps; rewrite map_length; exact LS).
    destruct (part_go HC z g v ks ps R0 HG HB LP P1 ltac:(lia)) as (z1 & E1 & R1 & G1 & PN). set (g1 := a_new g v (BRec ks ps) (Some ChEager)) in *.
    assert (SZ : gsize g1 = S (gsize g)) by apply new_size. assert (GR : grows g g1) by apply grows_new.
    assert (ET : g_top g1 = (g_top g + (6 + 3 * Z.of_nat (length ks)))%Z) by (unfold g1; cbn [a_new push_top g_top]; unfold bwidth, zlen; rewrite LP; lia).
    assert (EP : g_peak g1 = Z.max (g_peak g) (g_top g1)) by reflexivity.
    assert (HB1 : Forall (fun k => k < gsize g1) ks) by (eapply Forall_impl; [|exact HB]; cbv beta; intros; lia).
    destruct (IH z1 g1 R1 G1 HB1 ltac:(lia) ltac:(lia)) as (z2 & g2 & E2 & R2 & G2 & GR2 & SZ2 & ET2 & EP2 & PN2).
    exists z2, g2. split.
    { cbn [mmap]. unfold mbind. fold v. fold ps. rewrite E1. cbn [bind]. rewrite E2. cbn [bind length seq map]. unfold mret. rewrite SZ. reflexivity. }
    split; auto. split; auto. split; [eapply grows_trans; eauto|]. cbn [length]. split; [lia|]. split; [lia|]. split; [lia|].
    intros [|i] x' E; cbn [nth_error] in E.
    + injection E as <-. rewrite Nat.add_0_r. eapply part_grows; eauto.
    + replace (gsize g + S i) with (gsize g1 + i) by lia. apply PN2. exact E.
Qed.

Lemma column_steady ops y yS : steady (sol_column ops y yS).
Proof. unfold sol_column. apply steady_mmap. intros i. apply steady_part. Qed.

(* ---- fewer marked places ---- *)
Lemma agree_fewer p p' s t : (forall j, p' j = true -> p j = true) -> agree p s t -> agree p' s t.
Proof.
  intros H [A1 A2 A3 A4 A5 A6 A7 A8 A9]. constructor; auto. intros j [Q|Q]; auto.
Qed.
Lemma slots_later b (P : nat -> bool) c n j : slots (b + n) (fun i => P (c + n + i)) j = true -> slots b (fun i => P (c + i)) j = true.
Proof.
  unfold slots, hd. intros H. apply andb_prop in H. destruct H as [H1 H2]. apply andb_true_intro. split; [lia|].
  rewrite <- H2. f_equal. lia.
Qed.

(* ---- back to the state itself ---- *)
Definition rechain (s : st) (g : graph) : graph :=
  {| g_nodes := g_nodes g; g_adj := g_adj g; g_arrs := g_arrs g;
     g_ch := fun k => if (hd k <=? s_n s)%Z then v_chain (s_varis s (hd k)) else ChDummy;
     g_nest := g_nest g; g_top := g_top g; g_peak := g_peak g |}.

Lemma agree_rel q s z g : agree q s z -> Rel z g -> Rel s (rechain s g) /\ forall k, k < gsize g -> g_ch (rechain s g) k = g_ch g k.
Proof.
  intros H R0. pose proof R0 as [W A1 A2 A3 A4 A5 A6 A7 A8 A9 A10 A11 A12 A13].
  rewrite (ag_head _ _ _ H) in A1. rewrite (ag_n _ _ _ H) in A2, A4, A5. rewrite (ag_tape _ _ _ H) in A6, A7, A8, A9, A10. rewrite (ag_lvl _ _ _ H) in A11.
  split.
  - constructor; cbn [rechain g_nodes g_arrs g_adj g_ch g_nest g_top g_peak]; auto.
    + destruct W. constructor; cbn [rechain g_nodes g_arrs g_adj g_ch g_nest g_top g_peak]; auto.
    + intros k Hk. rewrite <- (ag_i _ _ _ H). apply A3. exact Hk.
    + intros k Hk. unfold hd. replace (Z.of_nat k + 1 <=? s_n s)%Z with true by lia. reflexivity.
    + intros k Hk. unfold hd. replace (Z.of_nat k + 1 <=? s_n s)%Z with false by lia. reflexivity.
    + apply (nest_at_ext z s); [symmetry; apply (ag_nv _ _ _ H)|symmetry; apply (ag_nt _ _ _ H)|exact A13].
  - intros k Hk. cbn [rechain g_ch]. unfold hd. replace (Z.of_nat k + 1 <=? s_n s)%Z with true by lia.
    rewrite <- (ag_ch _ _ _ H) by (right; lia). apply A4. lia.
Qed.

(* ---- the loop over the output times ---- *)
Definition extends (g g' : graph) : Prop := (exists l, g_nodes g' = g_nodes g ++ l) /\ forall k, k < gsize g -> g_ch g' k = g_ch g k.
Lemma extends_refl g : extends g g.
Proof. split; [exists nil; rewrite app_nil_r; reflexivity|auto]. Qed.
Lemma extends_size g g' : extends g g' -> gsize g <= gsize g'.
Proof. intros [[l E] _]. unfold gsize. rewrite E, app_length. lia. Qed.
Lemma extends_trans g1 g2 g3 : extends g1 g2 -> extends g2 g3 -> extends g1 g3.
Proof.
  intros H1 H2. pose proof (extends_size _ _ H1) as SZ. destruct H1 as [[l E] A], H2 as [[l' E'] A']. split.
  - exists (l ++ l'). rewrite E', E, app_assoc. reflexivity.
  - intros k Hk. rewrite A' by lia. apply A. exact Hk.
Qed.
Lemma extends_grows g g' : grows g g' -> extends g g'.
Proof. intros G. split; [apply (gr_nodes _ _ G)|apply (gr_ch _ _ G)]. Qed.
Lemma extends_same g g' : same_graph g g' -> extends g g'.
Proof. intros (S1 & S2 & S3 & _). split; [exists nil; rewrite app_nil_r; exact S1|exact S3]. Qed.
Lemma extends_part g g' k v ks ps : extends g g' -> part_node g k v ks ps -> part_node g' k v ks ps.
Proof.
  intros [[l En] A] [(nd & E & E1 & E2) H]. assert (Hk : k < gsize g) by (apply nth_error_Some; congruence). split.
  - exists nd. split; auto. rewrite En, nth_error_app1 by exact Hk. exact E.
  - rewrite (A k Hk). exact H.
Qed.

(* what the caller had is there as before *)
Definition kept (s s' : st) : Prop := forall h, alive s h -> alive s' h /\ var_val s' h = var_val s h /\ var_adj s' h = var_adj s h.
Lemma kept_refl s : kept s s.
Proof. intros h H. auto. Qed.
Lemma kept_trans s1 s2 s3 : kept s1 s2 -> kept s2 s3 -> kept s1 s3.
Proof. intros H1 H2 h Hh. destruct (H1 h Hh) as (A1 & A2 & A3). destruct (H2 h A1) as (B1 & B2 & B3). split; auto. split; congruence. Qed.
Lemma kept_grows p p' s z g s' z' g' : agree p s z -> Rel z g -> agree p' s' z' -> Rel z' g' -> grows g g' -> kept s s'.
Proof.
  intros H R0 H' R' GR h Hh. pose proof (grows_size _ _ GR) as SG.
  assert (Hz : alive z h) by (unfold alive in *; rewrite (ag_head _ _ _ H); exact Hh).
  destruct (alive_node z g h R0 Hz) as (k & -> & Hk). destruct (grows_old g g' k (r_wf _ _ R0) GR Hk) as (_ & EV & Hk').
  pose proof (node_alive z' g' k R' Hk') as Hz'. assert (Hs' : alive s' (hd k)) by (unfold alive in *; rewrite (ag_head _ _ _ H') in Hz'; exact Hz').
  destruct (agree_node _ _ _ _ H Hh) as (N1 & N2 & _). destruct (agree_node _ _ _ _ H' Hs') as (M1 & M2 & _).
  split; auto. rewrite <- N1, <- N2, <- M1, <- M2.
  rewrite (rel_var_val z' g' R' k Hk'), (rel_var_val z g R0 k Hk), (rel_var_adj z' g' R' k Hk'), (rel_var_adj z g R0 k Hk), EV, (gr_adj _ _ GR k Hk). auto.
Qed.

Definition delivered (g g' : graph) (ks : list nat) (n : nat) (out : list F * list (list F)) (hs : list Z) : Prop :=
  length hs = n /\ length (snd out) = length ks /\
  forall i h, nth_error hs i = Some h -> exists k, h = hd k /\ gsize g <= k /\ part_node g' k (nth i (fst out) f0) ks (map (fun v => nth i v f0) (snd out)).
Definition ends_as (g : graph) (ks : list nat) (n : nat) (s : st) (r : res (list (list Z) * st)) (e : ending) : Prop :=
  match e with
  | Delivered l => exists yt s' z' g' p, r = Ok (yt, s') /\ agree p s' z' /\ Rel z' g' /\ sound g' /\ extends g g' /\ kept s s' /\ Forall2 (delivered g g' ks n) l yt
  | Halted => r = ErrStop
  | Overran => r = Undef OutOfBounds
  end.

Lemma ends_start g1 g ks n s1 s r e : gsize g <= gsize g1 -> extends g g1 -> kept s s1 -> ends_as g1 ks n s1 r e -> ends_as g ks n s r e.
Proof.
  intros SZ EX KP. destruct e as [l| |]; cbn [ends_as]; auto. intros (yt & s' & z' & g' & p & E & AG & R & GG & EX' & KP' & FF).
  exists yt, s', z', g', p. split; auto. split; auto. split; auto. split; auto. split; [eapply extends_trans; eauto|]. split; [eapply kept_trans; eauto|].
  eapply Forall2_impl; [|exact FF]. intros a b (B1 & B2 & B3). split; auto. split; auto.
  intros i h Hi. destruct (B3 i h Hi) as (k & -> & Hk & PN). exists k. split; auto. split; auto. lia.
Qed.

Lemma drive_lines P q o ks n limit : practical -> ready o q n -> ode_ns o = length ks -> 0 < n -> (limit <= cap)%Z ->
  forall m c head size S e, solves P q (par_vals o n) (par_of o n) n (length ks) limit m c head size S e ->
  forall s z g, agree (slots (gsize g) (fun i => P (c + i))) s z -> Rel z g -> sound g -> (s_lvl s < 10)%Z -> Forall (fun k => k < gsize g) ks ->
  (g_peak g <= cap)%Z -> head = t_head (s_tape s) -> size = t_size (s_tape s) ->
  ends_as g ks n s (drive o (map hd ks) m S s) e.
Proof.
  intros HP RD LN NZ HLim. pose proof HP as [HC HJ].
  induction 1 as [c head size S|m c head size|m c head size y yS S size' e L1 [L2 L3] w HW ST _ IH
    |m c head size t y yS k ys tr size' e L1 [L2 L3] xs t0 rs w HF IP HW HT LY ST NF _ IH
    |m c head size t y yS k L1 [L2 L3] xs t0 rs w HF IP HW HT
    |m c head size t y yS k ys tr L1 [L2 L3] xs t0 rs w HF IP HW HT LY ST]; intros s z g HAG R0 HG HL HB P1 EH EZ.
  - destruct S; cbn [drive ends_as]; unfold mret; exists nil, s, z, g, (slots (gsize g) (fun i => P (c + i))); (split; [reflexivity|]);
      (split; [exact HAG|]); (split; [exact R0|]); (split; [exact HG|]); (split; [apply extends_refl|]); (split; [apply kept_refl|constructor]).
  - reflexivity.
  - assert (EG : g_top g = head) by (rewrite EH, <- (ag_tape _ _ _ HAG); symmetry; apply (r_thead _ _ R0)).
    destruct (column_go HC ks y yS (seq 0 (length y)) L2 z g R0 HG HB P1) as (z1 & g1 & E1 & R1 & G1 & GR & SZ & ET & EP & PN).
    { rewrite seq_length, L1. unfold w in HW. lia. }
    rewrite seq_length, L1 in SZ, ET. rewrite seq_length in E1.
    pose proof (column_steady (map hd ks) y yS _ _ _ HAG) as B. unfold sol_column in B at 2. rewrite E1 in B.
    destruct (sol_column (map hd ks) y yS s) as [[hs s1]| | |] eqn:E1s; cbn [both] in B; try contradiction. destruct B as [Eh AG1]. cbn [fst snd] in Eh, AG1. rewrite L1 in Eh. subst hs.
    assert (AG1' : agree (slots (gsize g1) (fun i => P (c + n + i))) s1 z1).
    { eapply agree_fewer; [|exact AG1]. intros j. rewrite SZ. apply slots_later. }
    assert (T1 : t_head (s_tape s1) = (head + w)%Z).
    { rewrite <- (ag_tape _ _ _ AG1), (r_thead _ _ R1), ET, EG. unfold w. lia. }
    assert (S1 : size' = t_size (s_tape s1)).
    { apply (storage_fun HC size (head + w)%Z); [exact ST|]. rewrite EZ, <- (ag_tape _ _ _ AG1), <- (ag_tape _ _ _ HAG).
      apply (storage_ok HC _ _ _ _ _ (r_size _ _ R0) (r_size _ _ R1)).
      - rewrite EP, ET, EG. f_equal.
      - pose proof (w_top g (r_wf _ _ R0)). unfold w. nia. }
    assert (HL1 : (s_lvl s1 < 10)%Z).
    { rewrite <- (ag_lvl _ _ _ AG1), (r_lvl _ _ R1), (gr_nest _ _ GR), <- (r_lvl _ _ R0), (ag_lvl _ _ _ HAG). exact HL. }
    assert (HB1 : Forall (fun k => k < gsize g1) ks) by (eapply Forall_impl; [|exact HB]; cbv beta; intros; lia).
    specialize (IH s1 z1 g1 AG1' R1 G1 HL1 HB1 ltac:(unfold w in *; lia) (eq_sym T1) S1).
    pose proof (kept_grows _ _ _ _ _ _ _ _ HAG R0 AG1 R1 GR) as KP. pose proof (extends_grows _ _ GR) as EX.
    cbn [drive]. unfold mbind. rewrite E1s. cbn [bind].
    destruct e as [l| |]; cbn [then_delivers ends_as] in IH |- *; [|rewrite IH; reflexivity|rewrite IH; reflexivity].
    destruct IH as (yt & s' & z' & g' & p & E & AG & R & GG & EX' & KP' & FF). rewrite E. cbn [bind]. unfold mret.
    exists (map hd (seq (gsize g) n) :: yt), s', z', g', p. split; auto. split; auto. split; auto. split; auto. split; [eapply extends_trans; eauto|]. split; [eapply kept_trans; eauto|].
    constructor.
    + split; [rewrite map_length, seq_length; reflexivity|]. cbn [fst snd]. split; auto. intros i h Hi.
      rewrite nth_error_map in Hi. assert (Hn : i < n).
      { destruct (Nat.lt_ge_cases i n) as [G|G]; auto. rewrite (proj2 (nth_error_None (seq (gsize g) n) i)) in Hi by (rewrite seq_length; lia). discriminate. }
      rewrite (nth_error_nth' _ 0) in Hi by (rewrite seq_length; lia). rewrite seq_nth in Hi by lia. cbn [option_map] in Hi. injection Hi as <-.
      exists (gsize g + i). split; auto. split; [lia|]. eapply extends_part; [exact EX'|]. apply PN.
      rewrite (nth_error_nth' _ 0) by (rewrite seq_length; lia). rewrite seq_nth by lia. reflexivity.
    + eapply Forall2_impl; [|exact FF]. intros a b (B1 & B2 & B3). split; auto. split; auto.
      intros i h Hi. destruct (B3 i h Hi) as (k & -> & Hk & PK). exists k. split; auto. split; auto. lia.
  - assert (EG : g_top g = head) by (rewrite EH, <- (ag_tape _ _ _ HAG); symmetry; apply (r_thead _ _ R0)). subst n.
    pose proof (sens_at (fun i => P (c + i)) g s z g t y yS o q HP HAG R0 HG ltac:(repeat split; auto) HL RD ltac:(congruence)) as G.
    cbv zeta in G. fold xs in G. fold t0 rs w in G. rewrite HT in G.
    destruct G as [_ G]; auto; [unfold xs, rhs_args; rewrite app_length; lia|lia|].
    destruct G as (s1 & z1 & g1 & E & AG1 & R1 & G1 & SG & U & AD & PK & ST1).
    { unfold exactly_full. rewrite <- EH, <- EZ. intros X. apply NF. apply (storage_fun HC _ _ _ _ ST X). }
    rewrite <- EH, <- EZ in ST1.
    assert (SZ : gsize g1 = gsize g) by (unfold gsize; destruct SG as (-> & _); reflexivity).
    pose proof U as (U1 & U2 & U3 & U4).
    assert (KP : kept s s1).
    { intros h Hh. split; [unfold alive in *; rewrite U1; exact Hh|]. split; [apply (proj1 (U4 h Hh))|apply AD; exact Hh]. }
    cbn [drive]. unfold mbind. rewrite E. cbn [bind].
    apply (ends_start g1 g ks (length y) s1 s); [lia|apply extends_same; exact SG|exact KP|].
    apply (IH s1 z1 g1); auto; [rewrite SZ; exact AG1|rewrite U2; exact HL|rewrite SZ; exact HB|congruence|].
    apply (storage_fun HC _ _ _ _ ST ST1).
  - assert (EG : g_top g = head) by (rewrite EH, <- (ag_tape _ _ _ HAG); symmetry; apply (r_thead _ _ R0)). subst n.
    pose proof (sens_at (fun i => P (c + i)) g s z g t y yS o q HP HAG R0 HG ltac:(repeat split; auto) HL RD ltac:(congruence)) as G.
    cbv zeta in G. fold xs in G. fold t0 rs w in G. rewrite HT in G.
    cbn [drive ends_as]. unfold mbind. rewrite G; auto; [unfold xs, rhs_args; rewrite app_length; lia|lia].
  - assert (EG : g_top g = head) by (rewrite EH, <- (ag_tape _ _ _ HAG); symmetry; apply (r_thead _ _ R0)). subst n.
    pose proof (sens_at (fun i => P (c + i)) g s z g t y yS o q HP HAG R0 HG ltac:(repeat split; auto) HL RD ltac:(congruence)) as G.
    cbv zeta in G. fold xs in G. fold t0 rs w in G. rewrite HT in G.
    destruct G as [G _]; auto; [unfold xs, rhs_args; rewrite app_length; lia|lia|].
    cbn [drive ends_as]. unfold mbind. rewrite G; [reflexivity|]. unfold exactly_full. rewrite <- EH, <- EZ. exact ST.
Qed.

(* ---- from a reachable state ---- *)
Definition finishes (s : st) (ops : list Z) (n : nat) (r : res (list (list Z) * st)) (e : ending) : Prop :=
  match e with
  | Delivered l => exists yt s', r = Ok (yt, s') /\ solution s s' ops n l yt /\
      forall h, alive s h -> alive s' h /\ var_val s' h = var_val s h /\ var_adj s' h = var_adj s h
  | Halted => r = ErrStop
  | Overran => r = Undef OutOfBounds
  end.

Lemma ends_finishes (HJ : exists j, junk = Some j) s g ks n r e : Rel s g -> ends_as g ks n s r e -> finishes s (map hd ks) n r e.
Proof.
  intros R0. destruct e as [l| |]; cbn [ends_as finishes]; auto. intros (yt & s' & z' & g' & p & E & AG & R & _ & EX & KP & FF).
  exists yt, s'. split; auto. split; [|exact KP]. destruct (agree_rel p s' z' g' AG R) as [R1 CH].
  destruct (nth_error_both _ _ _ FF) as [LL NN]. split; [exact LL|].
  intros k hs Hk. destruct (NN k hs Hk) as ([y yS] & Hl & B1 & B2 & B3). cbn [fst snd] in *.
  exists y, yS. split; auto. split; auto. intros i h Hi. destruct (B3 i h Hi) as (j & -> & Hj & PN).
  assert (LP : length (map (fun v => nth i v f0) yS) = length ks) by (rewrite map_length; exact B2).
  apply (part_records HJ s g s' (rechain s' g') j _ ks _ R0 R1 Hj); [|exact LP].
  destruct PN as [(nd & N1 & N2) N3]. split; [exists nd; auto|]. rewrite CH; [exact N3|]. apply nth_error_Some. congruence.
Qed.

Lemma drive_ends P q o env s ops n words m S e : practical -> reachable env s -> (s_lvl s < 10)%Z -> Forall (alive s) ops -> ready o q n -> ode_ns o = length ops -> 0 < n ->
  (0 <= words)%Z -> roomy s words ->
  solves P q (par_vals o n) (par_of o n) n (length ops) (t_head (s_tape s) + words)%Z m 0 (t_head (s_tape s)) (t_size (s_tape s)) S e ->
  exists g ks, Rel s g /\ ops = map hd ks /\ Forall (fun k => k < gsize g) ks /\ ends_as g ks n s (drive o ops m S s) e.
Proof.
  intros HP HR HL HA RD LN NZ HW HM HS. destruct (reach_snd env s HP HR) as (g & R0 & HG). destruct (gen_nodes s g ops R0 HA) as (ks & -> & HB).
  exists g, ks. split; auto. split; auto. split; auto.
  destruct (roomy_peak s g words R0 HW HM) as [P1 P2]. rewrite map_length in *.
  rewrite (r_thead _ _ R0) in HS at 1.
  apply (drive_lines P q o ks n (g_top g + words)%Z HP RD LN NZ P2 m 0 _ _ S e HS s s g); auto.
  apply (agree_self _ s g R0 HG). intros k Hk. apply slots_old. exact Hk.
Qed.

Lemma drive_finishes P q o env s ops n words m S e : practical -> reachable env s -> (s_lvl s < 10)%Z -> Forall (alive s) ops -> ready o q n -> ode_ns o = length ops -> 0 < n ->
  (0 <= words)%Z -> roomy s words ->
  solves P q (par_vals o n) (par_of o n) n (length ops) (t_head (s_tape s) + words)%Z m 0 (t_head (s_tape s)) (t_size (s_tape s)) S e ->
  finishes s ops n (drive o ops m S s) e.
Proof.
  intros HP HR HL HA RD LN NZ HW HM HS. destruct (drive_ends P q o env s ops n words m S e HP HR HL HA RD LN NZ HW HM HS) as (g & ks & R0 & -> & _ & Q).
  apply (ends_finishes (proj2 HP) s g); auto.
Qed.

Lemma solves_par P q p par par' n ns limit m c head size S e : (forall j, j < ns -> par j = par' j) ->
  solves P q p par n ns limit m c head size S e -> solves P q p par' n ns limit m c head size S e.
Proof.
  intros HX. induction 1 as [c head size S|m c head size|m c head size y yS S size' e L1 L2 w HW ST _ IH
    |m c head size t y yS k ys tr size' e L1 L2 xs t0 rs w HF IP HW HT LY ST NF _ IH
    |m c head size t y yS k L1 L2 xs t0 rs w HF IP HW HT
    |m c head size t y yS k ys tr L1 L2 xs t0 rs w HF IP HW HT LY ST].
  - constructor.
  - constructor.
  - apply (sv_out P q p par' n ns limit m c head size y yS S size' e); auto.
  - apply (sv_call P q p par' n ns limit m c head size t y yS k ys tr size' e); auto.
    replace (sens_vectors tr n ys yS par') with (sens_vectors tr n ys yS par); auto.
    unfold sens_vectors. apply map_ext_in. intros j Hj. apply in_seq in Hj. apply map_ext. intros i. unfold pushed. rewrite HX; auto. destruct L2 as [<- _]. lia.
  - apply (sv_stop P q p par' n ns limit m c head size t y yS k); auto.
  - apply (sv_full P q p par' n ns limit m c head size t y yS k ys tr); auto.
Qed.

Theorem y0_exact P env s y (v : list F) nout q (S : integrator) words e : practical -> reachable env s -> (s_lvl s < 10)%Z -> Forall (alive s) y -> mapM (var_val s) y = Ok v -> 0 < length y ->
  (0 <= words)%Z -> roomy s words ->
  solves P q [] (fun _ => None) (length y) (length y) (t_head (s_tape s) + words)%Z nout 0 (t_head (s_tape s)) (t_size (s_tape s)) (S v (unit_vectors (length y))) e ->
  finishes s y (length y) (cvodes_sol_y0_sens y nout (rhs_fn q) S s) e.
Proof.
  intros HP HR HL HA HV NZ HW HM HS. unfold cvodes_sol_y0_sens, mbind, vvals, mget. rewrite HV. cbn [bind]. rewrite init_unit.
  assert (PV : par_is_var (mkRhs true (length y) [] (rhs_fn q)) (length y) = false) by (unfold par_is_var; cbn [ode_ys ode_ns]; rewrite Nat.eqb_refl; reflexivity).
  apply (drive_finishes P q _ env s y (length y) words); auto.
  - constructor; auto; rewrite PV; discriminate.
  - unfold par_vals. rewrite PV. eapply solves_par; [|exact HS]. intros j _. unfold par_of. rewrite PV. reflexivity.
Qed.

Theorem par_exact P env s (y : list F) param (v : list F) nout q (S : integrator) words e : practical -> reachable env s -> (s_lvl s < 10)%Z -> Forall (alive s) param -> mapM (var_val s) param = Ok v ->
  0 < length y -> length param = 3 -> (0 <= words)%Z -> roomy s words ->
  solves P q v Some (length y) 3 (t_head (s_tape s) + words)%Z nout 0 (t_head (s_tape s)) (t_size (s_tape s)) (S y (zero_vectors 3 (length y))) e ->
  finishes s param (length y) (cvodes_sol_par_sens y param nout (rhs_fn q) S s) e.
Proof.
  intros HP HR HL HA HV NZ L3 HW HM HS. unfold cvodes_sol_par_sens, mbind, vvals, mget. rewrite HV. cbn [bind]. rewrite init_zero, L3.
  assert (LV : length v = 3) by (rewrite <- L3; eapply mapM_length; eauto).
  apply (drive_finishes P q _ env s param (length y) words); auto.
  - constructor; auto.
  - rewrite L3. unfold par_vals. eapply solves_par; [|exact HS]. intros j _. unfold par_of, par_is_var, par_count. cbn [ode_ys ode_ns andb negb].
    rewrite Nat.sub_diag. cbn [Nat.ltb Nat.leb]. f_equal. lia.
Qed.

(* every integrator that keeps to its sizes and the storage has an end *)
Theorem orderly_ends P q p par n ns limit S : practical -> forall m c head size, orderly P q p par n ns limit m c head S -> exists e, solves P q p par n ns limit m c head size S e.
Proof.
  intros HP. induction S as [|t y yS k IH|y yS S IH]; intros m c head size HO; (destruct m as [|m]; [eexists; apply sv_end|]); cbn [orderly] in HO.
  - exists Halted. constructor.
  - cbv zeta in HO. destruct HO as (L1 & L2 & H1 & H2 & H3 & H4).
    destruct (trace (q t) _ _) as [[ys tr]|] eqn:ET; [|exists Halted; apply sv_stop; auto]. destruct H4 as [LY H4].
    set (xs := rhs_args y p) in *. set (w := (6 * zlen xs + cost (q t) (seq 0 (length xs)) (map given xs))%Z) in *.
    destruct (storage_total (proj1 HP) size (head + w)%Z) as [size' ST].
    destruct (Z.eq_dec size' (head + w - 1)) as [->|NE]; [exists Overran; eapply sv_full; eauto|].
    destruct (IH _ (Datatypes.S m) c head size' H4) as [e He]. exists e. eapply sv_call; eauto.
  - cbv zeta in HO. destruct HO as (L1 & L2 & H1 & H2). set (w := (Z.of_nat n * (6 + 3 * Z.of_nat ns))%Z) in *.
    destruct (storage_total (proj1 HP) size (head + w)%Z) as [size' ST]. destruct (IH _ _ _ size' H2) as [e He].
    exists (then_delivers (y, yS) e). eapply sv_out; eauto.
Qed.

(* one callback: any number of sensitivities of initial values and parameters *)
Definition callback_is (s : st) (n : nat) (ys : list nat) (tr : list line) (yS : list (list F)) (par : nat -> option nat) (w : Z) (r : res (list (list F) * st)) : Prop :=
  (exactly_full s w -> r = Undef OutOfBounds) /\
  (~ exactly_full s w -> exists s', r = Ok (sens_vectors tr n ys yS par, s') /\ undisturbed s s' /\ forall h, alive s h -> var_adj s' h = var_adj s h).

Lemma callback_exact env s t y yS (o : cvs_rhs) q : practical -> reachable env s -> (s_lvl s < 10)%Z -> ready o q (length y) -> length yS = ode_ns o -> 0 < length y ->
  let xs := rhs_args y (par_vals o (length y)) in let t0 := map given xs in let rs := seq 0 (length xs) in let w := (6 * zlen xs + cost (q t) rs t0)%Z in
  well_formed (q t) rs t0 -> roomy s w ->
  match trace (q t) rs t0 with
  | None => set_sens_rhs t y yS o s = ErrStop
  | Some (ys, tr) => callback_is s (length y) ys tr yS (par_of o (length y)) w (set_sens_rhs t y yS o s)
  end.
Proof.
  intros HP HR HL RD LS NZ xs t0 rs w HF HM. destruct (reach_snd env s HP HR) as (g & R0 & HG).
  assert (W0 : (0 <= w)%Z) by (unfold w; pose proof (cost_pos (q t) rs t0); unfold zlen; lia).
  destruct (roomy_peak s g w R0 W0 HM) as [P1 P2].
  assert (NX : 0 < length xs) by (unfold xs, rhs_args; rewrite app_length; lia).
  pose proof (sens_lines_at s g t y yS o q HP R0 HG HL RD LS NX HF P1 P2) as G. fold xs in G. fold t0 rs w in G.
  destruct (trace (q t) rs t0) as [[ys tr]|]; auto. destruct G as [G1 G2]. split; auto. intros HE. destruct (G2 HE) as (s' & E & LB & AD).
  exists s'. split; auto. split; auto. eapply left_undisturbed; eauto.
Qed.

Lemma sens_vectors_ext tr n ys (yS : list (list F)) par par' : (forall j, j < length yS -> par j = par' j) -> sens_vectors tr n ys yS par = sens_vectors tr n ys yS par'.
Proof. intros HX. unfold sens_vectors. apply map_ext_in. intros j Hj. apply in_seq in Hj. apply map_ext. intros i. unfold pushed. rewrite HX by lia. reflexivity. Qed.

Theorem callback_initial env0 s t (y : list F) yS q : practical -> reachable env0 s -> (s_lvl s < 10)%Z -> 0 < length y -> length yS = length y ->
  let xs := rhs_args y [] in let t0 := map given xs in let rs := seq 0 (length xs) in let w := (6 * zlen xs + cost (q t) rs t0)%Z in
  well_formed (q t) rs t0 -> roomy s w ->
  match trace (q t) rs t0 with
  | None => set_sens_rhs t y yS (mkRhs true (length y) [] (rhs_fn q)) s = ErrStop
  | Some (ys, tr) => callback_is s (length y) ys tr yS (fun _ => None) w (set_sens_rhs t y yS (mkRhs true (length y) [] (rhs_fn q)) s)
  end.
Proof.
  intros HP HR HL NZ LS. set (o := mkRhs true (length y) [] (rhs_fn q)).
  assert (PV : par_is_var o (length y) = false) by (unfold par_is_var, o; cbn [ode_ys ode_ns]; rewrite Nat.eqb_refl; reflexivity).
  assert (RD : ready o q (length y)) by (constructor; auto; rewrite PV; discriminate).
  pose proof (callback_exact env0 s t y yS o q HP HR HL RD LS NZ) as G. unfold par_vals in G. rewrite PV in G. cbv zeta in G |- *. intros HF HM. specialize (G HF HM).
  destruct (trace _ _ _) as [[ys tr]|]; auto. destruct G as [G1 G2]. split; auto. intros HE. destruct (G2 HE) as (s' & E & G3). exists s'. split; [|exact G3].
  rewrite E. do 2 f_equal. apply sens_vectors_ext. intros j _. unfold par_of. rewrite PV. reflexivity.
Qed.

Theorem callback_parameters env0 s t (y p : list F) yS q (ys : bool) : practical -> reachable env0 s -> (s_lvl s < 10)%Z -> 0 < length y -> length p = 3 ->
  let first := if ys then length y else 0 in first < length yS <= first + 3 ->
  let xs := rhs_args y p in let t0 := map given xs in let rs := seq 0 (length xs) in let w := (6 * zlen xs + cost (q t) rs t0)%Z in
  well_formed (q t) rs t0 -> roomy s w ->
  match trace (q t) rs t0 with
  | None => set_sens_rhs t y yS (mkRhs ys (length yS) p (rhs_fn q)) s = ErrStop
  | Some (os, tr) => callback_is s (length y) os tr yS (fun j => if j <? first then None else Some (j - first)) w (set_sens_rhs t y yS (mkRhs ys (length yS) p (rhs_fn q)) s)
  end.
Proof.
  intros HP HR HL NZ LP first LS. set (o := mkRhs ys (length yS) p (rhs_fn q)).
  assert (PV : par_is_var o (length y) = true).
  { unfold par_is_var, o. cbn [ode_ys ode_ns]. unfold first in LS. destruct ys; cbn [andb negb]; auto. replace (length yS =? length y) with false by lia. reflexivity. }
  assert (PC : ode_ns o - par_count o (length y) = first).
  { unfold par_count, o, first in *. cbn [ode_ys ode_ns]. destruct ys; lia. }
  assert (RD : ready o q (length y)).
  { constructor; auto. intros _. pose proof PC. unfold pvar_size. unfold par_count, o, first in *. cbn [ode_ys ode_ns] in *. destruct ys; lia. }
  pose proof (callback_exact env0 s t y yS o q HP HR HL RD eq_refl NZ) as G. unfold par_vals in G. rewrite PV in G. cbn [o ode_pval] in G. cbv zeta in G |- *. intros HF HM. specialize (G HF HM).
  destruct (trace _ _ _) as [[os tr]|]; auto. destruct G as [G1 G2]. split; auto. intros HE. destruct (G2 HE) as (s' & E & G3). exists s'. split; [|exact G3].
  fold o in E. rewrite E. do 2 f_equal. apply sens_vectors_ext. intros j _. unfold par_of. rewrite PV, PC. reflexivity.
Qed.
End Drive.
