(* Calls and programs inside their domain succeed as long as the tape needs no
   more than 2^30 words. *)
From Verif Require Import TapeFacts.
From Coq Require Import ZifyBool ZifyNat.
From Verif Require Export Claims_block.

(* number of variables a call returns *)
Definition op_results {N : Num} (o : op) : nat :=
  match o with
  | OMatVV m _ n _ _ => m * n | OMatVD m _ n _ _ => m * n | OMatDV m _ n _ _ => m * n
  | _ => 1
  end.

(* tape words a program may need *)
Definition prog_words {N : Num} (p : list op) : Z := fold_right (fun o n => op_words o + n) 0 p.

(* every register a call names has been returned before; n registers are given *)
Fixpoint regs_in {N : Num} (p : list op) (n : nat) : Prop :=
  match p with
  | [] => True
  | o :: q => Forall (fun r => (r < n)%nat) (op_regs o) /\ regs_in q (n + op_results o)
  end.

Section Total.
Context {N : Num} {RL : RepLaws N} {C : Cfg N}.

Lemma stop_ops g env o : aexec_op g env o = AStop -> exists u r, o = OUn u r /\ (u = UAcosh \/ u = UAtanh).
Proof.
  intros EA. destruct o; cbn [aexec_op] in EA.
  all: try (destruct (aregs g env _); try discriminate).
  all: try (destruct (aregs g env _); try discriminate).
  all: try (unfold amat in EA; destruct (_ && _ && _); discriminate).
  all: cbn [act_op] in EA.
  all: try (cbn [do_act abind] in EA; discriminate).
  all: try (destruct (areg g env _) as [k|]; cbn [do_act abind] in EA; try discriminate).
  all: try (destruct (areg g env _) as [k2|]; cbn [do_act abind] in EA; try discriminate).
  all: try (destruct (aregs g env _) as [kk|]; cbn [do_act abind] in EA; try discriminate).
  all: try (destruct (aregs g env _) as [kk2|]; cbn [do_act abind] in EA; try discriminate).
  all: try (destruct (Nat.eqb _ _); cbn [do_act abind] in EA; discriminate).
  + exists u, a. split; auto. destruct u; auto; cbn [act_un anew1 do_act abind] in EA; try discriminate.
    unfold act_abs in EA. destruct (fgt _ _); [discriminate|]. destruct (flt _ _); [discriminate|].
    destruct (feq _ _); discriminate.
  + destruct b; cbn [act_vv do_act abind] in EA; discriminate.
  + destruct b; cbn [act_vd do_act abind] in EA.
    all: try (destruct (fne d _); discriminate).
    * destruct (feq d fhalf); [discriminate|]. destruct (feq d f1); [discriminate|].
      destruct (feq d f2); [discriminate|]. destruct (feq d (fneg f2)); [discriminate|].
      destruct (feq d (fneg f1)); [discriminate|]. destruct (feq d (fneg fhalf)); discriminate.
    * destruct (fne d _); [discriminate|].
      unfold act_abs in EA. destruct (fgt _ _); [discriminate|]. destruct (flt _ _); [discriminate|].
      destruct (feq _ _); discriminate.
  + destruct b; cbn [act_dv do_act abind] in EA; try discriminate; destruct (fne d _); discriminate.
Qed.

Lemma op_words_pos (o : op) : 0 <= op_words o.
Proof.
  destruct o; cbn [op_words]; unfold zlen; lia.
Qed.

Lemma mpairs_len m n : length (mpairs m n) = (m * n)%nat.
Proof.
  unfold mpairs. induction n as [|n IH]; [simpl; lia|].
  rewrite seq_S, flat_map_app, app_length, IH. simpl. rewrite app_nil_r, map_length, seq_length. lia.
Qed.

Lemma aexec_results g env o ks g' : aexec_op g env o = AOk (ks, g') -> length ks = op_results o.
Proof.
  assert (A : forall a, abind (do_act g a) (fun p => AOk ([fst p], snd p)) = AOk (ks, g') -> length ks = 1%nat).
  { intros a. destruct (do_act g a) as [p| |]; cbn [abind]; intros H; inversion H; reflexivity. }
  assert (M : forall ch m k n ca cb av bv, amat ch m k n ca cb av bv g = AOk (ks, g') -> length ks = (m * n)%nat).
  { intros ch m k n ca cb av bv. unfold amat. destruct (_ && _ && _); [|discriminate]. intros H; inversion H; subst.
    rewrite seq_length, combine_length. unfold mat_vals. rewrite map_length, mpairs_len. lia. }
  destruct o; cbn [aexec_op op_results]; try apply A.
  - destruct (aregs g env a); [|discriminate]. destruct (aregs g env b); [|discriminate]. apply M.
  - destruct (aregs g env a); [|discriminate]. apply M.
  - destruct (aregs g env b); [|discriminate]. apply M.
Qed.

(* one call that does not stop *)
Lemma op_go (HC : cfg_ok C) s g ke o : Rel s g -> sound g -> Forall (fun k => (k < gsize g)%nat) ke ->
  op_shape o -> neutral o = false -> Forall (fun r => (r < length ke)%nat) (op_regs o) ->
  aexec_op g ke o <> AStop -> g_peak g <= cap -> g_top g + op_words o <= cap ->
  exists ks s' g', exec_op (map hd ke) o s = Ok (map hd ks, s') /\ aexec_op g ke o = AOk (ks, g') /\ Rel s' g' /\ sound g' /\
    grows g g' /\ Forall (fun k => (k < gsize g')%nat) (ke ++ ks) /\ length ks = op_results o /\
    g_peak g' <= cap /\ g_top g' <= g_top g + op_words o.
Proof.
  intros R HG HB HS HN HR HNS HP HT.
  assert (HN' : Forall (has_node g ke) (op_regs o)).
  { eapply Forall_impl; [|exact HR]. cbv beta. intros a Ha. destruct (lt_nth_error _ _ Ha) as [k E2].
    exists k. unfold areg. rewrite E2. rewrite Forall_forall in HB. pose proof (HB k (nth_error_In _ _ E2)) as Hk. cbv beta in Hk.
    replace (Nat.ltb k (gsize g)) with true by lia. reflexivity. }
  destruct (sound_accept g ke o HG HN' HS HN) as [A1 A2].
  pose proof (exec_op_ok HC s g ke o R) as HQ.
  destruct (aexec_op g ke o) as [[ks g']| |] eqn:E; [|congruence|congruence].
  destruct (op_tops _ _ _ _ _ E) as [T1 T2]. pose proof (aexec_results _ _ _ _ _ E) as HL.
  simpl in HQ. specialize (HQ (cap < g_peak g') (fun x => x)).
  destruct (exec_op (map hd ke) o s) as [[hs s']| |[]|] eqn:EX; simpl in HQ; try tauto; try lia.
  destruct HQ as [Eh R']. cbn [fst snd] in *. subst hs.
  destruct (op_run HC s g ke o _ s' R HG HB HS HN EX) as (kk & ks2 & g2 & _ & E2 & _ & G2 & GR & _ & B2).
  rewrite E in E2. assert (ks2 = ks) by congruence. assert (g2 = g') by congruence. subst.
  exists ks, s', g'. split; auto. split; auto. split; auto. split; auto. split; auto. split; auto. split; auto. split; auto. lia.
Qed.

Lemma roomy_peak s g w : Rel s g -> 0 <= w -> roomy s w -> g_peak g <= cap /\ g_top g + w <= cap.
Proof.
  intros R Hw [Q1 Q2]. destruct (r_twf s g R) as (T1 & _ & _). rewrite (r_thead s g R) in *.
  destruct (r_size s g R) as [[S1 S2]|(j & S1 & S2 & S3)]; unfold cap; lia.
Qed.

End Total.

Local Open Scope R_scope.

Section TotalReal.
Context {lg : R -> R} {C : Cfg (RNum lg)}.
Notation N := (RNum lg).
Notation graph := (@graph N).

Lemma in_dom_goes (g : graph) ke (o : @op N) : Forall (fun r => (r < length ke)%nat) (op_regs o) ->
  op_dom o (at_regs (map (gval g) ke) (op_regs o)) -> aexec_op g ke o <> AStop.
Proof.
  intros HR HD E. destruct (stop_ops _ _ _ E) as (u & r & -> & HU).
  cbn [aexec_op act_op] in E. cbn [op_dom op_regs at_regs map nth] in HD.
  inversion HR as [|? ? Hr _]; subst.
  destruct (areg g ke r) as [k|] eqn:EA; [|discriminate].
  assert (EV : nth r (map (gval g) ke) 0 = gval g k).
  { unfold areg in EA. destruct (nth_error ke r) as [k1|] eqn:E1; [|discriminate].
    destruct (Nat.ltb k1 (gsize g)); [|discriminate]. apply some_eq in EA. subst k1.
    apply nth_error_nth. rewrite nth_error_map, E1. reflexivity. }
  assert (HD2 : un_dom u (gval g k)) by (rewrite <- EV; exact HD). clear HD.
  destruct HU as [-> | ->]; cbn [act_un un_dom] in *.
  - destruct (is_nan_d (gval g k)); [discriminate|]. cbn [fle f1 RNum] in E. unfold rle in E.
    destruct (Rle_dec (gval g k) 1); [lra|]. discriminate.
  - destruct (is_nan_d (gval g k)); [discriminate|]. unfold fge in E. cbn [fle fneg f1 RNum] in E. unfold rle in E.
    destruct (Rle_dec (gval g k) (- (1))); [lra|]. destruct (Rle_dec 1 (gval g k)); [lra|]. discriminate.
Qed.

Lemma prog_go (HC : cfg_ok C) (p : list (@op N)) : forall s (g : graph) ke, Rel s g -> sound g -> Forall (fun k => (k < gsize g)%nat) ke ->
  prog_dom p (map (gval g) ke) -> regs_in p (length ke) -> (g_peak g <= cap)%Z -> (g_top g + prog_words p <= cap)%Z ->
  exists env' s', exec p (map hd ke) s = Ok (env', s').
Proof.
  induction p as [|o p IH]; intros s g ke R0 HG HB HD HCl HP HT.
  - eexists. eexists. reflexivity.
  - destruct HD as (D1 & D2 & D3 & D4). destruct HCl as [C1 C2].
    assert (W0 : (0 <= prog_words p)%Z).
    { clear. unfold prog_words. induction p as [|o p IH]; cbn [fold_right]; [lia|]. pose proof (op_words_pos o). lia. }
    change (prog_words (o :: p)) with (op_words o + prog_words p)%Z in HT.
    destruct (op_go HC s g ke o R0 HG HB D2 D3 C1 (in_dom_goes g ke o C1 D1) HP ltac:(lia))
      as (ks & s1 & g1 & E & EA & R1 & G1 & GR & B1 & L1 & P1 & T1).
    assert (EK : exists kk, aregs g ke (op_regs o) = Some kk).
    { destruct (op_run HC s g ke o _ s1 R0 HG HB D2 D3 E) as (kk & _ & _ & EK & _). eauto. }
    destruct EK as [kk EK].
    cbn [exec]. unfold mbind. rewrite E. cbn [bind]. rewrite <- map_app.
    apply (IH s1 g1 (ke ++ ks) R1 G1 B1).
    + rewrite (op_denote g g1 ke o kk ks EK HB D1 D2 D3 EA) in D4.
      replace (map (gval g1) (ke ++ ks)) with (map (gval g) ke ++ map (gval g1) ks); [exact D4|].
      rewrite map_app. f_equal. apply map_ext_in. intros k Hk. symmetry. apply (grows_gval g g1 k GR).
      rewrite Forall_forall in HB. apply HB; auto.
    + rewrite app_length, L1. exact C2.
    + exact P1.
    + lia.
Qed.

Theorem prog_total s env ws (p : list (@op N)) : @practical N C -> (exists g : graph, Rel s g /\ sound g) ->
  Forall (alive s) env -> mapM (var_val s) env = Ok ws -> prog_dom p ws -> regs_in p (length env) -> roomy s (prog_words p) ->
  exists env' s', exec p env s = Ok (env', s').
Proof.
  intros [HC HJ] (g & R0 & HG) HA HW HD HCl HR. destruct (alive_nodes s g env R0 HA) as (ke & -> & HB).
  rewrite (vals_nodes s g ke R0 HB) in HW. assert (EW : ws = map (gval g) ke) by congruence. subst ws.
  assert (W0 : (0 <= prog_words p)%Z).
  { clear. unfold prog_words. induction p as [|o p IH]; cbn [fold_right]; [lia|]. pose proof (op_words_pos o). lia. }
  destruct (roomy_peak s g _ R0 W0 HR) as [P1 P2]. rewrite map_length in HCl.
  apply (prog_go HC p s g ke R0 HG HB HD HCl P1 P2).
Qed.

Theorem op_total s env ws (o : @op N) : @practical N C -> (exists g : graph, Rel s g /\ sound g) ->
  Forall (alive s) env -> mapM (var_val s) env = Ok ws -> op_dom o (at_regs ws (op_regs o)) -> op_shape o -> neutral o = false ->
  Forall (fun r => (r < length env)%nat) (op_regs o) -> roomy s (op_words o) ->
  exists hs s', exec_op env o s = Ok (hs, s') /\ length hs = op_results o.
Proof.
  intros [HC HJ] (g & R0 & HG) HA HW HD HS HN HR HM. destruct (alive_nodes s g env R0 HA) as (ke & -> & HB).
  rewrite (vals_nodes s g ke R0 HB) in HW. assert (EW : ws = map (gval g) ke) by congruence. subst ws.
  destruct (roomy_peak s g _ R0 (op_words_pos o) HM) as [P1 P2]. rewrite map_length in HR.
  destruct (op_go HC s g ke o R0 HG HB HS HN HR (in_dom_goes g ke o HR HD) P1 P2) as (ks & s1 & g1 & E & _ & _ & _ & _ & _ & L1 & _).
  exists (map hd ks), s1. split; auto. rewrite map_length. exact L1.
Qed.

End TotalReal.
