(* C54: calls of gradient and jacobian one after the other. *)
From Verif Require Import TapeFacts.
From Coq Require Import ZifyBool ZifyNat.
From Verif Require Export Claims_reverse2.
Local Open Scope nat_scope.

Section Again.
Context {N : Num} {RL : RepLaws N} {C : Cfg N}.

Lemma left_undisturbed s g env (f : fn) w s' : Rel s g -> left_by s g env f w s' -> undisturbed s s'.
Proof.
  intros R0 (g' & R' & EN & (EA & EC) & ES & ET & _). assert (SZ : gsize g' = gsize g) by (unfold gsize; rewrite EN; reflexivity).
  split; [rewrite (r_head _ _ R0), (r_head _ _ R'), SZ; reflexivity|].
  split; [rewrite (r_lvl _ _ R0), (r_lvl _ _ R'), ES; reflexivity|].
  split; [rewrite (r_thead _ _ R0), (r_thead _ _ R'), ET; reflexivity|].
  intros h Hh. destruct (alive_node s g h R0 Hh) as (k & -> & Hk). split.
  - eapply node_same_val; eauto; [lia|]. unfold gval. rewrite EN. reflexivity.
  - eapply node_same_op; eauto. unfold same_node. destruct (lt_nth_error _ _ Hk) as [nd E]. rewrite EN, E.
    repeat split; auto. destruct (n_body nd); cbn [zops].
    + apply map_ext. intros. unfold gloc. rewrite EN. reflexivity.
    + unfold galoc. rewrite EA. reflexivity.
Qed.

Lemma undisturbed_trans s s1 s2 : undisturbed s s1 -> undisturbed s1 s2 -> undisturbed s s2.
Proof.
  intros (A1 & A2 & A3 & A4) (B1 & B2 & B3 & B4). split; [congruence|]. split; [congruence|]. split; [congruence|].
  intros h Hh. destruct (A4 h Hh) as [V1 (O1 & O2 & O3)]. destruct (B4 h) as [V2 (P1 & P2 & P3)]; [unfold alive in *; rewrite A1; exact Hh|].
  unfold same_val, same_op in *. repeat split; congruence.
Qed.

Lemma undisturbed_env s s' env (ws : list F) : undisturbed s s' -> Forall (alive s) env -> mapM (var_val s) env = Ok ws ->
  Forall (alive s') env /\ mapM (var_val s') env = Ok ws.
Proof.
  intros (A1 & _ & _ & A4) HA HW. split.
  - eapply Forall_impl; [|exact HA]. unfold alive. rewrite A1. auto.
  - rewrite <- HW. clear HW. induction HA as [|h env Hh _ IH]; [reflexivity|]. cbn [mapM]. destruct (A4 h Hh) as [V _]. unfold same_val in V.
    rewrite V, IH. reflexivity.
Qed.

Lemma storage_total (HC : cfg_ok C) size head : exists size', storage size head size'.
Proof.
  assert (HI : (1 <= init_tape_size)%Z) by (destruct HC; unfold init_tape_size, min_rec_size in *; lia).
  destruct (Z.le_gt_cases (head - 1) size) as [L|L]; [exists size; split; [auto|lia]|].
  assert (EX : forall n, (head - 1 <= init_tape_size * 2 ^ Z.of_nat n)%Z ->
    exists j, (head - 1 <= init_tape_size * 2 ^ Z.of_nat j)%Z /\ (j <> O -> (init_tape_size * 2 ^ (Z.of_nat j - 1) < head - 1)%Z)).
  { induction n as [|n IH]; intros Hn; [exists O; split; auto; lia|].
    destruct (Z.le_gt_cases (head - 1) (init_tape_size * 2 ^ Z.of_nat n)) as [Q|Q]; [auto|].
    exists (S n). split; auto. intros _. replace (Z.of_nat (S n) - 1)%Z with (Z.of_nat n) by lia. lia. }
  destruct (EX (Z.to_nat (head - 1))) as (j & J1 & J2).
  { destruct (Z.le_gt_cases (head - 1) 0) as [Q|Q].
    - pose proof (Z.pow_pos_nonneg 2 (Z.of_nat (Z.to_nat (head - 1))) ltac:(lia) ltac:(lia)). nia.
    - rewrite Z2Nat.id by lia. pose proof (Z.pow_gt_lin_r 2 (head - 1) ltac:(lia) ltac:(lia)). nia. }
  exists (init_tape_size * 2 ^ Z.of_nat j)%Z. split; [lia|]. intros _. exists j. auto.
Qed.

(* one call: the answer, the state it leaves, or the other ways it may end *)
Lemma ask_once s g e env (ws : list F) all (f : fn) xs : practical -> Rel s g -> good g -> reachable e s -> incl env e -> (s_lvl s < 10)%Z ->
  Forall (alive s) env -> mapM (var_val s) env = Ok ws ->
  let t0 := map given (ws ++ xs) in let rs := seq 0 (length ws + length xs) in let w := (6 * zlen xs + cost f rs t0)%Z in
  well_formed f rs t0 -> no_matmul f -> (g_peak g <= cap)%Z -> (g_top g + w <= cap)%Z ->
  match trace f rs t0 with
  | None => ask all f xs env s = ErrStop
  | Some ([], t) => True
  | Some (y :: ys, t) =>
      (exactly_full s w -> ask all f xs env s = Undef OutOfBounds) /\
      (~ exactly_full s w -> exists s' g' e', ask all f xs env s = Ok (answer t (length ws) (length xs) (if all then y :: ys else y :: nil), s') /\
        Rel s' g' /\ good g' /\ reachable e' s' /\ incl e e' /\ undisturbed s s' /\ g_top g' = g_top g /\ (g_peak g' <= cap)%Z /\
        storage (t_size (s_tape s)) (t_head (s_tape s) + w) (t_size (s_tape s')))
  end.
Proof.
  intros HP R0 HG HR HI HL HA HW t0 rs w HF NM P1 P2.
  pose proof (gradient_lines_at s g env ws xs f HP R0 (good_sound g HG) HL HA HW HF P1 P2) as Q1. fold t0 rs w in Q1.
  pose proof (jacobian_lines_at s g env ws xs f HP R0 (good_sound g HG) HL HA HW HF P1 P2) as Q2. fold t0 rs w in Q2.
  assert (LB : forall s', left_by s g env f w s' -> exists g' e', Rel s' g' /\ good g' /\ reachable e' s' /\ incl e e' /\ undisturbed s s' /\
    g_top g' = g_top g /\ (g_peak g' <= cap)%Z /\ storage (t_size (s_tape s)) (t_head (s_tape s) + w) (t_size (s_tape s'))).
  { intros s' LB. pose proof (left_undisturbed s g env f w s' R0 LB) as U.
    destruct LB as (g' & R' & _ & _ & _ & ET & EP & GD & ST & RE). destruct (RE e HR NM HI) as (e' & V1 & V2).
    exists g', e'. repeat (split; [solve [auto]|]). split; [lia|exact ST]. }
  unfold ask. destruct (trace f rs t0) as [[[|y ys] t]|]; auto.
  - destruct Q1 as [F1 A1]. destruct Q2 as [F2 A2]. split; intros HE.
    + destruct all; [auto|]. unfold mbind. rewrite (F1 HE). reflexivity.
    + destruct all.
      * destruct (A2 HE) as (s' & E & L). destruct (LB s' L) as (g' & e' & REST). exists s', g', e'. split; [exact E|exact REST].
      * destruct (A1 HE) as (s' & E & L). destruct (LB s' L) as (g' & e' & REST). exists s', g', e'. split; [|exact REST].
        unfold mbind. rewrite E. reflexivity.
  - destruct all; [exact Q2|]. unfold mbind. rewrite Q1. reflexivity.
Qed.

Lemma asks_at limit env (ws : list F) head c size fin : practical -> ends_with (fun f _ => no_matmul f) ws head limit c size fin ->
  forall s g e, Rel s g -> good g -> reachable e s -> incl env e -> (s_lvl s < 10)%Z ->
  Forall (alive s) env -> mapM (var_val s) env = Ok ws -> head = t_head (s_tape s) -> size = t_size (s_tape s) ->
  (g_peak g <= cap)%Z -> (g_top g + limit <= cap)%Z ->
  match fin with
  | Answered l => exists s' e', asks c env s = Ok (l, s') /\ reachable e' s' /\ incl e e' /\ undisturbed s s'
  | Stopped => asks c env s = ErrStop
  | Overrun => asks c env s = Undef OutOfBounds
  end.
Proof.
  intros HP HE. induction HE as [size|all f xs k size y ys t size' fin t0 rs w HF NM HWL ER ST NF r HE IH
    |all f xs k size t0 rs w HF NM HWL ER|all f xs k size y ys t t0 rs w HF NM HWL ER ST];
    intros s g e R0 HG HR HI HL HA HW EH ES P1 P2.
  - exists s, e. cbn [asks]. split; [reflexivity|]. split; auto. split; [apply incl_refl|]. split; auto. split; auto. split; auto.
    intros h _. unfold same_val, same_op. auto.
  - pose proof (ask_once s g e env ws all f xs HP R0 HG HR HI HL HA HW HF NM P1) as Q. cbv zeta in Q. fold t0 rs w in Q.
    rewrite ER in Q. destruct (Q ltac:(lia)) as [_ Q']. clear Q. subst head size.
    destruct Q' as (s' & g' & e' & EA & R' & G' & RE' & IE & U & ET & EP & ST').
    { unfold exactly_full. intros X. apply NF. apply (storage_fun (proj1 HP) _ _ _ _ ST X). }
    destruct (undisturbed_env s s' env ws U HA HW) as [HA' HW'].
    assert (size' = t_size (s_tape s')) by (apply (storage_fun (proj1 HP) _ _ _ _ ST ST')). pose proof U as (_ & U2 & U3 & _).
    specialize (IH s' g' e' R' G' RE' ltac:(eapply incl_tran; eauto) ltac:(lia) HA' HW' ltac:(congruence) ltac:(auto) EP ltac:(lia)).
    assert (GO : forall X, asks (k r) env s' = X -> asks (Ask all f xs k) env s =
      match X with Ok (l, s2) => Ok (r :: l, s2) | ErrStop => ErrStop | Undef u => Undef u | OutOfFuel => OutOfFuel end).
    { intros X EX. cbn [asks]. rewrite (mbind_ok _ _ _ _ _ EA). fold r. unfold mbind. rewrite EX. destruct X as [[l s2]| | |]; reflexivity. }
    destruct fin as [l| |]; cbn [then_ends].
    + destruct IH as (s2 & e2 & E2 & R2 & I2 & U2'). exists s2, e2. split; [rewrite (GO _ E2); reflexivity|]. split; auto.
      split; [eapply incl_tran; eauto|eapply undisturbed_trans; eauto].
    + rewrite (GO _ IH). reflexivity.
    + rewrite (GO _ IH). reflexivity.
  - pose proof (ask_once s g e env ws all f xs HP R0 HG HR HI HL HA HW HF NM P1) as Q. cbv zeta in Q. fold t0 rs w in Q.
    rewrite ER in Q. specialize (Q ltac:(lia)). cbn [asks]. unfold mbind. rewrite Q. reflexivity.
  - pose proof (ask_once s g e env ws all f xs HP R0 HG HR HI HL HA HW HF NM P1) as Q. cbv zeta in Q. fold t0 rs w in Q.
    rewrite ER in Q. destruct (Q ltac:(lia)) as [Q' _]. cbn [asks]. unfold mbind. rewrite Q'; [reflexivity|]. subst head size. exact ST.
Qed.

Theorem asks_end limit e s env (ws : list F) c fin : practical -> reachable e s -> incl env e -> (s_lvl s < 10)%Z ->
  Forall (alive s) env -> mapM (var_val s) env = Ok ws -> (0 <= limit)%Z -> roomy s limit ->
  ends_with (fun f _ => no_matmul f) ws (t_head (s_tape s)) limit c (t_size (s_tape s)) fin ->
  match fin with
  | Answered l => exists s' e', asks c env s = Ok (l, s') /\ reachable e' s' /\ incl e e' /\ undisturbed s s'
  | Stopped => asks c env s = ErrStop
  | Overrun => asks c env s = Undef OutOfBounds
  end.
Proof.
  intros HP HR HI HL HA HW H0 HM HE. destruct (proj1 (reach_valid e s HP HR)) as (g & R0 & HG).
  destruct (roomy_peak s g limit R0 H0 HM) as [P1 P2].
  apply (asks_at limit env ws _ c _ fin HP HE s g e R0 HG HR HI HL HA HW eq_refl eq_refl P1 P2).
Qed.

Theorem proper_ends ok (ws : list F) head limit c : practical -> proper ok ws limit c -> forall size, exists fin, ends_with ok ws head limit c size fin.
Proof.
  intros HP. induction c as [|all f xs k IH]; intros H size; [exists (Answered []); constructor|].
  cbn [proper] in H. cbv zeta in H. destruct H as (H1 & H2 & H3 & H4).
  destruct (trace f _ _) as [[[|y ys] t]|] eqn:ER; [tauto| |exists Stopped; econstructor; eauto].
  set (w := (6 * zlen xs + cost f (seq 0 (length ws + length xs)) (map given (ws ++ xs)))%Z) in *.
  destruct (storage_total (proj1 HP) size (head + w)%Z) as [size' ST].
  destruct (Z.eq_dec size' (head + w - 1)) as [->|NE]; [exists Overrun; eapply ends_full; eauto|].
  destruct (IH _ H4 size') as [fin HF]. eexists. eapply ends_ask; eauto.
Qed.

(* one call each *)
Theorem gradient_again e s env (ws xs : list F) (f : fn) r s' : practical -> reachable e s -> incl env e -> (s_lvl s < 10)%Z ->
  Forall (alive s) env -> mapM (var_val s) env = Ok ws ->
  let t0 := map given (ws ++ xs) in let rs := seq 0 (length ws + length xs) in
  well_formed f rs t0 -> no_matmul f -> roomy s (6 * zlen xs + cost f rs t0) ->
  gradient (fun xv => call_fn1 f (env ++ xv)) xs s = Ok (r, s') -> option_map fst (trace f rs t0) <> Some [] ->
  exists e', reachable e' s' /\ incl e e' /\ undisturbed s s'.
Proof.
  intros HP HR HI HL HA HW t0 rs HF NM HM HX HN. destruct (proj1 (reach_valid e s HP HR)) as (g & R0 & HG).
  pose proof (cost_pos f rs t0). pose proof (zlen_nonneg xs). destruct (roomy_peak s g (6 * zlen xs + cost f rs t0)%Z R0 ltac:(lia) HM) as [P1 P2].
  pose proof (ask_once s g e env ws false f xs HP R0 HG HR HI HL HA HW HF NM P1 P2) as Q. fold t0 rs in Q. cbv zeta in Q. unfold ask in Q.
  assert (GO : mbind (gradient (fun xv => call_fn1 f (env ++ xv)) xs) (fun r => mret (r :: nil)) s = Ok (r :: nil, s')) by (unfold mbind; rewrite HX; reflexivity).
  rewrite GO in Q. destruct (trace f rs t0) as [[[|y ys] t]|]; [exfalso; apply HN; reflexivity| |discriminate].
  destruct Q as [Q1 Q2]. destruct Q2 as (s2 & g2 & e' & E & _ & _ & V1 & V2 & V3 & _); [intros X; discriminate (Q1 X)|].
  assert (s2 = s') by congruence. subst. eauto.
Qed.

Theorem jacobian_again e s env (ws xs : list F) (f : fn) r s' : practical -> reachable e s -> incl env e -> (s_lvl s < 10)%Z ->
  Forall (alive s) env -> mapM (var_val s) env = Ok ws ->
  let t0 := map given (ws ++ xs) in let rs := seq 0 (length ws + length xs) in
  well_formed f rs t0 -> no_matmul f -> roomy s (6 * zlen xs + cost f rs t0) ->
  jacobian (fun xv => call_fn f (env ++ xv)) xs s = Ok (r, s') -> option_map fst (trace f rs t0) <> Some [] ->
  exists e', reachable e' s' /\ incl e e' /\ undisturbed s s'.
Proof.
  intros HP HR HI HL HA HW t0 rs HF NM HM HX HN. destruct (proj1 (reach_valid e s HP HR)) as (g & R0 & HG).
  pose proof (cost_pos f rs t0). pose proof (zlen_nonneg xs). destruct (roomy_peak s g (6 * zlen xs + cost f rs t0)%Z R0 ltac:(lia) HM) as [P1 P2].
  pose proof (ask_once s g e env ws true f xs HP R0 HG HR HI HL HA HW HF NM P1 P2) as Q. fold t0 rs in Q. cbv zeta in Q. unfold ask in Q.
  rewrite HX in Q. destruct (trace f rs t0) as [[[|y ys] t]|]; [exfalso; apply HN; reflexivity| |discriminate].
  destruct Q as [Q1 Q2]. destruct Q2 as (s2 & g2 & e' & E & _ & _ & V1 & V2 & V3 & _); [intros X; discriminate (Q1 X)|].
  assert (s2 = s') by congruence. subst. eauto.
Qed.
End Again.
