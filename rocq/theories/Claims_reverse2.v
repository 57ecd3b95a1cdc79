(* C53: calls, sweeps, gradient and jacobian in terms of the lines of ReverseSpec. *)
From Verif Require Import TapeFacts.
From Coq Require Import ZifyBool ZifyNat.
From Verif Require Export Claims_reverse RepeatSpec Rename.
Local Open Scope nat_scope.

Section Block.
Context {N : Num} {RL : RepLaws N} {C : Cfg N}.

(* node of line i: the lines given come first, the others are the nodes from b on *)
Definition place (ke : list nat) (b i : nat) : nat := if i <? length ke then nth i ke 0 else b + (i - length ke).

Record lined (ke : list nat) (b : nat) (g : graph) (t : list line) : Prop := {
  ln_b : b <= gsize g;
  ln_ke : Forall (fun k => k < b) ke;
  ln_len : length t = length ke + (gsize g - b);
  ln_val : forall i, i < length t -> gval g (place ke b i) = value t i;
  ln_out : forall i a, i < length ke -> l_back (nth i t (given f0)) a = [];
  ln_in : forall i f, length ke <= i < length t ->
    effect (set_gadj g f) (place ke b i) = Some (sh (place ke b) (l_back (nth i t (given f0)) (f (place ke b i))))
}.

Lemma place_old ke b i : Forall (fun k => k < b) ke -> i < length ke -> place ke b i < b.
Proof.
  intros H Hi. unfold place. replace (i <? length ke) with true by lia. rewrite Forall_forall in H. apply H. apply nth_In; auto.
Qed.

Lemma place_new ke b i : length ke <= i -> place ke b i = b + (i - length ke).
Proof. intros Hi. unfold place. replace (i <? length ke) with false by lia. reflexivity. Qed.

Lemma place_lt ke b g t i : lined ke b g t -> i < length t -> place ke b i < gsize g.
Proof.
  intros L Hi. pose proof (ln_len _ _ _ _ L). pose proof (ln_b _ _ _ _ L). destruct (Nat.lt_ge_cases i (length ke)) as [H1|H1].
  - pose proof (place_old ke b i (ln_ke _ _ _ _ L) H1). lia.
  - rewrite place_new by auto. lia.
Qed.

Lemma place_eq ke b i j : Forall (fun k => k < b) ke -> length ke <= i -> (place ke b i =? place ke b j) = (i =? j).
Proof.
  intros H Hi. rewrite (place_new ke b i Hi). destruct (Nat.lt_ge_cases j (length ke)) as [H1|H1].
  - pose proof (place_old ke b j H H1). lia.
  - rewrite (place_new ke b j H1). lia.
Qed.

Lemma place_seq ke b n : forall i, length ke <= i -> map (place ke b) (seq i n) = seq (b + (i - length ke)) n.
Proof.
  induction n as [|n IH]; intros i Hi; [reflexivity|]. cbn [seq map]. rewrite place_new by auto. f_equal.
  rewrite IH by lia. f_equal. lia.
Qed.

Lemma value_app (t ls : list line) i : i < length t -> value (t ++ ls) i = value t i.
Proof. intros H. unfold value. rewrite map_app. apply app_nth1. rewrite map_length. exact H. Qed.

Lemma lined_grow ke b g g' t ls : lined ke b g t -> gwf g -> grows g g' -> gsize g' = gsize g + length ls ->
  (forall q ln, nth_error ls q = Some ln -> fits_line (place ke b) g' (gsize g + q) ln) -> lined ke b g' (t ++ ls).
Proof.
  intros L W G SZ HL. pose proof (ln_b _ _ _ _ L) as LB. pose proof (ln_len _ _ _ _ L) as LL.
  assert (NEW : forall i, length t <= i < length (t ++ ls) -> place ke b i = gsize g + (i - length t) /\
    exists ln, nth_error ls (i - length t) = Some ln /\ nth i (t ++ ls) (given f0) = ln /\ value (t ++ ls) i = l_value ln).
  { intros i Hi. rewrite app_length in Hi. split; [rewrite place_new by lia; lia|].
    destruct (lt_nth_error ls (i - length t) ltac:(lia)) as [ln E]. exists ln. split; auto. split.
    - rewrite app_nth2 by lia. apply nth_error_nth. exact E.
    - unfold value. rewrite map_app, app_nth2 by (rewrite map_length; lia). rewrite map_length. apply nth_error_nth. rewrite nth_error_map, E. reflexivity. }
  constructor.
  - lia.
  - exact (ln_ke _ _ _ _ L).
  - rewrite app_length. lia.
  - intros i Hi. destruct (Nat.lt_ge_cases i (length t)) as [H1|H1].
    + rewrite value_app by auto. rewrite <- (ln_val _ _ _ _ L i H1). apply (grows_val g g' _ G). eapply place_lt; eauto.
    + destruct (NEW i (conj H1 Hi)) as (E1 & ln & E2 & _ & E3). rewrite E1, E3. apply (HL _ _ E2).
  - intros i a Hi. rewrite app_nth1 by lia. apply (ln_out _ _ _ _ L); auto.
  - intros i f Hi. destruct (Nat.lt_ge_cases i (length t)) as [H1|H1].
    + rewrite app_nth1 by auto. rewrite <- (ln_in _ _ _ _ L i f) by lia. apply (grows_effect g g' f f _ W G); auto. eapply place_lt; eauto.
    + destruct (NEW i ltac:(lia)) as (E1 & ln & E2 & E3 & _). rewrite E1, E3. apply (HL _ _ E2).
Qed.

Lemma sound_total (HJ : exists j, junk = Some j) (g : graph) : sound g -> total g.
Proof.
  intros HG f k Hk. apply (effect_some HJ). apply (gd_fit _ HG). exact Hk.
Qed.

Lemma words_pos (o : op) (xs : list F) : (0 <= words o xs)%Z.
Proof.
  assert (AW : forall x : F, (0 <= abs_words x)%Z) by (intros x; unfold abs_words; repeat destruct (_ : bool); lia).
  destruct o; cbn [words]; try (pose proof (zlen_nonneg l)); try (pose proof (zlen_nonneg l1); pose proof (zlen_nonneg l2)); try lia.
  - destruct u; try lia; auto; destruct (is_nan_d _); lia.
  - destruct b; repeat destruct (_ : bool); auto; lia.
  - destruct b; repeat destruct (_ : bool); auto; lia.
  - pose proof (zlen_nonneg a). pose proof (zlen_nonneg b). lia.
  - pose proof (zlen_nonneg a). pose proof (zlen_nonneg b). lia.
  - pose proof (zlen_nonneg a). pose proof (zlen_nonneg b). lia.
Qed.

Lemma cost_pos (f : fn) : forall rs t, (0 <= cost f rs t)%Z.
Proof.
  induction f as [ys|o k IH|q a b k IH|q a d k IH]; intros rs t; cbn [cost]; [lia| |apply IH|apply IH].
  destruct (step _ _ _) as [ls| |]; [|apply IH|lia].
  pose proof (words_pos o (map (value t) (lines_at rs (op_regs o)))). specialize (IH (rs ++ seq (length t) (length ls)) (t ++ ls)). lia.
Qed.

Lemma aregs_place (sg : nat -> nat) (g : graph) rs : forall l kk, aregs g (map sg rs) l = Some kk -> kk = map sg (lines_at rs l).
Proof.
  induction l as [|r l IH]; intros kk; cbn [aregs]; [intros E; injection E as <-; reflexivity|].
  unfold areg. rewrite nth_error_map. destruct (nth_error rs r) as [k|] eqn:E; cbn [option_map]; [|discriminate].
  destruct (Nat.ltb _ _); [|discriminate]. destruct (aregs g (map sg rs) l) as [k1|]; [|discriminate].
  intros H. injection H as <-. unfold lines_at. cbn [map]. rewrite (nth_error_nth _ _ 0 E). f_equal. apply IH. reflexivity.
Qed.

Lemma lines_lt rs l n : Forall (fun r => r < n) rs -> Forall (fun r => r < length rs) l -> Forall (fun r => r < n) (lines_at rs l).
Proof.
  intros H1 H2. unfold lines_at. apply Forall_map. eapply Forall_impl; [|exact H2]. cbv beta. intros r Hr.
  rewrite Forall_forall in H1. apply H1. apply nth_In; auto.
Qed.

Lemma regs_go env (s : st) : forall ys hs, Forall2 (fun y h => nth_error env y = Some h) ys hs -> regs env ys s = Ok (hs, s).
Proof.
  unfold regs. induction ys as [|y ys IH]; intros hs H; inversion H; subst; cbn [mmap]; [reflexivity|].
  unfold mbind, reg at 1. rewrite H2. unfold mret at 1. cbn [bind]. rewrite (IH _ H4). reflexivity.
Qed.

Lemma test_frel q (x y : F) : frel q x y = written q x y.
Proof. destruct q; reflexivity. Qed.

Lemma call_lines (HC : cfg_ok C) (HJ : exists j, junk = Some j) ke b (f : fn) : forall s g rs t, Rel s g -> sound g -> lined ke b g t ->
  Forall (fun r => r < length t) rs -> well_formed f rs t -> (g_peak g <= cap)%Z -> (g_top g + cost f rs t <= cap)%Z ->
  match trace f rs t with
  | None => call_fn f (map hd (map (place ke b) rs)) s = ErrStop
  | Some (ys, t') => exists s' g', call_fn f (map hd (map (place ke b) rs)) s = Ok (map hd (map (place ke b) ys), s') /\
      Rel s' g' /\ sound g' /\ grows g g' /\ lined ke b g' t' /\ Forall (fun r => r < length t') ys /\ length t <= length t' /\
      g_top g' = (g_top g + cost f rs t)%Z /\ g_peak g' = Z.max (g_peak g) (g_top g') /\
      (good g -> no_matmul f -> good g') /\
      (forall e, reachable e s -> no_matmul f -> incl (map hd (map (place ke b) rs)) e ->
        exists e', reachable e' s' /\ incl e e' /\ incl (map hd (map (place ke b) ys)) e')
  end.
Proof.
  set (sg := place ke b).
  induction f as [ys|o k IH|q a c k IH|q a d k IH]; intros s g rs t R0 HG L HB HQ HP HT; cbn [trace call_fn well_formed cost] in *.
  - exists s, g. split.
    { apply regs_go. clear - HQ. unfold lines_at. induction HQ as [|y ys Hy _ I]; cbn [map]; constructor; auto.
      rewrite !nth_error_map. destruct (lt_nth_error _ _ Hy) as [j E]. rewrite E, (nth_error_nth _ _ 0 E). reflexivity. }
    split; auto. split; auto. split; [apply grows_refl|]. split; auto. split; [apply lines_lt; auto|]. split; auto. split; [lia|].
    split; [pose proof (w_top g (r_wf _ _ R0)); lia|]. split; auto.
    intros e HR _ HI. exists e. split; auto. split; [apply incl_refl|]. intros z Hz. apply HI. rewrite map_map in Hz |- *.
    apply in_map_iff in Hz. destruct Hz as (i & <- & Hi). apply in_map_iff in Hi. destruct Hi as (y & <- & Hi).
    rewrite Forall_forall in HQ. specialize (HQ y Hi). apply in_map_iff. exists (nth y rs 0). split; auto. apply nth_In; auto.
  - destruct HQ as (Q1 & Q2 & Q3 & Q4). cbv zeta in Q4, HT |- *.
    set (ks := lines_at rs (op_regs o)) in *.
    assert (HBK : Forall (fun r => r < length t) ks) by (apply lines_lt; auto).
    assert (HB' : Forall (fun j => j < gsize g) (map sg rs)).
    { apply Forall_map. eapply Forall_impl; [|exact HB]. cbv beta. intros r Hr. eapply place_lt; eauto. }
    assert (Q1' : Forall (fun r => r < length (map sg rs)) (op_regs o)) by (rewrite map_length; exact Q1).
    destruct (reg_aregs g (map sg rs) (op_regs o) HB' Q1') as (kk & EK).
    pose proof (aregs_place sg g rs _ _ EK) as EKK. subst kk.
    assert (EV : map (gval g) (map sg ks) = map (value t) ks).
    { rewrite map_map. apply map_ext_in. intros i Hi. rewrite Forall_forall in HBK. apply (ln_val _ _ _ _ L i). auto. }
    assert (HN' : Forall (has_node g (map sg rs)) (op_regs o)).
    { eapply Forall_impl; [|exact Q1']. cbv beta. intros j Hj. destruct (lt_nth_error _ _ Hj) as [j2 E2].
      exists j2. unfold areg. rewrite E2. rewrite Forall_forall in HB'. pose proof (HB' j2 (nth_error_In _ _ E2)) as Hk. cbv beta in Hk.
      replace (Nat.ltb j2 (gsize g)) with true by lia. reflexivity. }
    assert (REACH : forall e s1 hs, reachable e s -> is_matmul o = false -> incl (map hd (map sg rs)) e ->
      exec_op (map hd (map sg rs)) o s = Ok (hs, s1) -> reachable (e ++ hs) s1).
    { intros e s1 hs HR NM HI E. apply (reach_op e (map hd (map sg rs)) o s hs s1 HR HI); auto.
      - apply Forall_map. eapply Forall_impl; [|exact HB']. cbv beta. intros j Hj. apply (node_alive s g j R0 Hj).
      - rewrite map_length. exact Q1'. }
    assert (KEEP : good g -> is_matmul o = false -> forall ks' g', aexec_op g (map sg rs) o = AOk (ks', g') -> good g').
    { intros Gg NM. apply (op_accept_g g (map sg rs) o Gg HN' Q2 Q3). congruence. }
    destruct (sound_accept g (map sg rs) o HG HN' Q2 Q3) as [A1 A2].
    pose proof (step_lines sg g (map sg rs) o ks EK Q2 Q3 (fun ks' g' E => sound_total HJ g' (A2 ks' g' E))) as ST.
    rewrite EV in ST. destruct (step o ks (map (value t) ks)) as [ls| |] eqn:ES; cbn [step_is] in ST.
    + destruct ST as (g1' & EX & SZ & FL).
      pose proof (cost_pos k (rs ++ seq (length t) (length ls)) (t ++ ls)) as CP.
      destruct (op_go_exact HC s g (map sg rs) o (map sg ks) R0 HG HB' Q2 Q3 Q1' ltac:(rewrite EX; discriminate) EK HP)
        as (ks1 & s1 & g1 & E & EX1 & R1 & G1 & GR & B1 & L1 & T1 & P1).
      { rewrite EV. lia. }
      rewrite EX in EX1. injection EX1 as <- <-. rewrite EV in T1.
      pose proof (lined_grow ke b g g1' t ls L (r_wf _ _ R0) GR SZ FL) as L'.
      assert (ERS : map sg rs ++ seq (gsize g) (length ls) = map sg (rs ++ seq (length t) (length ls))).
      { rewrite map_app. f_equal. unfold sg. pose proof (ln_len _ _ _ _ L). pose proof (ln_b _ _ _ _ L). rewrite place_seq by lia. f_equal. lia. }
      assert (HBR : Forall (fun r => r < length (t ++ ls)) (rs ++ seq (length t) (length ls))).
      { rewrite app_length. apply Forall_app. split; [eapply Forall_impl; [|exact HB]; cbv beta; lia|]. apply Forall_forall. intros j Hj. apply in_seq in Hj. lia. }
      specialize (IH s1 g1' _ _ R1 G1 L' HBR Q4 ltac:(lia) ltac:(lia)).
      assert (EC : forall X, mbind (exec_op (map hd (map sg rs)) o) (fun hs => call_fn k (map hd (map sg rs) ++ hs)) s = X <->
        call_fn k (map hd (map sg (rs ++ seq (length t) (length ls)))) s1 = X).
      { intros X. unfold mbind. rewrite E. cbn [bind]. rewrite <- map_app, ERS. tauto. }
      destruct (trace k _ _) as [[ys t']|] eqn:ER.
      * destruct IH as (s2 & g2 & E2 & R2 & G2 & GR2 & L2 & B2 & LL2 & T2 & P2). exists s2, g2. split; [apply EC; exact E2|].
        destruct P2 as (P2 & GD & RE).
        split; auto. split; auto. split; [eapply grows_trans; eauto|]. split; auto. split; auto. split; [rewrite app_length in LL2; lia|]. split; [lia|].
        split; [lia|]. split; [intros Gg [NM NK]; apply GD; auto; apply (KEEP Gg NM _ _ EX)|]. intros e HR [NM NK] HI.
        destruct (RE _ (REACH e s1 _ HR NM HI E) NK) as (e' & V1 & V2 & V3).
        { rewrite <- ERS, map_app. apply incl_app; [apply incl_appl; exact HI|apply incl_appr, incl_refl]. }
        exists e'. split; auto. split; auto. eapply incl_tran; [|exact V2]. apply incl_appl, incl_refl.
      * apply EC. exact IH.
    + destruct (graph_words g (map sg rs) o (map sg ks) _ _ (r_wf _ _ R0) EK ST) as (T1 & _ & T2).
      destruct (op_go_exact HC s g (map sg rs) o (map sg ks) R0 HG HB' Q2 Q3 Q1' ltac:(rewrite ST; discriminate) EK HP ltac:(pose proof (cost_pos k (rs ++ ks) t); lia))
        as (ks1 & s1 & g1 & E & EX1 & R1 & G1 & GR & B1 & L1 & T3 & P1).
      rewrite ST in EX1. injection EX1 as <- <-.
      assert (HBR : Forall (fun r => r < length t) (rs ++ ks)) by (apply Forall_app; auto).
      specialize (IH s1 g _ _ R1 G1 L HBR Q4 HP HT).
      assert (EC : forall X, mbind (exec_op (map hd (map sg rs)) o) (fun hs => call_fn k (map hd (map sg rs) ++ hs)) s = X <->
        call_fn k (map hd (map sg (rs ++ ks))) s1 = X).
      { intros X. unfold mbind. rewrite E. cbn [bind]. rewrite <- !map_app. tauto. }
      destruct (trace k _ _) as [[ys t']|] eqn:ER.
      * destruct IH as (s2 & g2 & E2 & R2 & G2 & GR2 & L2 & B2 & LL2 & T4 & P2 & GD & RE). exists s2, g2. split; [apply EC; exact E2|].
        do 8 (split; [assumption|]). split; [intros Gg [NM NK]; apply GD; auto|]. intros e HR [NM NK] HI.
        destruct (RE _ (REACH e s1 _ HR NM HI E) NK) as (e' & V1 & V2 & V3).
        { rewrite !map_app. apply incl_app; [apply incl_appl; exact HI|apply incl_appr, incl_refl]. }
        exists e'. split; auto. split; auto. eapply incl_tran; [|exact V2]. apply incl_appl, incl_refl.
      * apply EC. exact IH.
    + pose proof (exec_op_ok HC s g (map sg rs) o R0) as HX. rewrite ST in HX. cbn [performsL] in HX.
      unfold mbind. rewrite HX. reflexivity.
  - destruct HQ as (Ha & Hb & HQ). destruct (lt_nth_error _ _ Ha) as [ia Ea]. destruct (lt_nth_error _ _ Hb) as [ib Eb].
    rewrite (nth_error_nth _ _ 0 Ea), (nth_error_nth _ _ 0 Eb) in *.
    rewrite Forall_forall in HB. pose proof (HB ia (nth_error_In _ _ Ea)) as Hia. pose proof (HB ib (nth_error_In _ _ Eb)) as Hib.
    rewrite <- Forall_forall in HB. cbv beta in Hia, Hib.
    specialize (IH _ s g rs t R0 HG L HB HQ HP HT).
    assert (EC : forall X, call_fn (k (written q (value t ia) (value t ib))) (map hd (map sg rs)) s = X ->
      mbind (reg (map hd (map sg rs)) a) (fun x => mbind (reg (map hd (map sg rs)) c) (fun y => mbind (rel_vv q x y) (fun b0 => call_fn (k b0) (map hd (map sg rs))))) s = X).
    { intros X <-. unfold mbind, rel_vv. unfold reg at 1. rewrite !nth_error_map, Ea. cbn [option_map]. unfold mret at 1. cbn [bind].
      unfold reg at 1. rewrite !nth_error_map, Eb. cbn [option_map]. unfold mret at 1. cbn [bind]. unfold mbind.
      rewrite (rel_vval s g (sg ia) R0 (place_lt ke b g t ia L Hia)). cbn [bind].
      rewrite (rel_vval s g (sg ib) R0 (place_lt ke b g t ib L Hib)). unfold mret. cbn [bind].
      rewrite test_frel. rewrite <- (ln_val _ _ _ _ L ia Hia), <- (ln_val _ _ _ _ L ib Hib). reflexivity. }
    destruct (trace _ _ _) as [[ys t']|] eqn:ER.
    + destruct IH as (s2 & g2 & E2 & R2 & G2 & GR2 & L2 & B2 & LL2 & T4 & P2 & GD & RE). exists s2, g2. split; [apply EC; exact E2|].
      do 8 (split; [assumption|]). split; [intros Gg NM; apply GD; auto; apply NM|]. intros e HR NM HI. apply (RE e HR (NM _) HI).
    + apply EC. exact IH.
  - destruct HQ as (Ha & HQ). destruct (lt_nth_error _ _ Ha) as [ia Ea].
    rewrite (nth_error_nth _ _ 0 Ea) in *.
    rewrite Forall_forall in HB. pose proof (HB ia (nth_error_In _ _ Ea)) as Hia.
    rewrite <- Forall_forall in HB. cbv beta in Hia.
    specialize (IH _ s g rs t R0 HG L HB HQ HP HT).
    assert (EC : forall X, call_fn (k (written q (value t ia) d)) (map hd (map sg rs)) s = X ->
      mbind (reg (map hd (map sg rs)) a) (fun x => mbind (rel_vd q x d) (fun b0 => call_fn (k b0) (map hd (map sg rs)))) s = X).
    { intros X <-. unfold mbind, rel_vd. unfold reg at 1. rewrite !nth_error_map, Ea. cbn [option_map]. unfold mret at 1. cbn [bind]. unfold mbind.
      rewrite (rel_vval s g (sg ia) R0 (place_lt ke b g t ia L Hia)). unfold mret. cbn [bind].
      rewrite test_frel. rewrite <- (ln_val _ _ _ _ L ia Hia). reflexivity. }
    destruct (trace _ _ _) as [[ys t']|] eqn:ER.
    + destruct IH as (s2 & g2 & E2 & R2 & G2 & GR2 & L2 & B2 & LL2 & T4 & P2 & GD & RE). exists s2, g2. split; [apply EC; exact E2|].
      do 8 (split; [assumption|]). split; [intros Gg NM; apply GD; auto; apply NM|]. intros e HR NM HI. apply (RE e HR (NM _) HI).
    + apply EC. exact IH.
Qed.

(* ---- the sweep ---- *)

Lemma add_follow ke b (l : list (nat * F)) : Forall (fun k => k < b) ke -> forall (f phi : nat -> F),
  (forall i, length ke <= i -> phi i = f (place ke b i)) ->
  forall i, length ke <= i -> fold_left add_to l phi i = apply_effect (sh (place ke b) l) f (place ke b i).
Proof.
  intros HK. induction l as [|[j c] l IH]; intros f phi H i Hi; [apply H; auto|].
  cbn [fold_left sh map]. unfold apply_effect. cbn [fold_left fst snd].
  change (fold_left add_to l (add_to phi (j, c)) i = apply_effect (sh (place ke b) l) (addto f (place ke b j, c)) (place ke b i)).
  apply IH; auto. intros i' Hi'. unfold add_to, addto, nupd. cbn [fst snd].
  rewrite (place_eq ke b i' j HK Hi'). destruct (Nat.eqb_spec i' j) as [->|]; rewrite H by auto; reflexivity.
Qed.

Lemma sweep_lines ke b g t : lined ke b g t -> forall n (f phi : nat -> F) g1, n <= gsize g - b ->
  (forall i, length ke <= i -> phi i = f (place ke b i)) -> asweep b n (set_gadj g f) = Some g1 ->
  forall i, length ke <= i -> fold_right (back t) phi (seq (length ke) n) i = g_adj g1 (place ke b i).
Proof.
  intros L. pose proof (ln_len _ _ _ _ L) as LL. pose proof (ln_b _ _ _ _ L) as LB.
  induction n as [|n IH]; intros f phi g1 Hn H E i Hi; cbn [asweep] in E.
  - injection E as <-. apply H; auto.
  - rewrite seq_S, fold_right_app. cbn [fold_right].
    pose proof (ln_in _ _ _ _ L (length ke + n) f ltac:(lia)) as EE.
    rewrite place_new in EE by lia. replace (b + (length ke + n - length ke)) with (b + n) in EE by lia.
    rewrite EE in E. cbn [set_gadj g_adj] in E.
    refine (IH _ _ g1 ltac:(lia) _ E i Hi). intros i' Hi'. unfold back.
    rewrite (H (length ke + n)) by lia. rewrite place_new by lia. replace (b + (length ke + n - length ke)) with (b + n) by lia.
    apply add_follow; auto. exact (ln_ke _ _ _ _ L).
Qed.

Lemma outer_back ke b g t : lined ke b g t -> forall n phi, n <= length ke -> fold_right (back t) phi (seq 0 n) = phi.
Proof.
  intros L. induction n as [|n IH]; intros phi Hn; [reflexivity|]. rewrite seq_S, fold_right_app. cbn [fold_right Nat.add].
  unfold back at 2. rewrite (ln_out _ _ _ _ L) by lia. cbn [fold_left]. apply IH. lia.
Qed.

Lemma reverse_sweep ke b g t (f phi : nat -> F) g1 : lined ke b g t -> gwf g ->
  (forall i, length ke <= i -> phi i = f (place ke b i)) -> asweep 0 (gsize g) (set_gadj g f) = Some g1 ->
  forall i, length ke <= i -> reverse t phi i = g_adj g1 (place ke b i).
Proof.
  intros L W H E i Hi. pose proof (ln_len _ _ _ _ L) as LL. pose proof (ln_b _ _ _ _ L) as LB.
  unfold reverse. rewrite LL, seq_app, fold_right_app, (outer_back ke b g t L) by lia. cbn [Nat.add].
  replace (gsize g) with (b + (gsize g - b)) in E by lia. rewrite asweep_split in E.
  destruct (asweep b (gsize g - b) (set_gadj g f)) as [g2|] eqn:E2; [|discriminate].
  rewrite (sweep_lines ke b g t L _ f phi g2 (le_n _) H E2 i Hi). symmetry.
  destruct (asweep_form _ _ _ _ E2) as [f2 ->]. eapply sweep_high; [|exact E|rewrite place_new by auto; lia].
  apply gwf_set_gadj. apply gwf_set_gadj. exact W.
Qed.

(* one call of grad when the adjoints from b on are zero *)
Lemma grad_lines (HJ : exists j, junk = Some j) ke b s g t y : Rel s g -> sound g -> lined ke b g t ->
  (forall k, b <= k < gsize g -> g_adj g k = f0) -> y < length t ->
  exists s2 a, grad (hd (place ke b y)) s = Ok (tt, s2) /\ Rel s2 (set_gadj g a) /\
    forall i, length ke <= i < length t -> a (place ke b i) = reverse t (seed y) i.
Proof.
  intros R0 HG L HZ Hy. pose proof (place_lt ke b g t y L Hy) as Hk. set (k := place ke b y) in *.
  pose proof (ln_len _ _ _ _ L) as LL. pose proof (ln_b _ _ _ _ L) as LB.
  destruct (sound_sweep HJ g HG (gsize g) 0 ltac:(lia) (nupd (g_adj g) k f1)) as (g2 & E2).
  assert (EG : agrad k g = Some g2).
  { unfold agrad. replace (Nat.ltb k (gsize g)) with true by lia. exact E2. }
  destruct (grad_ok s g k g2 R0 EG) as (s2 & E3 & R2). pose proof (asweep_form _ _ _ _ E2) as [a ->].
  change (Rel s2 (set_gadj g a)) in R2. exists s2, a. split; auto. split; auto. intros i Hi.
  (* beyond the lines the seed is irrelevant *)
  set (f' := fun j => if j <? gsize g then nupd (g_adj g) k f1 j else f0).
  destruct (sound_sweep HJ g HG (gsize g) 0 ltac:(lia) f') as (g3 & E3').
  assert (EQ : forall n f1' f2' h1 h2, n <= gsize g -> (forall j, j < gsize g -> f1' j = f2' j) ->
     asweep 0 n (set_gadj g f1') = Some h1 -> asweep 0 n (set_gadj g f2') = Some h2 -> forall j, j < gsize g -> g_adj h1 j = g_adj h2 j).
  { intros n f1' f2' h1 h2 Hn HF S1 S2 j Hj.
    destruct (sweep_old g g (r_wf _ _ R0) (r_wf _ _ R0) (grows_refl g) n f1' f2' h1 Hn HF S1) as (h3 & S3 & V).
    rewrite S3 in S2. injection S2 as <-. symmetry. apply V; auto. }
  assert (EA : a (place ke b i) = g_adj g3 (place ke b i)).
  { change (a (place ke b i)) with (g_adj (set_gadj (set_gadj g (nupd (g_adj g) k f1)) a) (place ke b i)).
    apply (EQ (gsize g) (nupd (g_adj g) k f1) f'); auto; [|eapply place_lt; eauto; lia].
    intros j Hj. unfold f'. replace (j <? gsize g) with true by lia. reflexivity. }
  rewrite EA. symmetry. apply (reverse_sweep ke b g t f' (seed y) g3 L (r_wf _ _ R0)); auto; [|lia].
  intros i' Hi'. unfold f', seed, nupd, k. rewrite (place_eq ke b i' y (ln_ke _ _ _ _ L) Hi').
  rewrite (place_new ke b i') by auto. destruct (Nat.eqb_spec i' y) as [->|].
  - unfold k in Hk. rewrite (place_new ke b y) in Hk by auto. replace (b + (y - length ke) <? gsize g) with true by lia. reflexivity.
  - destruct (Nat.ltb_spec (b + (i' - length ke)) (gsize g)); [|reflexivity]. symmetry. apply HZ. lia.
Qed.

(* ---- inside gradient and jacobian ---- *)

Lemma live_env s (g : graph) env : Rel s g -> Forall (alive s) env ->
  exists ke, env = map hd ke /\ Forall (fun k => k < gsize g) ke.
Proof.
  intros R0. induction 1 as [|h env Hh _ (ke & -> & HB)]; [exists []; auto|].
  destruct (alive_node s g h R0 Hh) as (k & -> & Hk). exists (k :: ke). split; auto.
Qed.

Lemma live_env_vals s (g : graph) ke : Rel s g -> Forall (fun k => k < gsize g) ke ->
  mapM (var_val s) (map hd ke) = Ok (map (gval g) ke).
Proof.
  intros R0. induction 1 as [|k ke Hk _ IH]; cbn [map mapM]; auto.
  rewrite (rel_var_val s g R0 k Hk). cbn [bind]. rewrite IH. reflexivity.
Qed.

Lemma given_lines ke b g (ws : list F) : b = gsize g -> Forall (fun k => k < b) ke -> map (gval g) ke = ws -> lined ke b g (map given ws).
Proof.
  intros -> HB HW. assert (LW : length ws = length ke) by (rewrite <- HW; apply map_length). constructor; auto.
  - rewrite map_length. lia.
  - intros i Hi. rewrite map_length in Hi. unfold place. replace (i <? length ke) with true by lia. unfold value. rewrite map_map.
    cbn [given l_value]. rewrite map_id, <- HW. symmetry. destruct (lt_nth_error ke i ltac:(lia)) as [k E].
    rewrite (nth_error_nth _ _ 0 E). apply nth_error_nth. rewrite nth_error_map, E. reflexivity.
  - intros i a Hi. destruct (lt_nth_error (map given ws) i ltac:(rewrite map_length; lia)) as [ln E]. rewrite (nth_error_nth _ _ _ E).
    rewrite nth_error_map in E. destruct (nth_error ws i); [|discriminate]. injection E as <-. reflexivity.
  - intros i f Hi. rewrite map_length in Hi. lia.
Qed.

Lemma trace_longer (f : fn) : forall rs t ys t', trace f rs t = Some (ys, t') -> length t <= length t'.
Proof.
  induction f as [ys0|o k IH|q a b k IH|q a d k IH]; intros rs t ys t' E; cbn [trace] in E; eauto.
  - injection E as <- <-. lia.
  - cbv zeta in E. destruct (step _ _ _) as [ls| |]; [|eauto|discriminate]. apply IH in E. rewrite app_length in E. lia.
Qed.

Lemma declare_lines (xs : list F) (f : fn) : forall (ws : list F), let t := map given (ws ++ xs) in let rs := seq 0 (length ws + length xs) in
  trace (declare xs f) (seq 0 (length ws)) (map given ws) = trace f rs t /\
  (well_formed (declare xs f) (seq 0 (length ws)) (map given ws) <-> well_formed f rs t) /\
  cost (declare xs f) (seq 0 (length ws)) (map given ws) = (6 * zlen xs + cost f rs t)%Z.
Proof.
  induction xs as [|x xs IH]; intros ws t rs; cbn [declare].
  - unfold t, rs. rewrite app_nil_r. cbn [length]. rewrite Nat.add_0_r. split; auto. split; [tauto|]. unfold zlen. cbn [length]. lia.
  - destruct (IH (ws ++ [x])) as (I1 & I2 & I3).
    assert (E1 : seq 0 (length ws) ++ seq (length (map given ws)) 1 = seq 0 (length (ws ++ [x]))).
    { rewrite map_length, app_length, seq_app. reflexivity. }
    assert (E2 : map given ws ++ [given x] = map given (ws ++ [x])) by (rewrite map_app; reflexivity).
    assert (E3 : map given ((ws ++ [x]) ++ xs) = t) by (unfold t; rewrite <- app_assoc; reflexivity).
    assert (E4 : seq 0 (length (ws ++ [x]) + length xs) = rs) by (unfold rs; rewrite app_length; cbn [length]; f_equal; lia).
    rewrite E3, E4 in I1, I2, I3. cbn [trace well_formed cost op_regs step op_shape neutral words length]. rewrite E1, E2. split; [exact I1|]. split.
    + etransitivity; [|exact I2]. split; [intros (_ & _ & _ & Q); exact Q|]. intros Q. split; [constructor|]. split; [exact Logic.I|]. split; [reflexivity|exact Q].
    + rewrite I3. unfold zlen. cbn [length]. lia.
Qed.

Lemma block_lines s g env (ws xs : list F) (f : fn) : practical -> Rel s g -> sound g -> (s_lvl s < 10)%Z ->
  Forall (alive s) env -> mapM (var_val s) env = Ok ws ->
  let t0 := map given (ws ++ xs) in let rs := seq 0 (length ws + length xs) in
  well_formed f rs t0 -> (g_peak g <= cap)%Z -> (g_top g + (6 * zlen xs + cost f rs t0) <= cap)%Z ->
  exists s1 xv s2, begin_nested s = Ok (tt, s1) /\ new_var_vals xs s1 = Ok (xv, s2) /\
  match trace f rs t0 with
  | None => call_fn f (env ++ xv) s2 = ErrStop
  | Some (ys, t) => exists ke b s3 g3 r, call_fn f (env ++ xv) s2 = Ok (map hd (map (place ke b) ys), s3) /\
      Rel s3 g3 /\ sound g3 /\ lined ke b g3 t /\ length ke = length ws /\ xv = map hd (map (place ke b) (seq (length ws) (length xs))) /\
      Forall (fun y => y < length t) ys /\ length ws + length xs <= length t /\
      (forall k, b <= k < gsize g3 -> g_adj g3 k = f0) /\ g_nest g3 = mkMark b (length (g_arrs g)) (g_top g) :: r /\
      g_top g3 = (g_top g + (6 * zlen xs + cost f rs t0))%Z /\ g_peak g3 = Z.max (g_peak g) (g_top g3) /\
      b = gsize g /\ r = g_nest g /\ ((exists l, g_nodes g3 = g_nodes g ++ l) /\ (exists l, g_arrs g3 = g_arrs g ++ l) /\ forall k, k < gsize g -> g_ch g3 k = g_ch g k) /\ (good g -> no_matmul f -> good g3) /\
      (forall e, reachable e s -> no_matmul f -> incl env e ->
        exists e', reachable e' s3 /\ incl e e' /\ incl (map hd (map (place ke b) ys)) e') /\
      env = map hd ke /\ exists g1, abegin g = Some g1 /\ gwf g1 /\ grows g1 g3
  end.
Proof.
  intros HP R0 HG HL HA HW t0 rs HF P1 P2. pose proof HP as [HC HJ].
  destruct (abegin g) as [g1|] eqn:AB.
  2:{ unfold abegin in AB. rewrite (r_lvl _ _ R0) in HL. unfold zlen in HL. destruct (Nat.ltb_spec (length (g_nest g)) 10); [discriminate|lia]. }
  destruct (begin_ok s g g1 R0 AB) as (s1 & EB & R1).
  destruct (sound_begin g g1 HG AB) as (G1 & SZ & VV & AV & NE).
  assert (TP : g_top g1 = g_top g /\ g_peak g1 = g_peak g).
  { unfold abegin in AB. destruct (Nat.ltb _ _); [|discriminate]. injection AB as <-. split; reflexivity. }
  destruct TP as [TP PK].
  assert (ND : g_nodes g1 = g_nodes g /\ g_arrs g1 = g_arrs g /\ g_ch g1 = g_ch g).
  { unfold abegin in AB. destruct (Nat.ltb _ _); [|discriminate]. injection AB as <-. auto. }
  destruct (live_env s g env R0 HA) as (ke & -> & HB).
  rewrite (live_env_vals s g ke R0 HB) in HW. assert (EW : ws = map (gval g) ke) by congruence. clear HW.
  assert (LW : length ke = length ws) by (rewrite EW; symmetry; apply map_length).
  assert (HB1 : Forall (fun k => k < gsize g1) ke) by (rewrite SZ; exact HB).
  assert (EW1 : map (gval g1) ke = ws) by (rewrite EW; apply map_ext; intros; apply VV).
  pose proof (given_lines ke (gsize g1) g1 ws eq_refl HB1 EW1) as L1.
  destruct (declare_lines xs f ws) as (D1 & D2 & D3). fold t0 rs in D1, D2, D3.
  destruct (declare_lines xs (FRet []) ws) as (F1 & F2 & F3). fold t0 rs in F1, F2, F3. cbn [trace well_formed cost lines_at map] in F1, F2, F3.
  pose proof (cost_pos f rs t0) as W0. pose proof (zlen_nonneg xs).
  assert (RS : map (place ke (gsize g1)) (seq 0 (length ws)) = ke).
  { rewrite <- LW. apply nth_ext with (d := 0) (d' := 0); [rewrite map_length, seq_length; reflexivity|]. intros i Hi. rewrite map_length, seq_length in Hi.
    rewrite (nth_map_in _ _ i 0 0) by (rewrite seq_length; auto). rewrite seq_nth by auto. unfold place. cbn [Nat.add].
    replace (i <? length ke) with true by lia. reflexivity. }
  assert (BR : Forall (fun r => r < length (map given ws)) (seq 0 (length ws))).
  { rewrite map_length. apply Forall_forall. intros j Hj. apply in_seq in Hj. lia. }
  pose proof (call_lines HC HJ ke (gsize g1) (declare xs (FRet [])) s1 g1 _ _ R1 G1 L1 BR (proj2 F2 (Forall_nil _)) ltac:(lia) ltac:(lia)) as K0.
  rewrite F1, RS in K0. destruct K0 as (s2 & g2 & EC0 & R2 & _).
  rewrite call_declare in EC0. unfold mbind in EC0.
  destruct (new_var_vals xs s1) as [[xv s2']| | |] eqn:EN; try discriminate. clear s2 g2 EC0 R2. rename s2' into s2.
  exists s1, xv, s2. split; auto. split; auto.
  destruct (leaf_run HC xs s1 g1 xv s2 R1 G1 EN) as (g2 & R2 & G2 & GR2 & EXV & SZ2 & VL).
  pose proof (call_lines HC HJ ke (gsize g1) (declare xs f) s1 g1 _ _ R1 G1 L1 BR (proj2 D2 HF) ltac:(lia) ltac:(lia)) as K.
  rewrite D1, RS in K.
  assert (EC : forall X, call_fn (declare xs f) (map hd ke) s1 = X -> call_fn f (map hd ke ++ xv) s2 = X).
  { intros X <-. rewrite call_declare. unfold mbind. rewrite EN. reflexivity. }
  destruct (trace f rs t0) as [[ys t]|] eqn:ER; [|apply EC; exact K].
  destruct K as (s3 & g3 & E3 & R3 & G3 & GR & L3 & B3 & LL3 & T3 & P3 & GD & RE).
  exists ke, (gsize g1), s3, g3, (g_nest g). split; [apply EC; exact E3|]. split; auto. split; auto. split; auto. split; auto.
  split; [rewrite place_seq by lia; rewrite EXV; do 2 f_equal; lia|]. split; auto.
  split.
  { pose proof (trace_longer f rs t0 ys t ER) as Q. unfold t0 in Q. rewrite map_length, app_length in Q. exact Q. }
  split; [intros k Hk; apply (gr_new _ _ GR); exact Hk|]. split; [rewrite (gr_nest _ _ GR), NE, SZ; reflexivity|]. split; [lia|]. split; [lia|].
  split; auto. split; auto. split.
  { destruct ND as (N1 & N2 & N3). split; [destruct (gr_nodes _ _ GR) as [l El]; exists l; rewrite El, N1; reflexivity|].
    split; [destruct (gr_arrs _ _ GR) as [l El]; exists l; rewrite El, N2; reflexivity|].
    intros k Hk. rewrite (gr_ch _ _ GR) by lia. rewrite N3. reflexivity. }
  assert (NMD : no_matmul f -> no_matmul (declare xs f)).
  { intros NM. clear - NM. induction xs as [|x xs IH]; cbn [declare no_matmul]; auto. }
  split; [intros Gg NM; apply GD; auto; apply (good_begin g g1 Gg AB)|].
  split; [intros e HR NM HI; apply (RE e (reach_begin e s s1 HR HL EB)); auto|].
  split; auto. exists g1. split; auto. split; [exact (r_wf _ _ R1)|exact GR].
Qed.

(* what a completed call of gradient or jacobian that took w words leaves behind *)
Definition left_by s (g : graph) env (f : fn) w s' : Prop :=
  exists g', Rel s' g' /\ g_nodes g' = g_nodes g /\ (g_arrs g' = g_arrs g /\ forall k, k < gsize g -> g_ch g' k = g_ch g k) /\ g_nest g' = g_nest g /\ g_top g' = g_top g /\ g_peak g' = Z.max (g_peak g) (g_top g + w) /\
    (good g -> no_matmul f -> good g') /\
    storage (t_size (s_tape s)) (t_head (s_tape s) + w) (t_size (s_tape s')) /\
    forall e, reachable e s -> no_matmul f -> incl env e -> exists e', reachable e' s' /\ incl e e'.

Lemma leaves (HC : cfg_ok C) s g env (f : fn) w s4 g3 a ks s5 : Rel s g -> Rel s4 (set_gadj g3 a) -> g_nest g3 = mkMark (gsize g) (length (g_arrs g)) (g_top g) :: g_nest g ->
  ((exists l, g_nodes g3 = g_nodes g ++ l) /\ (exists l, g_arrs g3 = g_arrs g ++ l) /\ forall k, k < gsize g -> g_ch g3 k = g_ch g k) -> 0 < gsize g3 ->
  g_top g3 = (g_top g + w)%Z -> g_peak g3 = Z.max (g_peak g) (g_top g3) -> (g_top g3 <= t_size (s_tape s4))%Z -> end_nested s4 = Ok (tt, s5) -> (good g -> no_matmul f -> good g3) ->
  (forall e, reachable e s -> no_matmul f -> incl env e -> exists e', reachable e' s4 /\ incl e e' /\ incl ks e') ->
  left_by s g env f w s5.
Proof.
  intros R0 R4 NE ((l & EL) & (la & EAR) & ECH) NZ T3 P3 FN E5 GD RE.
  pose proof (end_inv s4 _ _ _ s5 R4 NE E5) as R5. eexists. split; [exact R5|]. cbn [atrunc g_nodes g_nest g_top g_peak g_arrs g_ch set_gadj mk_n mk_a mk_top].
  split; [rewrite EL; unfold gsize; rewrite firstn_app, firstn_all, Nat.sub_diag; apply app_nil_r|].
  split; [split; [rewrite EAR, firstn_app, firstn_all, Nat.sub_diag; apply app_nil_r|exact ECH]|]. split; auto. split; auto. split; [congruence|].
  split; [intros Gg NM; apply good_trunc; [apply (r_wf _ _ R4)|apply good_set_gadj; auto|exact NE]|].
  split.
  - rewrite (r_thead _ _ R0), <- T3. apply (storage_ok HC _ _ _ _ _ (r_size _ _ R0) (r_size _ _ R5)); [exact P3|].
    pose proof (gsize_top _ (r_wf _ _ R4)) as Q. change (gsize (set_gadj g3 a)) with (gsize g3) in Q. cbn [set_gadj g_top] in Q. lia.
  - intros e HR NM HI. destruct (RE e HR NM HI) as (e' & V1 & V2 & _). exists e'. split; auto.
    apply (reach_end e' s4 s5 V1); auto. rewrite (r_thead _ _ R4). exact FN.
Qed.

Lemma lines_bound ke b g t l : lined ke b g t -> Forall (fun y => y < length t) l -> Forall (fun k => k < gsize g) (map (place ke b) l).
Proof. intros L H. apply Forall_map. eapply Forall_impl; [|exact H]. cbv beta. intros y Hy. eapply place_lt; eauto. Qed.

Lemma lines_vals ke b g t l : lined ke b g t -> Forall (fun y => y < length t) l -> map (gval g) (map (place ke b) l) = map (value t) l.
Proof.
  intros L H. rewrite map_map. apply map_ext_in. intros y Hy. rewrite Forall_forall in H. apply (ln_val _ _ _ _ L). auto.
Qed.

Lemma seq_bound a n m : a + n <= m -> Forall (fun y => y < m) (seq a n).
Proof. intros H. apply Forall_forall. intros y Hy. apply in_seq in Hy. lia. Qed.

Lemma gradient_lines_at s g env (ws xs : list F) (f : fn) : practical -> Rel s g -> sound g -> (s_lvl s < 10)%Z ->
  Forall (alive s) env -> mapM (var_val s) env = Ok ws ->
  let t0 := map given (ws ++ xs) in let rs := seq 0 (length ws + length xs) in
  well_formed f rs t0 -> (g_peak g <= cap)%Z -> (g_top g + (6 * zlen xs + cost f rs t0) <= cap)%Z ->
  match trace f rs t0 with
  | None => gradient (fun xv => call_fn1 f (env ++ xv)) xs s = ErrStop
  | Some ([], t) => True
  | Some (y :: _, t) =>
      (exactly_full s (6 * zlen xs + cost f rs t0) -> gradient (fun xv => call_fn1 f (env ++ xv)) xs s = Undef OutOfBounds) /\
      (~ exactly_full s (6 * zlen xs + cost f rs t0) ->
       exists s', gradient (fun xv => call_fn1 f (env ++ xv)) xs s =
         Ok (value t y :: map (reverse t (seed y)) (seq (length ws) (length xs)), s') /\ left_by s g env f (6 * zlen xs + cost f rs t0) s')
  end.
Proof.
  intros HP R0 HG HL HA HW t0 rs HF M1 M2. pose proof HP as [HC HJ].
  destruct (block_lines s g env ws xs f HP R0 HG HL HA HW HF M1 M2) as (s1 & xv & s2 & E1 & E2 & K). fold t0 rs in K.
  destruct (trace f rs t0) as [[[|y ys] t]|] eqn:ER; auto.
  2:{ unfold gradient. rewrite (mbind_ok _ _ _ _ _ E1), (mbind_ok _ _ _ _ _ E2). unfold call_fn1, mbind. rewrite K. reflexivity. }
  destruct K as (ke & b & s3 & g3 & r & E3 & R3 & G3 & L3 & LK & EXV & BY & LT & HZ & NE & T3 & P3 & Eb & Er & EL & GD & RE & _).
  pose proof (Forall_inv BY) as Hy. cbv beta in Hy. subst xv.
  destruct (grad_lines HJ ke b s3 g3 t y R3 G3 L3 HZ Hy) as (s4 & a & EG & R4 & AV).
  pose proof (place_lt ke b g3 t y L3 Hy) as Hk.
  destruct (filled HC s g s4 (set_gadj g3 a) _ R0 R4 T3 P3) as [FF FN]; [change (0 < gsize g3); lia|].
  assert (EV : vval (hd (place ke b y)) s3 = Ok (value t y, s3)).
  { rewrite <- (ln_val _ _ _ _ L3 y Hy). apply rel_vval; auto. }
  set (kx := map (place ke b) (seq (length ws) (length xs))) in *.
  assert (BX : Forall (fun k => k < gsize g3) kx) by (apply (lines_bound ke b g3 t _ L3), seq_bound; exact LT).
  assert (EA : vadjs (map hd kx) s4 = Ok (map (reverse t (seed y)) (seq (length ws) (length xs)), s4)).
  { unfold vadjs, mget. rewrite (live_adjs s4 _ kx R4 BX). cbn [bind]. do 2 f_equal. cbn [set_gadj g_adj]. unfold kx. rewrite map_map.
    apply map_ext_in. intros i Hi. apply in_seq in Hi. apply AV. lia. }
  assert (GO : gradient (fun xv => call_fn1 f (env ++ xv)) xs s =
    mbind end_nested (fun _ => mret (value t y :: map (reverse t (seed y)) (seq (length ws) (length xs)))) s4).
  { unfold gradient. rewrite (mbind_ok _ _ _ _ _ E1), (mbind_ok _ _ _ _ _ E2).
    assert (E3' : call_fn1 f (env ++ map hd kx) s2 = Ok (hd (place ke b y), s3)).
    { unfold call_fn1. rewrite (mbind_ok _ _ _ _ _ E3). reflexivity. }
    rewrite (mbind_ok _ _ _ _ _ E3'), (mbind_ok _ _ _ _ _ EV), (mbind_ok _ _ _ _ _ EG), (mbind_ok _ _ _ _ _ EA). reflexivity. }
  rewrite GO. split; intros HE.
  - unfold mbind. rewrite (end_full s4 _ _ _ R4 NE (FF HE)). reflexivity.
  - destruct (end_fits s4 _ _ _ R4 NE (FN HE)) as (s5 & E5 & _). rewrite (mbind_ok _ _ _ _ _ E5). unfold mret. exists s5. split; auto.
    rewrite Eb, Er in NE. apply (leaves HC s g env f _ s4 g3 a (hd (place ke b y) :: nil) s5 R0 R4 NE EL); auto; try lia.
    intros e HR NM HI. destruct (RE e HR NM HI) as (e' & V1 & V2 & V3). exists e'.
    assert (IN : In (hd (place ke b y)) e') by (apply V3; left; reflexivity).
    split; [apply (reach_grad e' s3 _ s4 V1 IN (node_alive s3 g3 _ R3 Hk) EG)|]. split; auto. intros z [<-|[]]. exact IN.
Qed.

Theorem gradient_lines s env (ws xs : list F) (f : fn) : practical -> (exists g, Rel s g /\ sound g) -> (s_lvl s < 10)%Z ->
  Forall (alive s) env -> mapM (var_val s) env = Ok ws ->
  let t0 := map given (ws ++ xs) in let rs := seq 0 (length ws + length xs) in
  well_formed f rs t0 -> roomy s (6 * zlen xs + cost f rs t0) ->
  match trace f rs t0 with
  | None => gradient (fun xv => call_fn1 f (env ++ xv)) xs s = ErrStop
  | Some ([], t) => True
  | Some (y :: _, t) =>
      (exactly_full s (6 * zlen xs + cost f rs t0) -> gradient (fun xv => call_fn1 f (env ++ xv)) xs s = Undef OutOfBounds) /\
      (~ exactly_full s (6 * zlen xs + cost f rs t0) ->
       exists s', gradient (fun xv => call_fn1 f (env ++ xv)) xs s =
         Ok (value t y :: map (reverse t (seed y)) (seq (length ws) (length xs)), s'))
  end.
Proof.
  intros HP (g & R0 & HG) HL HA HW t0 rs HF HM. pose proof (cost_pos f rs t0) as W0. pose proof (zlen_nonneg xs) as W1.
  destruct (roomy_peak s g (6 * zlen xs + cost f rs t0)%Z R0 ltac:(lia) HM) as [P1 P2].
  pose proof (gradient_lines_at s g env ws xs f HP R0 HG HL HA HW HF P1 P2) as Q. fold t0 rs in Q.
  destruct (trace f rs t0) as [[[|y ys] t]|]; auto. destruct Q as [Q1 Q2]. split; auto. intros HE. destruct (Q2 HE) as (s' & E & _). eauto.
Qed.

Lemma rows_lines (HJ : exists j, junk = Some j) ke b (g : graph) t aa tt0 r kx n : sound g -> lined ke b g t -> g_nest g = mkMark b aa tt0 :: r ->
  kx = map (place ke b) (seq (length ke) n) -> length ke + n <= length t ->
  forall ys s f, Rel s (set_gadj g f) -> Forall (fun y => y < length t) ys ->
  exists s' f', mmap (jac_row (map hd kx)) (map hd (map (place ke b) ys)) s =
      Ok (map (fun y => map (reverse t (seed y)) (seq (length ke) n)) ys, s') /\ Rel s' (set_gadj g f') /\
    forall e, reachable e s -> incl (map hd (map (place ke b) ys)) e -> reachable e s'.
Proof.
  intros HG L HN EKX LN.
  assert (BX : Forall (fun k => k < gsize g) kx) by (rewrite EKX; apply (lines_bound ke b g t _ L), seq_bound; exact LN).
  assert (LG : forall h, lined ke b (set_gadj g h) t).
  { intros h. constructor; apply L. }
  induction ys as [|y ys IH]; intros s f R0 HB; cbn [map mmap].
  - exists s, f. split; auto.
  - pose proof (Forall_inv HB) as Hy. pose proof (Forall_inv_tail HB) as HB'. cbv beta in Hy.
    destruct (zero_nested_ok s (set_gadj g f) _ _ R0 HN) as (s1 & E1 & R1). cbn [mk_n] in R1.
    destruct (grad_lines HJ ke b s1 _ t y R1 (zero_adj_sound _ _ (zero_adj_sound _ _ HG)) (LG _)) as (s2 & a & E2 & R2 & AV); auto.
    { intros k Hk. change (gsize (azero_from b (set_gadj g f))) with (gsize g) in Hk. unfold azero_from. cbn [set_gadj g_adj].
      change (gsize (set_gadj g f)) with (gsize g). replace (b <=? k) with true by lia. replace (k <? gsize g) with true by lia. reflexivity. }
    assert (EA : vadjs (map hd kx) s2 = Ok (map (reverse t (seed y)) (seq (length ke) n), s2)).
    { unfold vadjs, mget. rewrite (live_adjs s2 _ kx R2 BX). cbn [bind]. do 2 f_equal. cbn [set_gadj g_adj]. rewrite EKX, map_map.
      apply map_ext_in. intros i Hi. apply in_seq in Hi. apply AV. lia. }
    destruct (IH s2 a R2 HB') as (s' & f' & E3 & R3 & RE).
    exists s', f'. rewrite <- and_assoc. split.
    2:{ intros e HR HI. apply RE; [|intros z Hz; apply HI; right; exact Hz].
      refine (reach_grad e s1 (hd (place ke b y)) s2 _ (HI _ (or_introl eq_refl)) _ E2).
      - apply (reach_zero_nested e s s1 HR); [|exact E1]. rewrite (r_lvl _ _ R0). cbn [set_gadj g_nest]. rewrite HN. unfold zlen. cbn [length]. lia.
      - apply (node_alive s1 _ _ R1). change (place ke b y < gsize g). eapply place_lt; eauto. }
    split; auto.
    assert (EJ : jac_row (map hd kx) (hd (place ke b y)) s = Ok (map (reverse t (seed y)) (seq (length ke) n), s2)).
    { unfold jac_row. rewrite (mbind_ok _ _ _ _ _ E1), (mbind_ok _ _ _ _ _ E2). exact EA. }
    rewrite (mbind_ok _ _ _ _ _ EJ), (mbind_ok _ _ _ _ _ E3). reflexivity.
Qed.

Lemma jacobian_lines_at s g env (ws xs : list F) (f : fn) : practical -> Rel s g -> sound g -> (s_lvl s < 10)%Z ->
  Forall (alive s) env -> mapM (var_val s) env = Ok ws ->
  let t0 := map given (ws ++ xs) in let rs := seq 0 (length ws + length xs) in
  well_formed f rs t0 -> (g_peak g <= cap)%Z -> (g_top g + (6 * zlen xs + cost f rs t0) <= cap)%Z ->
  match trace f rs t0 with
  | None => jacobian (fun xv => call_fn f (env ++ xv)) xs s = ErrStop
  | Some ([], t) => True
  | Some (ys, t) =>
      (exactly_full s (6 * zlen xs + cost f rs t0) -> jacobian (fun xv => call_fn f (env ++ xv)) xs s = Undef OutOfBounds) /\
      (~ exactly_full s (6 * zlen xs + cost f rs t0) ->
       exists s', jacobian (fun xv => call_fn f (env ++ xv)) xs s =
         Ok (map (fun y => value t y :: map (reverse t (seed y)) (seq (length ws) (length xs))) ys, s') /\ left_by s g env f (6 * zlen xs + cost f rs t0) s')
  end.
Proof.
  intros HP R0 HG HL HA HW t0 rs HF M1 M2. pose proof HP as [HC HJ].
  destruct (block_lines s g env ws xs f HP R0 HG HL HA HW HF M1 M2) as (s1 & xv & s2 & E1 & E2 & K). fold t0 rs in K.
  destruct (trace f rs t0) as [[ys t]|] eqn:ER.
  2:{ unfold jacobian. rewrite (mbind_ok _ _ _ _ _ E1), (mbind_ok _ _ _ _ _ E2). unfold mbind. rewrite K. reflexivity. }
  assert (GOAL : forall P : Prop, (ys <> [] -> P) -> match ys with [] => True | _ :: _ => P end).
  { intros P HPP. destruct ys; [exact Logic.I|apply HPP; discriminate]. }
  apply GOAL. clear GOAL. intros HNE.
  destruct K as (ke & b & s3 & g3 & r & E3 & R3 & G3 & L3 & LK & EXV & BY & LT & HZ & NE & T3 & P3 & Eb & Er & EL & GD & RE & _).
  assert (R3' : Rel s3 (set_gadj g3 (g_adj g3))) by (destruct g3; exact R3).
  rewrite <- LK in EXV, LT.
  set (kx := map (place ke b) (seq (length ke) (length xs))) in *.
  destruct (rows_lines HJ ke b g3 t _ _ r kx (length xs) G3 L3 NE eq_refl LT ys s3 (g_adj g3) R3' BY) as (s4 & a & EG & R4 & RG).
  rewrite <- EXV in EG. rewrite LK in EG.
  assert (NZ : 0 < gsize g3).
  { destruct ys as [|y ys]; [congruence|]. pose proof (Forall_inv BY) as Hy. cbv beta in Hy. pose proof (place_lt ke b g3 t y L3 Hy). lia. }
  destruct (filled HC s g s4 (set_gadj g3 a) _ R0 R4 T3 P3 NZ) as [FF FN].
  pose proof (live_vals s3 g3 _ R3 (lines_bound ke b g3 t ys L3 BY)) as EV. rewrite (lines_vals ke b g3 t ys L3 BY) in EV.
  assert (GO : jacobian (fun xv => call_fn f (env ++ xv)) xs s =
    mbind end_nested (fun _ => mret (map (fun y => value t y :: map (reverse t (seed y)) (seq (length ws) (length xs))) ys)) s4).
  { unfold jacobian. rewrite (mbind_ok _ _ _ _ _ E1), (mbind_ok _ _ _ _ _ E2), (mbind_ok _ _ _ _ _ E3), (mbind_ok _ _ _ _ _ EV), (mbind_ok _ _ _ _ _ EG).
    assert (EZ : map (fun p => fst p :: snd p) (combine (map (value t) ys) (map (fun y => map (reverse t (seed y)) (seq (length ws) (length xs))) ys)) =
      map (fun y => value t y :: map (reverse t (seed y)) (seq (length ws) (length xs))) ys).
    { clear. induction ys as [|y ys IH]; [reflexivity|]. cbn [map combine fst snd]. f_equal. exact IH. }
    rewrite EZ. reflexivity. }
  rewrite GO. split; intros HE.
  - unfold mbind. rewrite (end_full s4 _ _ _ R4 NE (FF HE)). reflexivity.
  - destruct (end_fits s4 _ _ _ R4 NE (FN HE)) as (s5 & E5 & _). rewrite (mbind_ok _ _ _ _ _ E5). unfold mret. exists s5. split; auto.
    rewrite Eb, Er in NE. apply (leaves HC s g env f _ s4 g3 a (map hd (map (place ke b) ys)) s5 R0 R4 NE EL); auto.
    intros e HR NM HI. destruct (RE e HR NM HI) as (e' & V1 & V2 & V3). exists e'. split; auto.
Qed.

Theorem jacobian_lines s env (ws xs : list F) (f : fn) : practical -> (exists g, Rel s g /\ sound g) -> (s_lvl s < 10)%Z ->
  Forall (alive s) env -> mapM (var_val s) env = Ok ws ->
  let t0 := map given (ws ++ xs) in let rs := seq 0 (length ws + length xs) in
  well_formed f rs t0 -> roomy s (6 * zlen xs + cost f rs t0) ->
  match trace f rs t0 with
  | None => jacobian (fun xv => call_fn f (env ++ xv)) xs s = ErrStop
  | Some ([], t) => True
  | Some (ys, t) =>
      (exactly_full s (6 * zlen xs + cost f rs t0) -> jacobian (fun xv => call_fn f (env ++ xv)) xs s = Undef OutOfBounds) /\
      (~ exactly_full s (6 * zlen xs + cost f rs t0) ->
       exists s', jacobian (fun xv => call_fn f (env ++ xv)) xs s =
         Ok (map (fun y => value t y :: map (reverse t (seed y)) (seq (length ws) (length xs))) ys, s'))
  end.
Proof.
  intros HP (g & R0 & HG) HL HA HW t0 rs HF HM. pose proof (cost_pos f rs t0) as W0. pose proof (zlen_nonneg xs) as W1.
  destruct (roomy_peak s g (6 * zlen xs + cost f rs t0)%Z R0 ltac:(lia) HM) as [P1 P2].
  pose proof (jacobian_lines_at s g env ws xs f HP R0 HG HL HA HW HF P1 P2) as Q. fold t0 rs in Q.
  destruct (trace f rs t0) as [[[|y ys] t]|]; auto. destruct Q as [Q1 Q2]. split; auto. intros HE. destruct (Q2 HE) as (s' & E & _). eauto.
Qed.

(* a call followed by grad, without a block of its own *)
Theorem grad_line s env (ws : list F) (f : fn) y ys t : practical -> (exists g, Rel s g /\ sound g) ->
  Forall (alive s) env -> mapM (var_val s) env = Ok ws ->
  let t0 := map given ws in let rs := seq 0 (length ws) in
  well_formed f rs t0 -> roomy s (cost f rs t0) -> trace f rs t0 = Some (y :: ys, t) ->
  exists h hs s1 s2, call_fn f env s = Ok (h :: hs, s1) /\ mapM (var_val s1) (h :: hs) = Ok (map (value t) (y :: ys)) /\
    grad h s1 = Ok (tt, s2) /\ length hs = length ys /\
    forall i r, nth_error (y :: ys) i = Some r -> length ws <= r ->
      exists h', nth_error (h :: hs) i = Some h' /\ var_adj s2 h' = Ok (reverse t (seed y) r).
Proof.
  intros HP (g & R0 & HG) HA HW t0 rs HF HM ER. pose proof HP as [HC HJ].
  destruct (live_env s g env R0 HA) as (ke & -> & HB).
  rewrite (live_env_vals s g ke R0 HB) in HW. assert (EW : map (gval g) ke = ws) by congruence. clear HW.
  assert (LW : length ke = length ws) by (rewrite <- EW; symmetry; apply map_length).
  pose proof (given_lines ke (gsize g) g ws eq_refl HB EW) as L1. pose proof (cost_pos f rs t0) as W0.
  destruct (roomy_peak s g (cost f rs t0) R0 W0 HM) as [P1 P2].
  assert (RS : map (place ke (gsize g)) (seq 0 (length ws)) = ke).
  { rewrite <- LW. apply nth_ext with (d := 0) (d' := 0); [rewrite map_length, seq_length; reflexivity|]. intros i Hi. rewrite map_length, seq_length in Hi.
    rewrite (nth_map_in _ _ i 0 0) by (rewrite seq_length; auto). rewrite seq_nth by auto. unfold place. cbn [Nat.add].
    replace (i <? length ke) with true by lia. reflexivity. }
  assert (BR : Forall (fun r => r < length t0) rs) by (unfold t0; rewrite map_length; apply seq_bound; lia).
  pose proof (call_lines HC HJ ke (gsize g) f s g rs t0 R0 HG L1 BR HF P1 P2) as K.
  rewrite ER in K. unfold rs in K. rewrite RS in K. destruct K as (s1 & g1 & E1 & R1 & G1 & GR & L & BY & LL & T1 & PK).
  pose proof (Forall_inv BY) as Hy. cbv beta in Hy.
  destruct (grad_lines HJ ke (gsize g) s1 g1 t y R1 G1 L (fun k Hk => gr_new _ _ GR k Hk) Hy) as (s2 & a & EG & R2 & AV).
  cbn [map] in E1. eexists _, _, s1, s2. split; [exact E1|]. split.
  { pose proof (lines_bound ke (gsize g) g1 t _ L BY) as LB.
    etransitivity; [exact (live_env_vals s1 g1 _ R1 LB)|]. f_equal. apply lines_vals; auto. }
  split; [exact EG|]. split; [rewrite !map_length; reflexivity|].
  intros i q Ei Hq. exists (hd (place ke (gsize g) q)).
  change (hd (place ke (gsize g) y) :: map hd (map (place ke (gsize g)) ys)) with (map hd (map (place ke (gsize g)) (y :: ys))).
  split; [rewrite !nth_error_map, Ei; reflexivity|].
  rewrite Forall_forall in BY. pose proof (BY q (nth_error_In _ _ Ei)) as Hql. cbv beta in Hql.
  rewrite (rel_var_adj s2 _ R2); [|change (place ke (gsize g) q < gsize g1); eapply place_lt; eauto].
  f_equal. apply AV. lia.
Qed.

(* ---- the cases apart ---- *)

Theorem gradient_reverse s env (ws xs : list F) (f : fn) y ys t : practical -> (exists g, Rel s g /\ sound g) -> (s_lvl s < 10)%Z ->
  Forall (alive s) env -> mapM (var_val s) env = Ok ws ->
  let t0 := map given (ws ++ xs) in let rs := seq 0 (length ws + length xs) in let w := (6 * zlen xs + cost f rs t0)%Z in
  well_formed f rs t0 -> roomy s w -> ~ exactly_full s w -> trace f rs t0 = Some (y :: ys, t) ->
  exists s', gradient (fun xv => call_fn1 f (env ++ xv)) xs s =
    Ok (value t y :: map (reverse t (seed y)) (seq (length ws) (length xs)), s').
Proof.
  intros HP HG HL HA HW t0 rs w HF HM HE ET. pose proof (gradient_lines s env ws xs f HP HG HL HA HW HF HM) as Q. fold t0 rs in Q.
  rewrite ET in Q. apply Q. exact HE.
Qed.

Theorem jacobian_reverse s env (ws xs : list F) (f : fn) ys t : practical -> (exists g, Rel s g /\ sound g) -> (s_lvl s < 10)%Z ->
  Forall (alive s) env -> mapM (var_val s) env = Ok ws ->
  let t0 := map given (ws ++ xs) in let rs := seq 0 (length ws + length xs) in let w := (6 * zlen xs + cost f rs t0)%Z in
  well_formed f rs t0 -> roomy s w -> ~ exactly_full s w -> trace f rs t0 = Some (ys, t) -> ys <> [] ->
  exists s', jacobian (fun xv => call_fn f (env ++ xv)) xs s =
    Ok (map (fun y => value t y :: map (reverse t (seed y)) (seq (length ws) (length xs))) ys, s').
Proof.
  intros HP HG HL HA HW t0 rs w HF HM HE ET HN. pose proof (jacobian_lines s env ws xs f HP HG HL HA HW HF HM) as Q. fold t0 rs in Q.
  rewrite ET in Q. destruct ys as [|y ys]; [congruence|]. apply Q. exact HE.
Qed.

Theorem reverse_stop s env (ws xs : list F) (f : fn) : practical -> (exists g, Rel s g /\ sound g) -> (s_lvl s < 10)%Z ->
  Forall (alive s) env -> mapM (var_val s) env = Ok ws ->
  let t0 := map given (ws ++ xs) in let rs := seq 0 (length ws + length xs) in let w := (6 * zlen xs + cost f rs t0)%Z in
  well_formed f rs t0 -> roomy s w -> trace f rs t0 = None ->
  gradient (fun xv => call_fn1 f (env ++ xv)) xs s = ErrStop /\ jacobian (fun xv => call_fn f (env ++ xv)) xs s = ErrStop.
Proof.
  intros HP HG HL HA HW t0 rs w HF HM ET. pose proof (gradient_lines s env ws xs f HP HG HL HA HW HF HM) as Q1.
  pose proof (jacobian_lines s env ws xs f HP HG HL HA HW HF HM) as Q2. fold t0 rs in Q1, Q2. rewrite ET in Q1, Q2. auto.
Qed.

Theorem reverse_full s env (ws xs : list F) (f : fn) y ys t : practical -> (exists g, Rel s g /\ sound g) -> (s_lvl s < 10)%Z ->
  Forall (alive s) env -> mapM (var_val s) env = Ok ws ->
  let t0 := map given (ws ++ xs) in let rs := seq 0 (length ws + length xs) in let w := (6 * zlen xs + cost f rs t0)%Z in
  well_formed f rs t0 -> roomy s w -> exactly_full s w -> trace f rs t0 = Some (y :: ys, t) ->
  gradient (fun xv => call_fn1 f (env ++ xv)) xs s = Undef OutOfBounds /\ jacobian (fun xv => call_fn f (env ++ xv)) xs s = Undef OutOfBounds.
Proof.
  intros HP HG HL HA HW t0 rs w HF HM HE ET. pose proof (gradient_lines s env ws xs f HP HG HL HA HW HF HM) as Q1.
  pose proof (jacobian_lines s env ws xs f HP HG HL HA HW HF HM) as Q2. fold t0 rs in Q1, Q2. rewrite ET in Q1, Q2. split; [apply Q1|apply Q2]; exact HE.
Qed.
End Block.
