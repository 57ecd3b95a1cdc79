(* Lemmas behind C46 and C47. *)
From Verif Require Import TapeFacts.
From Coq Require Import ZifyBool ZifyNat.
From Verif Require Export CvodesDrive Claims_block Claims_real.
Local Open Scope R_scope.

Section ClaimsCvodes.
Context {lg : R -> R} {C : Cfg (RNum lg)}.
Notation N := (RNum lg).
Notation graph := (@graph N).

(* a sweep inside the block, from zero adjoints *)
Lemma nested_tau (HJ : exists j, @junk N C = Some j) s (g : graph) m r k f : Rel s g -> sound g -> g_nest g = m :: r -> (k < gsize g)%nat ->
  (forall i, (mk_n m <= i < gsize g)%nat -> g_adj g i = 0) ->
  asweep (mk_n m) (gsize g - mk_n m) (a_seed g k) = Some (set_gadj g f) ->
  forall j, (mk_n m <= j < gsize g)%nat -> f j = tau g 0 j k.
Proof.
  intros R0 HG HN Hk HZ ES j Hj. pose proof (r_wf _ _ R0) as W.
  destruct (sound_sweep HJ g HG (mk_n m) 0 ltac:(lia) f) as (g2 & E2).
  assert (EG : agrad k g = Some g2).
  { unfold agrad. replace (Nat.ltb k (gsize g)) with true by lia.
    replace (gsize g) with (mk_n m + (gsize g - mk_n m))%nat at 1 by lia. rewrite asweep_split, ES. exact E2. }
  pose proof (grad_tau g k g2 j W EG ltac:(lia)) as HT.
  assert (HH : g_adj g2 j = f j) by (apply (sweep_high 0 (mk_n m) (set_gadj g f) g2 (gwf_set_gadj _ _ W) E2 j); lia).
  etransitivity; [symmetry; exact HH|]. etransitivity; [exact HT|].
  rewrite (sumn_one _ k); auto.
  - unfold nupd. rewrite Nat.eqb_refl. apply Rmult_1_l.
  - intros i Hi Hne. unfold nupd. replace (Nat.eqb i k) with false by lia.
    destruct (Nat.ltb_spec i j).
    + rewrite (tau_below g 0 j i W) by auto. apply Rmult_0_r.
    + assert (EZ : g_adj g i = 0) by (apply HZ; lia). rewrite EZ. apply Rmult_0_l.
Qed.

Lemma adjs_nodes s (g : graph) f ks : Rel s (set_gadj g f) -> Forall (fun a => (a < gsize g)%nat) ks -> mapM (var_adj s) (map hd ks) = Ok (map f ks).
Proof.
  intros R2 HH. induction HH as [|a l Ha _ IH]; cbn [map mapM]; auto. rewrite (rel_var_adj s _ R2 a Ha). cbn [bind]. rewrite IH. reflexivity.
Qed.

Lemma firstn_seq a n m : (m <= n)%nat -> firstn m (seq a n) = seq a m.
Proof. revert a n. induction m as [|m IH]; intros a [|n] H; cbn [seq firstn]; auto; try lia. f_equal. apply IH. lia. Qed.

(* the adjoints read in each pass of the loop of set_sens_rhs *)
Lemma srows_tau (HJ : exists j, @junk N C = Some j) (g4 : graph) m r (o : @cvs_rhs N) n np kp : sound g4 -> g_nest g4 = m :: r ->
  (mk_n m + n <= gsize g4)%nat -> (mk_n m <= kp)%nat -> (kp + np <= gsize g4)%nat ->
  forall ks s ab s' f, Rel s (set_gadj g4 f) -> (forall i, (mk_n m <= i < gsize g4)%nat -> f i = 0) -> Forall (fun k => (k < gsize g4)%nat) ks ->
  srows o n (map hd (seq (mk_n m) n)) (map hd (seq kp np)) (map hd ks) s ab s' ->
  Forall2 (fun k (p : list R * list R) => fst p = map (fun j => tau g4 0 j k) (seq (mk_n m) n) /\
    (par_is_var o n = true -> (par_count o n <= np)%nat /\ snd p = map (fun j => tau g4 0 j k) (seq kp (par_count o n)))) ks ab.
Proof.
  intros HG HN B1 B2 B3. induction ks as [|k ks IH]; intros s ab s' f R0 HZ HB HR; cbn [map srows] in HR.
  - destruct ab; [constructor|tauto].
  - destruct ab as [|p ab]; [tauto|]. destruct HR as (s1 & s2 & E1 & E2 & E3 & E4 & HR).
    inversion HB as [|? ? Hk HB']; subst.
    assert (HG' : sound (set_gadj g4 f)) by (apply zero_adj_sound; exact HG).
    destruct (nested_step HJ s (set_gadj g4 f) m r k R0 HG' HN Hk) as (s1' & f1' & E1' & R1 & ES).
    assert (s1' = s1) by congruence. subst s1'.
    pose proof (nested_tau HJ s (set_gadj g4 f) m r k f1' R0 HG' HN Hk HZ ES) as HF.
    assert (R1' : Rel s1 (set_gadj g4 f1')) by exact R1.
    assert (TZ : forall j, (mk_n m <= j < gsize g4)%nat -> f1' j = tau g4 0 j k).
    { intros j Hj. rewrite (HF j Hj). apply tau_zero_adj. }
    destruct (zero_nested_ok s1 _ m r R1 HN) as (s2' & E4' & R2). assert (s2' = s2) by congruence. subst s2'.
    constructor.
    + split.
      * assert (EM : mapM (var_adj s1) (map hd (seq (mk_n m) n)) = Ok (map f1' (seq (mk_n m) n))).
        { apply (adjs_nodes s1 g4 f1' _ R1'). apply Forall_forall. intros a Ha. apply in_seq in Ha. lia. }
        assert (EP : fst p = map f1' (seq (mk_n m) n)) by (clear - E2 EM; congruence).
        etransitivity; [exact EP|]. apply map_ext_in. intros j Hj. apply in_seq in Hj. apply TZ. lia.
      * intros HP. destruct (E3 HP) as [LP E5]. rewrite map_length, seq_length in LP. split; auto.
        rewrite firstn_map, firstn_seq in E5 by exact LP.
        assert (EM : mapM (var_adj s1) (map hd (seq kp (par_count o n))) = Ok (map f1' (seq kp (par_count o n)))).
        { apply (adjs_nodes s1 g4 f1' _ R1'). apply Forall_forall. intros a Ha. apply in_seq in Ha. lia. }
        assert (EP : snd p = map f1' (seq kp (par_count o n))) by (clear - E5 EM; congruence).
        etransitivity; [exact EP|]. apply map_ext_in. intros j Hj. apply in_seq in Hj. apply TZ. lia.
    + apply (IH s2 ab s' _ R2); auto. intros i Hi. cbn [set_gadj g_adj]. change (gsize (set_gadj (set_gadj g4 f) f1')) with (gsize g4).
      replace (Nat.leb (mk_n m) i && Nat.ltb i (gsize g4)) with true by lia. reflexivity.
Qed.

Lemma rdot_seq (a : nat -> R) (v : list R) : forall n from, length v = n ->
  rdot (map a (seq from n)) v = rsum (map (fun l => a (from + l)%nat * nth l v 0) (seq 0 n)).
Proof.
  unfold rdot. induction v as [|x v IH]; intros n from E; subst n; auto. cbn [length seq map combine].
  cbn [rsum fold_right fst snd]. rewrite Nat.add_0_r. cbn [nth]. unfold rsum in *. cbn [fold_right]. f_equal.
  rewrite (IH (length v) (S from) eq_refl). f_equal. rewrite <- seq_shift, map_map. apply map_ext. intros l. cbn [nth].
  replace (S from + l)%nat with (from + S l)%nat by lia. reflexivity.
Qed.

Lemma nth_add_both (l : list R) : forall b j, length l = length b -> (j < length l)%nat ->
  nth j (map (fun p => fst p + snd p) (combine l b)) 0 = nth j l 0 + nth j b 0.
Proof.
  induction l as [|x l IH]; intros [|z b] j HL Hj; cbn [length] in *; try lia.
  destruct j as [|j]; cbn [combine map nth fst snd]; auto. apply IH; lia.
Qed.

Lemma nth_add_from k : forall (l b : list R) j, length l = (k + length b)%nat -> (j < length l)%nat ->
  nth j (@add_from N k l b) 0 = nth j l 0 + (if Nat.ltb j k then 0 else nth (j - k) b 0).
Proof.
  unfold add_from. induction k as [|k IH]; intros l b j HL Hj.
  - replace (j - 0)%nat with j by lia. replace (Nat.ltb j 0) with false by lia. exact (nth_add_both l b j HL Hj).
  - destruct l as [|x l]; [cbn [length] in Hj; lia|]. destruct j as [|j].
    + cbn [firstn app nth]. replace (Nat.ltb 0 (S k)) with true by lia. symmetry. apply Rplus_0_r.
    + cbn [length] in HL, Hj. cbn [firstn skipn app nth]. replace (Nat.ltb (S j) (S k)) with (Nat.ltb j k) by lia.
      replace (S j - S k)%nat with (j - k)%nat by lia. apply IH; lia.
Qed.

(* holding a register of the arguments y ++ f ++ p *)
Lemma hold_cons x t from y (ys : list R) : hold x t from (y :: ys) = (if Nat.eqb from x then t else y) :: hold x t (S from) ys.
Proof. reflexivity. Qed.

Lemma hold_app x t (b a : list R) : forall from, hold x t from (a ++ b) = hold x t from a ++ hold x t (from + length a) b.
Proof.
  induction a as [|y a IH]; intros from; cbn [app length]; [rewrite Nat.add_0_r; reflexivity|].
  rewrite !hold_cons, IH. cbn [app]. replace (S from + length a)%nat with (from + S (length a))%nat by lia. reflexivity.
Qed.

Lemma hold_move x t k (ys : list R) : forall from, hold (k + x) t (k + from) ys = hold x t from ys.
Proof.
  induction ys as [|y ys IH]; intros from; [reflexivity|]. rewrite !hold_cons.
  replace (Nat.eqb (k + from) (k + x)) with (Nat.eqb from x) by lia. f_equal.
  replace (S (k + from)) with (k + S from)%nat by lia. apply IH.
Qed.

Lemma hold_away x t (ys : list R) : forall from, (x < from \/ from + length ys <= x)%nat -> hold x t from ys = ys.
Proof.
  induction ys as [|y ys IH]; intros from H; [reflexivity|]. rewrite hold_cons. cbn [length] in H.
  replace (Nat.eqb from x) with false by lia. f_equal. apply IH. lia.
Qed.

Lemma hold_first x t (y z p : list R) : (x < length y)%nat -> hold x t 0 (y ++ z ++ p) = hold x t 0 y ++ z ++ p.
Proof. intros H. rewrite hold_app. f_equal. apply hold_away. lia. Qed.

Lemma hold_last x t (y z p : list R) : hold (length y + length z + x) t 0 (y ++ z ++ p) = y ++ z ++ hold x t 0 p.
Proof.
  rewrite !hold_app. rewrite (hold_away _ t y) by lia. rewrite (hold_away _ t z) by lia.
  rewrite <- (hold_move x t (length y + length z) p 0). do 3 f_equal. lia.
Qed.

Lemma cut_seq (a b : list Z) : forall k n, a ++ b = map hd (seq k n) -> a = map hd (seq k (length a)) /\ b = map hd (seq (k + length a) (n - length a)) /\ (length a <= n)%nat.
Proof.
  induction a as [|x a IH]; intros k n H; cbn [app length seq map] in *.
  - rewrite Nat.add_0_r, Nat.sub_0_r. repeat split; auto. lia.
  - destruct n as [|n]; [discriminate|]. cbn [seq map] in H. injection H as -> H. destruct (IH (S k) n H) as (E1 & E2 & E3).
    split; [f_equal; exact E1|]. split; [|lia]. rewrite E2. f_equal. f_equal; lia.
Qed.

Lemma map_nth_self (l : list R) n : length l = n -> l = map (fun i => nth i l 0) (seq 0 n).
Proof.
  intros <-. induction l as [|x l IH]; [reflexivity|]. cbn [length seq map nth]. f_equal. rewrite <- seq_shift, map_map. exact IH.
Qed.

Theorem sens_rhs_ok s (o : @cvs_rhs N) q outs t (y : list R) yS r s' : @practical N C -> (exists g : graph, Rel s g /\ sound g) ->
  ode_f o = rhs_prog q outs -> length outs = length y -> length yS = ode_ns o -> Forall (fun v => length v = length y) yS ->
  prog_dom (q t) (y ++ repeat 0 (length y) ++ par_vals o (length y)) ->
  set_sens_rhs (t : @F N) (y : list (@F N)) yS o s = Ok (r, s') ->
  length r = ode_ns o /\ forall j, (j < ode_ns o)%nat -> length (nth j r []) = length y /\
    forall i, (i < length y)%nat ->
      sens_eq (rhs_value q outs t i) y (par_vals o (length y)) (nth j yS [])
        (if Nat.ltb j (ode_ns o - par_count o (length y)) then None else Some (j - (ode_ns o - par_count o (length y)))%nat)
        (nth i (nth j r []) 0).
Proof.
  intros HP (g & R0 & HG) EF LO LS FS HD HX. pose proof HP as [HC HJ].
  destruct (sens_inv t y yS o q outs s r s' EF HX) as (s1 & yv & fv & pv & s2 & env' & s3 & hs & ab & s4 & E1 & E2 & L1 & L2 & L3 & E3 & E4 & HPV & E5 & E6 & ->).
  set (n := @length R y) in *. set (p := par_vals o n) in *.
  change (@length (@F N) y) with n in *.
  set (xs := y ++ repeat 0 n ++ p) in *.
  destruct (block_body s g [] [] xs (q t) s1 (yv ++ fv ++ pv) s2 env' s3 HP R0 HG (Forall_nil _) eq_refl HD E1 E2 E3)
    as (g1 & g3 & ke' & R1 & AB & GR & R3 & G3 & EXV & -> & SZ & B3 & EVV & TR).
  destruct (sound_begin g g1 HG AB) as (G1 & SZ1 & VV & AV & NE).
  assert (LX : length xs = (n + (n + length p))%nat) by (unfold xs; rewrite !app_length, repeat_length; reflexivity).
  assert (SZ' : (gsize g + (n + (n + length p)) <= gsize g3)%nat) by (rewrite <- LX; exact SZ).
  destruct (cut_seq _ _ _ _ EXV) as (EY & EXV2 & _). destruct (cut_seq _ _ _ _ EXV2) as (_ & EPV & _).
  assert (FK : exists ks, hs = map hd ks /\ Forall2 (fun y k => nth_error ke' y = Some k) outs ks).
  { clear - E4. induction E4 as [|y0 h ys hs E _ (ks & -> & IH)]; [exists []; split; auto|].
    rewrite nth_error_map in E. destruct (nth_error ke' y0) as [k|] eqn:Ek; [|discriminate]. cbn [option_map] in E.
    exists (k :: ks). split; [cbn [map]; congruence|]. constructor; auto. }
  destruct FK as (ks & -> & FK). clear E4.
  assert (BK : Forall (fun k => (k < gsize g3)%nat) ks).
  { clear - FK B3. induction FK as [|y0 k ys ks E _ IH]; constructor; auto. rewrite Forall_forall in B3. apply B3. eapply nth_error_In; eauto. }
  assert (LK : length ks = n) by (rewrite <- LO; clear - FK; induction FK; cbn [length]; auto).
  assert (L1' : length yv = n) by exact L1. assert (L2' : length fv = n) by exact L2. assert (L3' : length pv = length p) by exact L3.
  rewrite L1' in EY, EPV. rewrite L2' in EPV. 
  assert (LE : (@length (@F N) xs - n - n)%nat = length p) by (transitivity (@length R xs - n - n)%nat; [reflexivity|lia]). rewrite LE in EPV. clear LE.
  assert (ROWS : forall g4, Rel s3 g4 -> sound g4 -> grows g1 g4 ->
     Forall2 (fun k (ab : list R * list R) => fst ab = map (fun j => tau g4 0 j k) (seq (gsize g) n) /\
       (par_is_var o n = true -> (par_count o n <= length p)%nat /\ snd ab = map (fun j => tau g4 0 j k) (seq (gsize g + n + n) (par_count o n)))) ks ab).
  { intros g4 R4 G4 GR4. pose proof (r_head _ _ R3) as H3. pose proof (r_head _ _ R4) as H4.
    assert (SZ4 : gsize g4 = gsize g3) by lia.
    assert (R4' : Rel s3 (set_gadj g4 (g_adj g4))) by (destruct g4; exact R4).
    rewrite EY, EPV in E5.
    apply (srows_tau HJ g4 (mkMark (gsize g) (length (g_arrs g)) (g_top g)) (g_nest g) o n (length p) (gsize g + n + n) G4
      (eq_trans (gr_nest _ _ GR4) NE) ltac:(cbn [mk_n]; lia) ltac:(cbn [mk_n]; lia) ltac:(lia) ks s3 ab s4 (g_adj g4) R4').
    - cbn [mk_n]. intros a Ha. apply (gr_new _ _ GR4). lia.
    - rewrite SZ4. exact BK.
    - exact E5. }
  pose proof (ROWS g3 R3 G3 GR) as RW3.
  assert (LA : length ab = length ks) by (clear - RW3; induction RW3; cbn [length]; auto).
  unfold columns. split; [rewrite map_length, seq_length; reflexivity|].
  intros j Hj.
  assert (EC : nth j (map (fun j => map (fun r => nth j r 0) (map (fun p => srow_of o n yS (fst p) (snd p)) ab)) (seq 0 (ode_ns o))) []
     = map (fun r => nth j r 0) (map (fun p => srow_of o n yS (fst p) (snd p)) ab)).
  { rewrite (nth_map_in _ (seq 0 (ode_ns o)) j [] O) by (rewrite seq_length; exact Hj). rewrite seq_nth by exact Hj. reflexivity. }
  assert (EC' : forall X : list R -> Prop, X (map (fun r => nth j r 0) (map (fun p => srow_of o n yS (fst p) (snd p)) ab)) ->
     X (nth j (map (fun j => map (fun r => nth j r 0) (map (fun p => srow_of o n yS (fst p) (snd p)) ab)) (seq 0 (ode_ns o))) [])).
  { intros X HX'. rewrite EC. exact HX'. }
  split; [apply (EC' (fun l => length l = n)); rewrite !map_length; lia|].
  intros i Hi. apply (EC' (fun l => sens_eq (rhs_value q outs t i) y p (nth j yS []) _ (nth i l 0))). clear EC EC'.
  destruct (nth_error ks i) as [k|] eqn:Ki; [|apply nth_error_None in Ki; lia].
  destruct (f2_nth _ _ _ _ _ RW3 Ki) as (aa & Ai & EA & EB).
  assert (Oi : nth_error ke' (nth i outs O) = Some k).
  { clear - FK Ki. revert i Ki. induction FK as [|y0 k0 ys ks E _ IH]; intros [|i] Ki; cbn [nth_error nth] in *; try discriminate; auto. injection Ki as <-. exact E. }
  assert (ER : nth i (map (fun r => nth j r 0) (map (fun p => srow_of o n yS (fst p) (snd p)) ab)) 0 = nth j (srow_of o n yS (fst aa) (snd aa)) 0).
  { apply nth_error_nth.
    exact (map_nth_error (fun r : list R => nth j r 0) i _ (map_nth_error (fun p : list R * list R => srow_of o n yS (fst p) (snd p)) i _ Ai)). }
  (* the derivative with respect to input x of the block *)
  assert (DER : forall x, (x < length xs)%nat -> exists g4, (forall v, tau g4 0 (gsize g + x) k = v -> is_derive (fun u => nth (nth i outs O) (eval (q t) (hold x u 0 xs)) 0) (nth x xs 0) v) /\
     fst aa = map (fun j => tau g4 0 j k) (seq (gsize g) n) /\
     (par_is_var o n = true -> snd aa = map (fun j => tau g4 0 j k) (seq (gsize g + n + n) (par_count o n)))).
  { intros x Hx. destruct (TR x Hx) as (g4 & fs & R4 & G4 & T & GR4 & EV4).
    destruct (Forall2_nth_r _ _ _ _ _ (fun _ => 0) T Oi) as [Hk4 [_ D]].
    exists g4. destruct (f2_nth _ _ _ _ _ (ROWS g4 R4 G4 GR4) Ki) as (aa' & Ai' & EA' & EB').
    assert (aa' = aa) by congruence. subst aa'. split; [|split; [exact EA'|intros X; apply EB'; exact X]].
    intros v <-. eapply deriv_ext; [|exact D]. intros u. cbv beta. pose proof (EV4 u) as EVu. cbn [app] in EVu. rewrite EVu.
    rewrite <- (map_nth (fun c : R -> R => c u) fs (fun _ => 0)). reflexivity. }
  exists (fun l => nth l (fst aa) 0), (if Nat.ltb j (ode_ns o - par_count o n) then 0 else nth (j - (ode_ns o - par_count o n)) (snd aa) 0).
  split; [|split].
  - intros l Hl. destruct (DER l ltac:(lia)) as (g4 & D & EA4 & _).
    assert (EV : tau g4 0 (gsize g + l) k = nth l (fst aa) 0).
    { rewrite EA4. rewrite (nth_map_in _ (seq (gsize g) n) l 0 O) by (rewrite seq_length; lia). rewrite seq_nth by lia. reflexivity. }
    pose proof (D _ EV) as D'. replace (nth l xs 0) with (nth l y 0) in D' by (unfold xs; rewrite app_nth1; auto).
    eapply deriv_ext; [|exact D']. intros u. cbv beta. unfold rhs_value. rewrite hold_len. unfold xs. rewrite hold_first by exact Hl. reflexivity.
  - destruct (Nat.ltb_spec j (ode_ns o - par_count o n)) as [Lj|Lj]; [reflexivity|].
    set (jp := (j - (ode_ns o - par_count o n))%nat).
    assert (Hjp : (jp < par_count o n)%nat) by (unfold jp; lia).
    assert (PV : par_is_var o n = true).
    { unfold par_is_var, par_count in *. destruct (ode_ys o); [|reflexivity]. destruct (Nat.eqb_spec (ode_ns o) n); [lia|reflexivity]. }
    destruct (EB PV) as [LP _].
    destruct (DER (n + n + jp)%nat ltac:(lia)) as (g4 & D & _ & EB4).
    assert (EV : tau g4 0 (gsize g + (n + n + jp)) k = nth jp (snd aa) 0).
    { rewrite (EB4 PV). rewrite (nth_map_in _ (seq (gsize g + n + n) (par_count o n)) jp 0 O) by (rewrite seq_length; lia). rewrite seq_nth by lia. f_equal. lia. }
    pose proof (D _ EV) as D'.
    assert (LR : length (repeat 0 n) = n) by apply repeat_length.
    replace (nth (n + n + jp) xs 0) with (nth jp p 0) in D'.
    2:{ unfold xs. rewrite app_nth2 by (fold n; lia). fold n. rewrite app_nth2 by lia. rewrite LR. f_equal. lia. }
    eapply deriv_ext; [|exact D']. intros u. cbv beta. unfold rhs_value. unfold xs.
    pose proof (hold_last jp u y (repeat 0 n) p) as HL. rewrite LR in HL. fold n in HL. rewrite HL. reflexivity.
  - etransitivity; [exact ER|].
    assert (HjS : (j < length yS)%nat) by (rewrite LS; exact Hj).
    assert (Lv : length (nth j yS []) = n) by (exact (proj1 (Forall_forall _ _) FS _ (nth_In yS [] HjS))).
    assert (ED : nth j (map (fdot (fst aa : list (@F N))) yS) 0 = rsum (map (fun l => nth l (fst aa) 0 * nth l (nth j yS []) 0) (seq 0 n))).
    { rewrite (nth_map_in _ yS j 0 []) by exact HjS. transitivity (rdot (fst aa) (nth j yS [])); [reflexivity|].
      assert (EAA : fst aa = map (fun l => nth l (fst aa) 0) (seq 0 n)).
      { rewrite EA. apply map_nth_self. rewrite map_length, seq_length. reflexivity. }
      rewrite EAA at 1. rewrite (rdot_seq (fun l => nth l (fst aa) 0) (nth j yS []) n 0 Lv). reflexivity. }
    unfold srow_of. destruct (par_is_var o n) eqn:PV.
    + destruct (EB eq_refl) as [LP EB']. 
      assert (LB : length (snd aa) = par_count o n) by (rewrite EB', map_length, seq_length; reflexivity).
      assert (PC : (par_count o n <= ode_ns o)%nat) by (unfold par_count; destruct (ode_ys o); lia).
      etransitivity; [apply (nth_add_from (ode_ns o - par_count o n) (map (fdot (fst aa : list (@F N))) yS) (snd aa) j); rewrite map_length; lia|].
      f_equal. exact ED.
    + assert (PC : par_count o n = O).
      { unfold par_is_var, par_count in *. destruct (ode_ys o); [|discriminate]. destruct (Nat.eqb_spec (ode_ns o) n); [lia|discriminate]. }
      rewrite PC. replace (Nat.ltb j (ode_ns o - 0)) with true by lia. rewrite Rplus_0_r. exact ED.
Qed.

(* ---- grad on an entry of the solution ---- *)
Lemma leaf_eff s (g : graph) k : Rel s g -> (k < gsize g)%nat -> var_operands s (hd k) = Ok [] -> unit_eff g k = [].
Proof.
  intros R0 Hk HO. destruct (nth_error (g_nodes g) k) as [nd|] eqn:E; [|apply nth_error_None in E; unfold gsize in Hk; lia].
  rewrite (rel_var_operands s g k nd R0 E) in HO. unfold unit_eff, effect. cbn [set_gadj g_nodes g_adj g_ch]. rewrite E.
  destruct (n_body nd) as [ops ds|i j a b]; cbn [zops] in HO; [|discriminate HO]. destruct ops; [|discriminate HO].
  destruct (contrib _ _ _ _ _); reflexivity.
Qed.

Lemma part_tau (HJ : exists j, @junk N C = Some j) (g : graph) k (v : R) ks (ps : list R) j : gwf g -> part_node g k v ks ps -> length ps = length ks ->
  (forall i, In i ks -> unit_eff g i = []) -> NoDup ks -> ~ In k ks -> (j < length ks)%nat ->
  tau g 0 (nth j ks O) k = nth j ps 0.
Proof.
  intros W PN HL HE HN HK Hj.
  assert (Hin : In (nth j ks O) ks) by (apply nth_In; exact Hj).
  rewrite tau_rec by (auto; try lia; intros ->; contradiction).
  assert (EU : unit_eff g k = combine ks ps).
  { unfold unit_eff. rewrite (part_effect HJ (set_gadj g (fun _ => 1)) k v ks ps PN HL). cbn [set_gadj g_adj].
    f_equal. clear. induction ps as [|p ps IH]; cbn [map]; auto. f_equal; [apply Rmult_1_l|exact IH]. }
  rewrite EU, lsum_combine.
  assert (TJ : forall i, In i ks -> tau g 0 (nth j ks O) i = if Nat.eqb i (nth j ks O) then 1 else 0).
  { intros i Hi. rewrite tau_eq by exact W. destruct (Nat.eqb i _); auto. cbn [Nat.ltb Nat.leb]. rewrite (HE i Hi). reflexivity. }
  clear - HL HN Hj TJ. set (f := tau g 0 (nth j ks O)) in *. clearbody f. revert ps j HL Hj TJ.
  induction HN as [|a ks Ha HN IH]; intros ps j HL Hj TJ; cbn [length] in *; [lia|]. destruct ps as [|p ps]; [discriminate HL|]. cbn [length] in HL.
  cbn [map]. rewrite rdot_cons. destruct j as [|j]; cbn [nth] in *.
  - rewrite (TJ a) by (left; auto). rewrite Nat.eqb_refl.
    assert (Z0 : forall l, (forall i, In i l -> f i = 0) -> forall ps, rdot ps (map f l) = 0).
    { induction l as [|x l IHl]; intros HZ ps0; [destruct ps0; reflexivity|]. destruct ps0 as [|p0 ps0]; [reflexivity|]. cbn [map]. rewrite rdot_cons, IHl, (HZ x) by (try (left; auto); intros; apply HZ; right; auto). rring. }
    rewrite Z0; [rring|]. intros i Hi. rewrite (TJ i) by (right; auto). replace (Nat.eqb i a) with false; auto. symmetry. apply Nat.eqb_neq. intros ->. contradiction.
  - rewrite (TJ a) by (left; auto). replace (Nat.eqb a (nth j ks O)) with false.
    2:{ symmetry. apply Nat.eqb_neq. intros ->. apply Ha. apply nth_In. lia. }
    assert (HH : rdot ps (map f ks) = nth j ps 0) by (apply (IH ps j); [lia|lia|]; intros i Hi; apply TJ; right; auto).
    rewrite HH. rring.
Qed.

Lemma drive_real s (o : @cvs_rhs N) q outs ops (p : list R) (par : nat -> option nat) n S0 nout yt s' : @practical N C -> (@valid N C s) -> Forall (alive s) ops ->
  ode_f o = rhs_prog q outs -> length outs = n -> ode_ns o = length ops -> par_vals o n = p ->
  (forall j, par j = if Nat.ltb j (ode_ns o - par_count o n) then None else Some (j - (ode_ns o - par_count o n))%nat) ->
  @asks N (fun t y => prog_dom (q t) (y ++ repeat 0 n ++ p) /\ mat_free (q t)) n (length ops) S0 -> drive o ops nout S0 s = Ok (yt, s') ->
  exists l, @delivers N (sens_answer q outs p par) nout S0 l /\ length yt = nout /\ solution s s' ops n l yt /\
    (forall z, alive s z -> alive s' z /\ var_val s' z = var_val s z /\ var_adj s' z = var_adj s z) /\
    (NoDup ops -> Forall (fun z => var_operands s z = Ok []) ops ->
     forall k hs y yS i h, nth_error yt k = Some hs -> nth_error l k = Some (y, yS) -> nth_error hs i = Some h ->
       gradient_is s' h ops (map (fun v => nth i v 0) yS)).
Proof.
  intros HP HV HA EF LO LN EP EPAR HK HX. pose proof HP as [HC HJ].
  set (D := fun t y => prog_dom (q t) (y ++ repeat 0 n ++ p) /\ mat_free (q t)) in *.
  assert (HO : forall t y, D t y -> prog_ok' (q t) /\ mat_free (q t)).
  { intros t y [H1 H2]. split; auto. eapply prog_dom_ok; eauto. }
  assert (HS : forall t y yS s r s', D t y -> length y = n -> length yS = length ops -> Forall (fun v => length v = n) yS -> valid s ->
     set_sens_rhs (t : @F N) y yS o s = Ok (r, s') -> sens_answer q outs p par t y yS r).
  { intros t y yS s0 r s2 [HD _] Ly LS FS (g0 & R0 & G0) E.
    assert (LyR : @length R y = n) by exact Ly.
    assert (HD' : prog_dom (q t) (y ++ repeat 0 (@length R y) ++ par_vals o (@length R y))).
    { rewrite LyR, EP. exact HD. }
    assert (FS' : Forall (fun v => length v = length y) yS) by (rewrite LyR; exact FS).
    destruct (sens_rhs_ok s0 o q outs t y yS r s2 HP (ex_intro _ g0 (conj R0 (good_sound g0 G0))) EF (eq_trans LO (eq_sym Ly)) (eq_trans LS (eq_sym LN)) FS' HD' E) as [Q1 Q2].
    assert (LSN : @length (list R) yS = ode_ns o) by (exact (eq_trans LS (eq_sym LN))).
    split; [rewrite LSN; exact Q1|]. intros j Hj. rewrite LSN in Hj. destruct (Q2 j Hj) as [Q3 Q4]. split; auto.
    intros i Hi. specialize (Q4 i Hi). rewrite LyR, EP in Q4. rewrite EPAR. exact Q4. }
  destruct (drive_full s o q outs ops (sens_answer q outs p par) D n S0 nout yt s' HP HV HA EF LO LN HO HS HK HX)
    as (l & Q1 & Q2 & _ & Q3 & g & g' & ks & R0 & R1 & G1 & GR & EK & HB & FF).
  exists l. split; auto. split; [rewrite (proj1 Q2); eapply delivers_len; eauto|]. split; auto. split; auto.
  intros ND LF k hs y yS i h Hk Hl Hi. destruct (f2_nth _ _ _ _ _ FF Hl) as (hs' & Hk' & B1 & B2 & B3 & B4).
  assert (hs' = hs) by congruence. subst hs'. cbn [fst snd] in *. destruct (B4 i h Hi) as (k1 & -> & Hk1 & PN).
  destruct (part_gval _ _ _ _ _ PN) as [_ Lk].
  destruct (reset_grad HJ s' g' k1 R1 (good_sound g' G1) Lk) as (s1 & s2 & E1 & E2 & HT).
  exists s1, s2. split; auto. split; auto. subst ops.
  pose proof (grows_size _ _ GR) as SG.
  assert (HB' : Forall (fun a => (a < gsize g')%nat) ks) by (eapply Forall_impl; [|exact HB]; cbv beta; intros; lia).
  assert (EM : mapM (var_adj s2) (map hd ks) = Ok (map (fun j => tau g' 0 j k1) ks)).
  { clear - HT HB'. induction HB' as [|a ks Ha _ IH]; cbn [map mapM]; auto. rewrite (HT a Ha). cbn [bind]. rewrite IH. reflexivity. }
  assert (EQ : map (fun j => tau g' 0 j k1) ks = map (fun v => nth i v 0) yS); [|rewrite <- EQ; exact EM].
  apply (nth_ext _ _ 0 0); [rewrite !map_length; symmetry; exact B3|]. intros j Hj. rewrite map_length in Hj.
  rewrite (nth_map_in _ ks j 0 O Hj).
  apply (part_tau HJ g' k1 (nth i y 0) ks (map (fun v => nth i v 0) yS) j (r_wf _ _ R1) PN); auto.
  - rewrite map_length. exact B3.
  - intros a Ha. rewrite Forall_forall in HB, LF. specialize (HB a Ha). rewrite (grows_unit_eff g g' a (r_wf _ _ R0) GR HB).
    apply (leaf_eff s g a R0 HB). apply LF. apply in_map. exact Ha.
  - eapply NoDup_map_inv; eauto.
  - intros Hin. rewrite Forall_forall in HB. specialize (HB _ Hin). cbv beta in HB. lia.
Qed.

(* ---- the procedures of the API ---- *)
Theorem sens_initial s q outs t (y : list R) yS r s' : @practical N C -> (exists g : graph, Rel s g /\ sound g) ->
  length outs = length y -> length yS = length y -> Forall (fun v => length v = length y) yS ->
  prog_dom (q t) (y ++ repeat 0 (length y)) ->
  set_sens_rhs (t : @F N) (y : list (@F N)) yS (mkRhs true (length y) [] (rhs_prog q outs)) s = Ok (r, s') ->
  sens_answer q outs [] (fun _ => None) t y yS r.
Proof.
  intros HP HG LO LS FS HD E. set (o := mkRhs true (length y) [] (rhs_prog q outs)) in *.
  assert (EP : par_vals o (length y) = []) by (unfold par_vals; destruct (par_is_var _ _); reflexivity).
  destruct (sens_rhs_ok s o q outs t y yS r s' HP HG eq_refl LO LS FS ltac:(rewrite EP, app_nil_r; exact HD) E) as [Q1 Q2].
  assert (LS' : @length (list R) yS = length y) by exact LS.
  split; [rewrite LS'; exact Q1|]. intros j Hj. rewrite LS' in Hj. destruct (Q2 j Hj) as [Q3 Q4]. split; [exact Q3|]. intros i Hi.
  specialize (Q4 i Hi). rewrite EP in Q4. cbn [o ode_ns ode_ys par_count] in Q4. rewrite Nat.sub_diag, Nat.sub_0_r in Q4.
  replace (Nat.ltb j (length y)) with true in Q4 by lia. exact Q4.
Qed.

Theorem sens_parameters s q outs t (y p : list R) yS r s' : @practical N C -> (exists g : graph, Rel s g /\ sound g) ->
  length outs = length y -> length yS = length p -> Forall (fun v => length v = length y) yS ->
  prog_dom (q t) (y ++ repeat 0 (length y) ++ p) ->
  set_sens_rhs (t : @F N) (y : list (@F N)) yS (mkRhs false (length p) (p : list (@F N)) (rhs_prog q outs)) s = Ok (r, s') ->
  sens_answer q outs p (fun j => Some j) t y yS r.
Proof.
  intros HP HG LO LS FS HD E. set (o := mkRhs false (length p) (p : list (@F N)) (rhs_prog q outs)) in *.
  assert (EP : par_vals o (length y) = p) by reflexivity.
  destruct (sens_rhs_ok s o q outs t y yS r s' HP HG eq_refl LO LS FS ltac:(rewrite EP; exact HD) E) as [Q1 Q2].
  assert (LS' : @length (list R) yS = length p) by exact LS.
  split; [rewrite LS'; exact Q1|]. intros j Hj. rewrite LS' in Hj. destruct (Q2 j Hj) as [Q3 Q4]. split; [exact Q3|]. intros i Hi.
  specialize (Q4 i Hi). rewrite EP in Q4. cbn [o ode_ns ode_ys par_count] in Q4. rewrite Nat.sub_diag, Nat.sub_0_r in Q4. exact Q4.
Qed.

Theorem y0_real s y (v : list R) q outs nout (S0 : @integrator N) yt s' : @practical N C -> @valid N C s -> Forall (alive s) y -> mapM (var_val s) y = Ok v ->
  length outs = length y ->
  @asks N (fun t u => prog_dom (q t) (u ++ repeat 0 (length y)) /\ mat_free (q t)) (length y) (length y) (S0 v (unit_vectors (length y))) ->
  cvodes_sol_y0_sens y nout (rhs_prog q outs) S0 s = Ok (yt, s') ->
  exists l, @delivers N (sens_answer q outs [] (fun _ => None)) nout (S0 v (unit_vectors (length y))) l /\ length yt = nout /\ solution s s' y (length y) l yt /\
    (forall z, alive s z -> alive s' z /\ var_val s' z = var_val s z /\ var_adj s' z = var_adj s z) /\
    (NoDup y -> Forall (fun z => var_operands s z = Ok []) y ->
     forall k hs u uS i h, nth_error yt k = Some hs -> nth_error l k = Some (u, uS) -> nth_error hs i = Some h ->
       gradient_is s' h y (map (fun w => nth i w 0) uS)).
Proof.
  intros HP HV HA EW LO HK HX. unfold cvodes_sol_y0_sens, mbind in HX.
  destruct (vvals y s) as [[v' s1]| | |] eqn:E1; try discriminate. cbn [bind] in HX. destruct (vvals_inv _ _ _ _ E1) as [-> EV].
  assert (v' = v) by congruence. subst v'. rewrite init_unit in HX.
  set (o := mkRhs true (length y) [] (rhs_prog q outs)) in *.
  assert (EP : par_vals o (length y) = []) by (unfold par_vals; destruct (par_is_var _ _); reflexivity).
  destruct (drive_real s o q outs y [] (fun j => if Nat.ltb j (length y) then None else Some (j - length y)%nat) (length y)
    (S0 v (unit_vectors (length y))) nout yt s' HP HV HA eq_refl LO eq_refl EP) as (l & Q1 & Q2); auto.
  - intros j. cbn [o ode_ns ode_ys par_count]. rewrite Nat.sub_diag, Nat.sub_0_r. reflexivity.
  - clear - HK. revert HK. generalize (S0 v (unit_vectors (length y))). induction s as [|t u uS k IH|u uS p IH]; cbn [asks]; auto.
    + rewrite app_nil_r. intros (H1 & H2 & H3 & H4). auto.
    + intros (H1 & H2 & H3). auto.
  - exists l. split; auto.
    assert (LL : @asks N (fun t u => prog_dom (q t) (u ++ repeat 0 (length y)) /\ mat_free (q t)) (length y) (length y) (S0 v (unit_vectors (length y)))) by exact HK.
    clear - Q1 LL. induction Q1 as [|n0 u uS p l Q1 IH|n0 t u uS k r l HA Q1 IH]; [constructor|constructor; apply IH; apply LL|].
    cbn [asks] in LL. destruct LL as (_ & L1 & (L2 & L2') & L3).
    assert (FR : length r = length y /\ Forall (fun v => length v = length y) r).
    { destruct HA as [A1 A2]. split; [exact (eq_trans A1 L2)|]. apply Forall_forall. intros w Hw. destruct (In_nth r w [] Hw) as (j & Hj & <-).
      rewrite <- L1. apply (A2 j). rewrite <- A1. exact Hj. }
    constructor 3 with (r := r); [|apply IH; apply L3; exact FR].
    destruct HA as [A1 A2]. split; auto. intros j Hj. destruct (A2 j Hj) as [A3 A4]. split; auto. intros i Hi. specialize (A4 i Hi).
    assert (Hj' : (j < length y)%nat) by (rewrite <- L2; exact Hj). replace (Nat.ltb j (length y)) with true in A4 by lia. exact A4.
Qed.

Theorem par_real s (y : list R) param (v : list R) q outs nout (S0 : @integrator N) yt s' : @practical N C -> @valid N C s -> Forall (alive s) param -> mapM (var_val s) param = Ok v ->
  length outs = length y ->
  @asks N (fun t u => prog_dom (q t) (u ++ repeat 0 (length y) ++ v) /\ mat_free (q t)) (length y) (length param) (S0 y (zero_vectors (length param) (length y))) ->
  cvodes_sol_par_sens (y : list (@F N)) param nout (rhs_prog q outs) S0 s = Ok (yt, s') ->
  exists l, @delivers N (sens_answer q outs v (fun j => Some j)) nout (S0 y (zero_vectors (length param) (length y))) l /\ length yt = nout /\ solution s s' param (length y) l yt /\
    (forall z, alive s z -> alive s' z /\ var_val s' z = var_val s z /\ var_adj s' z = var_adj s z) /\
    (NoDup param -> Forall (fun z => var_operands s z = Ok []) param ->
     forall k hs u uS i h, nth_error yt k = Some hs -> nth_error l k = Some (u, uS) -> nth_error hs i = Some h ->
       gradient_is s' h param (map (fun w => nth i w 0) uS)).
Proof.
  intros HP HV HA EW LO HK HX. unfold cvodes_sol_par_sens, mbind in HX.
  destruct (vvals param s) as [[v' s1]| | |] eqn:E1; try discriminate. cbn [bind] in HX. destruct (vvals_inv _ _ _ _ E1) as [-> EV].
  assert (v' = v) by congruence. subst v'. rewrite init_zero in HX.
  set (o := mkRhs false (length param) (v : list (@F N)) (rhs_prog q outs)) in *.
  apply (drive_real s o q outs param v (fun j => Some j) (length y) _ nout yt s' HP HV HA eq_refl LO eq_refl eq_refl); auto.
  intros j. cbn [o ode_ns ode_ys par_count]. rewrite Nat.sub_diag, Nat.sub_0_r. reflexivity.
Qed.

(* ---- calc_jac_yvar ---- *)
Lemma jac_rows (HJ : exists j, @junk N C = Some j) (g4 : graph) m r n : sound g4 -> g_nest g4 = m :: r -> (mk_n m + n <= gsize g4)%nat ->
  forall ks s rows s' f, Rel s (set_gadj g4 f) -> Forall (fun k => (k < gsize g4)%nat) ks ->
  mmap (fun fi => _ <~ set_zero_nested_adj ;; _ <~ grad_nested fi ;; vadjs (map hd (seq (mk_n m) n))) (map hd ks) s = Ok (rows, s') ->
  Forall2 (fun k (row : list R) => row = map (fun j => tau g4 0 j k) (seq (mk_n m) n)) ks rows.
Proof.
  intros HG HN B1. induction ks as [|k ks IH]; intros s rows s' f R0 HB HX; cbn [map mmap] in HX.
  - unfold mret in HX. assert (rows = []) by congruence. subst. constructor.
  - inversion HB as [|? ? Hk HB']; subst. unfold mbind at 1 2 3 in HX.
    destruct (zero_nested_ok s _ m r R0 HN) as (s1 & E1 & R1). rewrite E1 in HX. cbn [bind] in HX.
    set (f1 := fun i => if (Nat.leb (mk_n m) i && Nat.ltb i (gsize g4))%bool then 0 else f i).
    assert (R1' : Rel s1 (set_gadj g4 f1)) by exact R1.
    assert (HG' : sound (set_gadj g4 f1)) by (apply zero_adj_sound; exact HG).
    destruct (nested_step HJ s1 (set_gadj g4 f1) m r k R1' HG' HN Hk) as (s2 & f2 & E2 & R2 & ES).
    assert (HZ : forall i, (mk_n m <= i < gsize (set_gadj g4 f1))%nat -> g_adj (set_gadj g4 f1) i = 0).
    { intros i Hi. cbn [set_gadj g_adj]. unfold f1. change (gsize (set_gadj g4 f1)) with (gsize g4) in Hi.
      replace (Nat.leb (mk_n m) i && Nat.ltb i (gsize g4))%bool with true by lia. reflexivity. }
    pose proof (nested_tau HJ s1 (set_gadj g4 f1) m r k f2 R1' HG' HN Hk HZ ES) as HF.
    rewrite E2 in HX. cbn [bind] in HX.
    assert (R2' : Rel s2 (set_gadj g4 f2)) by exact R2.
    assert (EM : mapM (var_adj s2) (map hd (seq (mk_n m) n)) = Ok (map f2 (seq (mk_n m) n))).
    { apply (adjs_nodes s2 g4 f2 _ R2'). apply Forall_forall. intros a Ha. apply in_seq in Ha. lia. }
    unfold vadjs at 1, mget at 1 in HX. rewrite EM in HX. cbn [bind] in HX. unfold mbind at 1 in HX.
    destruct (mmap _ (map hd ks) s2) as [[t s3]| | |] eqn:E3; try discriminate. cbn [bind] in HX. unfold mret in HX.
    assert (ER : rows = map f2 (seq (mk_n m) n) :: t) by congruence. rewrite ER. constructor.
    + apply map_ext_in. intros j Hj. apply in_seq in Hj. rewrite (HF j) by (change (gsize (set_gadj g4 f1)) with (gsize g4); lia). apply tau_zero_adj.
    + apply (IH s2 t s3 f2 R2' HB' E3).
Qed.

Lemma nth_concat (n : nat) (ll : list (list R)) : Forall (fun l => length l = n) ll -> length (concat ll) = (length ll * n)%nat /\
  forall l i, (l < length ll)%nat -> (i < n)%nat -> nth (l * n + i) (concat ll) 0 = nth i (nth l ll []) 0.
Proof.
  induction 1 as [|a ll Ha _ [IH1 IH2]]; [split; auto; intros; cbn [length] in *; lia|]. cbn [concat length]. split; [rewrite app_length; lia|].
  intros [|l] i Hl Hi; cbn [nth Nat.mul Nat.add]; [rewrite app_nth1 by lia; reflexivity|].
  rewrite app_nth2 by lia. replace (n + l * n + i - length a)%nat with (l * n + i)%nat by lia. apply IH2; lia.
Qed.

Theorem jac_yvar_ok s (o : @cvs_rhs N) q outs t (y : list R) jac s' : @practical N C -> (exists g : graph, Rel s g /\ sound g) ->
  ode_f o = rhs_prog q outs -> length outs = length y -> prog_dom (q t) (y ++ repeat 0 (length y)) ->
  calc_jac_yvar (t : @F N) (y : list (@F N)) o s = Ok (jac, s') ->
  length jac = (length y * length y)%nat /\ forall i l, (i < length y)%nat -> (l < length y)%nat ->
    is_derive (fun u => rhs_value q outs t i (hold l u 0 y) []) (nth l y 0) (nth (l * length y + i) jac 0).
Proof.
  intros HP (g & R0 & HG) EF LO HD HX. pose proof HP as [HC HJ]. unfold calc_jac_yvar, mbind in HX.
  destruct (begin_nested s) as [[[] s1]| | |] eqn:E1; try discriminate. cbn [bind] in HX.
  destruct (@new_var_vals N C (y : list (@F N)) s1) as [[yv sa]| | |] eqn:EY0; try discriminate. cbn [bind] in HX.
  destruct (@new_var_vals N C (repeat f0 (@length (@F N) y)) sa) as [[fv s2]| | |] eqn:EF0; try discriminate. cbn [bind] in HX.
  rewrite EF in HX. destruct (rhs_prog q outs (t : @F N) yv fv [] s2) as [[hs s3]| | |] eqn:E3; try discriminate. cbn [bind] in HX.
  pose proof (new_vals_app _ _ _ _ _ _ _ EY0 EF0) as E2. unfold rhs_prog, mbind in E3.
  destruct (exec (q t) (yv ++ fv ++ []) s2) as [[env' s3']| | |] eqn:EX; try discriminate. cbn [bind] in E3.
  destruct (regs_inv _ _ _ _ _ E3) as [-> E4]. rewrite app_nil_r in EX.
  destruct (mmap _ hs s3) as [[rows s4]| | |] eqn:E5; try discriminate. cbn [bind] in HX.
  destruct (end_nested s4) as [[[] s5]| | |] eqn:E6; try discriminate. cbn [bind] in HX. unfold mret in HX.
  assert (EJ : jac = concat (columns (@length (@F N) y) rows)) by (clear - HX; congruence). clear HX.
  set (n := @length R y) in *. change (@length (@F N) y) with n in *.
  set (xs := y ++ repeat 0 n) in *.
  destruct (block_body s g [] [] xs (q t) s1 (yv ++ fv) s2 env' s3 HP R0 HG (Forall_nil _) eq_refl HD E1 E2 EX)
    as (g1 & g3 & ke' & R1 & AB & GR & R3 & G3 & EXV & -> & SZ & B3 & EVV & TR).
  destruct (sound_begin g g1 HG AB) as (G1 & SZ1 & VV & AV & NE).
  assert (LX : length xs = (n + n)%nat) by (unfold xs; rewrite !app_length, repeat_length; reflexivity).
  assert (SZ' : (gsize g + (n + n) <= gsize g3)%nat) by (rewrite <- LX; exact SZ).
  destruct (cut_seq _ _ _ _ EXV) as (EY & _ & _).
  assert (L1 : length yv = n) by exact (new_vals_len _ _ _ _ EY0). rewrite L1 in EY.
  assert (FK : exists ks, hs = map hd ks /\ Forall2 (fun y k => nth_error ke' y = Some k) outs ks).
  { clear - E4. induction E4 as [|y0 h ys hs E _ (ks & -> & IH)]; [exists []; split; auto|].
    rewrite nth_error_map in E. destruct (nth_error ke' y0) as [k|] eqn:Ek; [|discriminate]. cbn [option_map] in E.
    exists (k :: ks). split; [cbn [map]; congruence|]. constructor; auto. }
  destruct FK as (ks & -> & FK).
  assert (BK : Forall (fun k => (k < gsize g3)%nat) ks).
  { clear - FK B3. induction FK as [|y0 k ys ks E _ IH]; constructor; auto. rewrite Forall_forall in B3. apply B3. eapply nth_error_In; eauto. }
  assert (LK : length ks = n) by (rewrite <- LO; clear - FK; induction FK; cbn [length]; auto).
  assert (ROWS : forall g4, Rel s3 g4 -> sound g4 -> grows g1 g4 ->
     Forall2 (fun k (row : list R) => row = map (fun j => tau g4 0 j k) (seq (gsize g) n)) ks rows).
  { intros g4 R4 G4 GR4. pose proof (r_head _ _ R3) as H3. pose proof (r_head _ _ R4) as H4.
    assert (SZ4 : gsize g4 = gsize g3) by lia.
    assert (R4' : Rel s3 (set_gadj g4 (g_adj g4))) by (destruct g4; exact R4).
    rewrite EY in E5.
    apply (jac_rows HJ g4 (mkMark (gsize g) (length (g_arrs g)) (g_top g)) (g_nest g) n G4
      (eq_trans (gr_nest _ _ GR4) NE) ltac:(cbn [mk_n]; lia) ks s3 rows s4 (g_adj g4) R4').
    - rewrite SZ4. exact BK.
    - exact E5. }
  pose proof (ROWS g3 R3 G3 GR) as RW3.
  assert (LR : length rows = n) by (rewrite <- LK; clear - RW3; induction RW3; cbn [length]; auto).
  set (cols := map (fun j => map (fun r : list R => nth j r 0) rows) (seq 0 n)).
  assert (EJ' : jac = concat cols) by exact EJ. clear EJ.
  assert (FC : Forall (fun l : list R => length l = n) cols).
  { unfold cols. apply Forall_forall. intros c Hc. apply in_map_iff in Hc. destruct Hc as (j & <- & _). rewrite map_length. exact LR. }
  assert (LC : length cols = n) by (unfold cols; rewrite map_length, seq_length; reflexivity).
  destruct (nth_concat n cols FC) as [NC1 NC2]. rewrite LC in NC1. rewrite EJ'. split; [exact NC1|].
  intros i l Hi Hl. change (is_derive (fun u : R => rhs_value q outs t i (hold l u 0 y) []) (nth l y 0) (@nth R (l * n + i) (concat cols) 0)).
  rewrite (NC2 l i) by (rewrite ?LC; assumption).
  assert (EC : nth i (nth l cols []) 0 = nth l (nth i rows []) 0).
  { unfold cols. rewrite (nth_map_in _ (seq 0 n) l [] O) by (rewrite seq_length; exact Hl). rewrite seq_nth by exact Hl.
    rewrite (nth_map_in _ rows i 0 []) by (rewrite LR; exact Hi). reflexivity. }
  rewrite EC.
  destruct (nth_error ks i) as [k|] eqn:Ki; [|apply nth_error_None in Ki; lia].
  assert (Oi : nth_error ke' (nth i outs O) = Some k).
  { clear - FK Ki. revert i Ki. induction FK as [|y0 k0 ys ks E _ IH]; intros [|i] Ki; cbn [nth_error nth] in *; try discriminate; auto. injection Ki as <-. exact E. }
  assert (Hlx : (l < length xs)%nat) by lia.
  destruct (TR l Hlx) as (g4 & fs & R4 & G4 & T & GR4 & EV4).
  destruct (Forall2_nth_r _ _ _ _ _ (fun _ => 0) T Oi) as [Hk4 [_ D]].
  destruct (f2_nth _ _ _ _ _ (ROWS g4 R4 G4 GR4) Ki) as (row & Ri & Er).
  assert (EN : @nth R l (@nth (list R) i rows []) 0 = tau g4 0 (gsize g + l) k).
  { transitivity (@nth R l row 0); [f_equal; exact (nth_error_nth _ _ [] Ri)|]. rewrite Er.
    rewrite (nth_map_in _ (seq (gsize g) n) l 0 O) by (rewrite seq_length; lia). rewrite seq_nth by lia. reflexivity. }
  apply (eq_ind (tau g4 0 (gsize g + l) k) (fun d : R => is_derive (fun u : R => rhs_value q outs t i (hold l u 0 y) []) (nth l y 0) d)); [|symmetry; exact EN].
  assert (EL : @nth R l xs 0 = nth l y 0) by (unfold xs; apply app_nth1; exact Hl).
  assert (D' : is_derive (nth (nth i outs 0%nat) fs (fun _ : R => 0)) (nth l y 0) (tau g4 0 (gsize g + l) k)) by (rewrite <- EL; exact D).
  eapply deriv_ext; [|exact D']. intros u. cbv beta. pose proof (EV4 u) as EVu. cbn [app] in EVu. unfold rhs_value. rewrite hold_len, app_nil_r.
  pose proof (hold_first l u y (repeat 0 n) [] Hl) as HH. rewrite !app_nil_r in HH. fold xs in HH. fold n. rewrite <- HH, EVu.
  rewrite <- (map_nth (fun c : R -> R => c u) fs (fun _ => 0)). reflexivity.
Qed.
End ClaimsCvodes.

(* ---- C48 ---- *)
Theorem par_size {N : Num} {C : Cfg N} t y yS (o : cvs_rhs) s r : par_is_var o (length y) = true -> length (ode_pval o) <> 3%nat ->
  set_sens_rhs t y yS o s <> Ok r.
Proof.
  intros HP HL HX. unfold set_sens_rhs, mbind in HX. destruct (begin_nested s) as [[[] s1]| | |]; try discriminate. cbn [bind] in HX.
  unfold sens_body, mbind in HX. destruct (new_var_vals y s1) as [[a s2]| | |]; try discriminate. cbn [bind] in HX.
  destruct (new_var_vals (repeat f0 (length y)) s2) as [[b s3]| | |]; try discriminate. cbn [bind] in HX.
  rewrite HP in HX. destruct (Nat.eqb_spec (length (ode_pval o)) pvar_size) as [E|E]; [apply HL; exact E|discriminate].
Qed.

Lemma vals_length {N : Num} (s : st) (xs : list Z) w : mapM (var_val s) xs = Ok w -> length w = length xs.
Proof.
  revert w. induction xs as [|x xs IH]; intros w; cbn [mapM]; [intros H; assert (w = []) by congruence; subst; reflexivity|].
  destruct (var_val s x); cbn [bind]; try discriminate. destruct (mapM (var_val s) xs); cbn [bind]; try discriminate.
  intros H. assert (w = a :: a0) by congruence. subst. cbn [length]. f_equal. auto.
Qed.

Theorem par_sens_size {N : Num} {C : Cfg N} y param nout f (S0 : integrator) t u uS k s r : length param <> 3%nat ->
  S0 y (zero_vectors (length param) (length y)) = Callback t u uS k ->
  cvodes_sol_par_sens y param (S nout) f S0 s <> Ok r.
Proof.
  intros HL HS HX. unfold cvodes_sol_par_sens, mbind in HX. destruct (vvals param s) as [[v s1]| | |] eqn:E1; try discriminate. cbn [bind] in HX.
  destruct (vvals_inv _ _ _ _ E1) as [-> EV]. rewrite init_zero, HS in HX. cbn [drive] in HX. unfold mbind in HX.
  destruct (set_sens_rhs t u uS (mkRhs false (length param) v f) s) as [q| | |] eqn:E2; try discriminate.
  apply (par_size t u uS (mkRhs false (length param) v f) s q) in E2; auto. cbn [ode_pval]. rewrite (vals_length s param v EV). exact HL.
Qed.
