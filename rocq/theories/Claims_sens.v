(* Lemmas behind the exact parts of C46 and C47. *)
From Verif Require Import TapeFacts.
From Coq Require Import ZifyBool ZifyNat.
From Verif Require Export CvodesDrive SensSpec Claims_again.
Local Open Scope nat_scope.
Local Notation hd := Refine.hd.

Section Sens.
Context {N : Num} {RL : RepLaws N} {C : Cfg N}.

(* ---- grad_nested in a block ---- *)
Lemma nested_lines (HJ : exists j, junk = Some j) b s g t y aa tt0 r : Rel s g -> sound g -> lined [] b g t -> g_nest g = mkMark b aa tt0 :: r ->
  (forall k, b <= k < gsize g -> g_adj g k = f0) -> y < length t ->
  exists s2 a, grad_nested (hd (place [] b y)) s = Ok (tt, s2) /\ Rel s2 (set_gadj g a) /\
    (forall i, i < length t -> a (place [] b i) = reverse t (seed y) i) /\ (forall k, k < b -> a k = g_adj g k).
Proof.
  intros R0 HG L HN HZ Hy. pose proof (place_lt [] b g t y L Hy) as Hk. set (k := place [] b y) in *.
  pose proof (ln_len _ _ _ _ L) as LL. pose proof (ln_b _ _ _ _ L) as LB. cbn [length] in LL.
  destruct (sound_sweep HJ g HG (gsize g - b) b ltac:(lia) (nupd (g_adj g) k f1)) as (g2 & E2).
  assert (EG : agrad_nested k g = Some g2).
  { unfold agrad_nested. rewrite HN. cbn [mk_n]. replace (Nat.ltb k (gsize g)) with true by lia. exact E2. }
  destruct (grad_nested_ok s g k g2 R0 EG) as (s2 & E3 & R2). pose proof (asweep_form _ _ _ _ E2) as [a ->].
  change (Rel s2 (set_gadj g a)) in R2. exists s2, a. split; auto. split; auto. split.
  - intros i Hi. set (f' := fun j => if j <? gsize g then nupd (g_adj g) k f1 j else f0).
    destruct (sound_sweep HJ g HG (gsize g - b) b ltac:(lia) f') as (g3 & E3').
    assert (EA : a (place [] b i) = g_adj g3 (place [] b i)).
    { change (a (place [] b i)) with (g_adj (set_gadj (set_gadj g (nupd (g_adj g) k f1)) a) (place [] b i)).
      apply (tops_agree [] b g g t L L (gsize g - b) (nupd (g_adj g) k f1) f' _ g3 (le_n _)); auto; [|eapply place_lt; eauto].
      intros j Hj. unfold f'. replace (j <? gsize g) with true by lia. reflexivity. }
    rewrite EA. symmetry. unfold reverse. rewrite LL. cbn [Nat.add].
    apply (sweep_lines [] b g t L (gsize g - b) f' (seed y) g3 (le_n _)); auto; [|cbn [length]; lia].
    intros i' Hi'. unfold f', seed, nupd, k. rewrite (place_eq [] b i' y (ln_ke _ _ _ _ L) Hi').
    rewrite (place_new [] b i') by auto. destruct (Nat.eqb_spec i' y) as [->|].
    + unfold k in Hk. rewrite (place_new [] b y) in Hk by (cbn [length]; lia). replace (b + (y - length (@nil nat)) <? gsize g) with true by lia. reflexivity.
    + destruct (Nat.ltb_spec (b + (i' - length (@nil nat))) (gsize g)); [|reflexivity]. symmetry. apply HZ. cbn [length] in *. lia.
  - intros j Hj. assert (Q : forall n (f : nat -> F) h, n <= gsize g - b -> asweep b n (set_gadj g f) = Some h -> g_adj h j = f j).
    { clear - L Hj LL. induction n as [|n IH]; intros f h Hn E; cbn [asweep] in E; [injection E as <-; reflexivity|].
      pose proof (ln_in _ _ _ _ L n f ltac:(cbn [length]; lia)) as EE. rewrite place_new in EE by (cbn [length]; lia).
      replace (b + (n - length (@nil nat))) with (b + n) in EE by (cbn [length]; lia). rewrite EE in E.
      rewrite (IH _ h ltac:(lia) E). cbn [set_gadj g_adj]. apply apply_other_any. apply Forall_forall. intros [i c] Hi. unfold sh in Hi.
      apply in_map_iff in Hi. destruct Hi as ([i0 c0] & Ei & _). injection Ei as <- <-. cbn [fst]. rewrite place_new by (cbn [length]; lia). lia. }
    change (a j) with (g_adj (set_gadj (set_gadj g (nupd (g_adj g) k f1)) a) j). rewrite (Q _ _ _ (le_n _) E2). unfold nupd.
    destruct (Nat.eqb_spec j k) as [->|]; auto. exfalso. unfold k in Hj. rewrite place_new in Hj by (cbn [length]; lia). lia.
Qed.

Lemma reach_grad_nested e s h s' : reachable e s -> In h e -> alive s h -> (1 <= s_lvl s)%Z -> grad_nested h s = Ok (tt, s') -> reachable e s'.
Proof.
  intros HR HI HA HL HX. destruct (in_has_reg e s h HI HA) as (r & E & HH). rewrite <- (app_nil_r e).
  apply (reach_cmd e s (CGradNested r) [] [] s' HR (conj HH HL)). cbn [exec_cmd]. unfold reg. rewrite E. unfold quiet, mbind, mret. cbn [bind]. rewrite HX. reflexivity.
Qed.

(* ---- the loop of set_sens_rhs ---- *)
Definition in_pars (o : cvs_rhs) (n np : nat) : Prop := par_is_var o n = true -> par_count o n <= np.

Lemma adjs_lines b s g a t f l : Rel s (set_gadj g a) -> lined [] b g t -> Forall (fun y => y < length t) l ->
  (forall i, i < length t -> a (place [] b i) = f i) -> vadjs (map hd (map (place [] b) l)) s = Ok (map f l, s).
Proof.
  intros R0 L HB HA. unfold vadjs, mget. rewrite (live_adjs s _ _ R0 (lines_bound [] b g t l L HB)). cbn [bind]. do 2 f_equal.
  cbn [set_gadj g_adj]. rewrite map_map. apply map_ext_in. intros i Hi. rewrite Forall_forall in HB. apply HA. apply HB. exact Hi.
Qed.

Lemma sens_rows (HJ : exists j, junk = Some j) b (g : graph) t aa tt0 r (o : cvs_rhs) n np yS : sound g -> lined [] b g t -> g_nest g = mkMark b aa tt0 :: r ->
  2 * n + np <= length t -> in_pars o n np ->
  let yv := map hd (map (place [] b) (seq 0 n)) in let pv := map hd (map (place [] b) (seq (2 * n) np)) in
  forall ys s f, Rel s (set_gadj g f) -> (forall k, b <= k < gsize g -> f k = f0) -> Forall (fun y => y < length t) ys ->
  exists s' f', mmap (sens_row o n yv pv yS) (map hd (map (place [] b) ys)) s =
      Ok (map (fun y => srow_of o n yS (map (reverse t (seed y)) (seq 0 n)) (map (reverse t (seed y)) (seq (2 * n) (par_count o n)))) ys, s') /\
    Rel s' (set_gadj g f') /\ (forall k, b <= k < gsize g -> f' k = f0) /\ (forall k, k < b -> f' k = f k) /\
    forall e, reachable e s -> incl (map hd (map (place [] b) ys)) e -> reachable e s'.
Proof.
  intros HG L HN LT HIP yv pv.
  assert (LG : forall h, lined [] b (set_gadj g h) t) by (intros h; constructor; apply L).
  induction ys as [|y ys IH]; intros s f R0 HZ HB; cbn [map mmap].
  - exists s, f. split; auto.
  - pose proof (Forall_inv HB) as Hy. pose proof (Forall_inv_tail HB) as HB'. cbv beta in Hy.
    destruct (nested_lines HJ b s (set_gadj g f) t y aa tt0 r R0 (zero_adj_sound _ _ HG) (LG f) HN HZ Hy) as (s1 & a & E1 & R1 & A1 & A2).
    change (Rel s1 (set_gadj g a)) in R1.
    destruct (zero_nested_ok s1 (set_gadj g a) _ _ R1 HN) as (s2 & E2 & R2). cbn [mk_n] in R2.
    set (f2 := g_adj (azero_from b (set_gadj g a))). change (Rel s2 (set_gadj g f2)) in R2.
    assert (Z2 : forall k, b <= k < gsize g -> f2 k = f0).
    { intros k Hk. unfold f2, azero_from. cbn [set_gadj g_adj]. change (gsize (set_gadj g a)) with (gsize g).
      replace (b <=? k) with true by lia. replace (k <? gsize g) with true by lia. reflexivity. }
    assert (O2 : forall k, k < b -> f2 k = f k).
    { intros k Hk. unfold f2, azero_from. cbn [set_gadj g_adj]. replace (b <=? k) with false by lia. cbn [andb]. apply A2. exact Hk. }
    destruct (IH s2 f2 R2 Z2 HB') as (s' & f' & E3 & R3 & Z3 & O3 & RE).
    exists s', f'. split; [|split; auto; split; auto; split; [intros k Hk; rewrite O3, O2 by exact Hk; reflexivity|]].
    2:{ intros e HR HI. apply RE; [|intros z Hz; apply HI; right; exact Hz].
      assert (LV : forall s0 h, Rel s0 (set_gadj g h) -> (1 <= s_lvl s0)%Z).
      { intros s0 h Q. rewrite (r_lvl _ _ Q). cbn [set_gadj g_nest]. rewrite HN. unfold zlen. cbn [length]. lia. }
      apply (reach_zero_nested e s1 s2); [|eapply LV; exact R1|exact E2].
      refine (reach_grad_nested e s (hd (place [] b y)) s1 HR (HI _ (or_introl eq_refl)) _ (LV _ _ R0) E1).
      apply (node_alive s _ _ R0). change (place [] b y < gsize g). eapply place_lt; eauto. }
    assert (EA : vadjs yv s1 = Ok (map (reverse t (seed y)) (seq 0 n), s1)).
    { apply (adjs_lines b s1 g a t _ _ R1 L); auto. apply seq_bound. lia. }
    assert (ER : sens_row o n yv pv yS (hd (place [] b y)) s =
      Ok (srow_of o n yS (map (reverse t (seed y)) (seq 0 n)) (map (reverse t (seed y)) (seq (2 * n) (par_count o n))), s2)).
    { unfold sens_row. rewrite (mbind_ok _ _ _ _ _ E1), (mbind_ok _ _ _ _ _ EA). cbv zeta. unfold srow_of. destruct (par_is_var o n) eqn:EP.
      - specialize (HIP EP). assert (LP : length pv = np) by (unfold pv; rewrite !map_length, seq_length; reflexivity).
        rewrite LP. replace (par_count o n <=? np) with true by lia.
        assert (EB : vadjs (firstn (par_count o n) pv) s1 = Ok (map (reverse t (seed y)) (seq (2 * n) (par_count o n)), s1)).
        { assert (EF : firstn (par_count o n) pv = map hd (map (place [] b) (seq (2 * n) (par_count o n)))).
          { unfold pv. rewrite !firstn_map. do 2 f_equal. clear - HIP. revert HIP. generalize (par_count o n) as m. generalize (2 * n) as i.
            induction np as [|np' IHn]; intros i [|m] H; cbn [seq firstn]; auto; [lia|]. f_equal. apply IHn. lia. }
          rewrite EF. apply (adjs_lines b s1 g a t _ _ R1 L); auto. apply seq_bound. lia. }
        unfold mbind at 1. rewrite (mbind_ok _ _ _ _ _ EB). unfold mret at 1. cbn [bind]. rewrite (mbind_ok _ _ _ _ _ E2). reflexivity.
      - unfold mbind at 1. unfold mret at 1. cbn [bind]. rewrite (mbind_ok _ _ _ _ _ E2). reflexivity. }
    rewrite (mbind_ok _ _ _ _ _ ER), (mbind_ok _ _ _ _ _ E3). reflexivity.
Qed.

(* entry j of a row, and the vectors *)
Definition par_of (o : cvs_rhs) (n j : nat) : option nat :=
  if par_is_var o n then if j <? ode_ns o - par_count o n then None else Some (j - (ode_ns o - par_count o n)) else None.

Lemma nth_add_from k (l b : list F) j : k <= length l -> length b = length l - k -> j < length l ->
  nth j (add_from k l b) f0 = if j <? k then nth j l f0 else fadd (nth j l f0) (nth (j - k) b f0).
Proof.
  intros Hk HB Hj. unfold add_from. destruct (Nat.ltb_spec j k) as [H|H].
  - rewrite app_nth1 by (rewrite firstn_length; lia). rewrite <- (firstn_skipn k l) at 2. rewrite app_nth1 by (rewrite firstn_length; lia). reflexivity.
  - rewrite app_nth2 by (rewrite firstn_length; lia). rewrite firstn_length, Nat.min_l by lia.
    rewrite (nth_map_in _ _ (j - k) f0 (f0, f0)) by (rewrite combine_length, skipn_length; lia).
    rewrite combine_nth by (rewrite skipn_length; lia). cbn [fst snd]. f_equal. rewrite <- (firstn_skipn k l) at 2.
    rewrite app_nth2 by (rewrite firstn_length; lia). rewrite firstn_length, Nat.min_l by lia. reflexivity.
Qed.

Lemma columns_vectors t (o : cvs_rhs) n ys yS : length yS = ode_ns o -> par_count o n <= ode_ns o ->
  columns (ode_ns o) (map (fun y => srow_of o n yS (map (reverse t (seed y)) (seq 0 n)) (map (reverse t (seed y)) (seq (2 * n) (par_count o n)))) ys) =
  sens_vectors t n ys yS (par_of o n).
Proof.
  intros LS LP. unfold columns, sens_vectors. rewrite LS. apply map_ext_in. intros j Hj. apply in_seq in Hj. rewrite map_map. apply map_ext. intros y.
  unfold srow_of, pushed, par_of. cbv zeta. assert (LM : length (map (fdot (map (reverse t (seed y)) (seq 0 n))) yS) = ode_ns o) by (rewrite map_length; exact LS).
  assert (NM : nth j (map (fdot (map (reverse t (seed y)) (seq 0 n))) yS) f0 = fdot (map (reverse t (seed y)) (seq 0 n)) (nth j yS [])).
  { apply (nth_map_in _ _ j f0 (@nil F)). lia. }
  destruct (par_is_var o n); [|exact NM]. rewrite nth_add_from by (rewrite ?map_length, ?seq_length; lia). rewrite NM.
  destruct (Nat.ltb_spec j (ode_ns o - par_count o n)); [reflexivity|]. f_equal.
  rewrite (nth_map_in _ _ _ f0 O) by (rewrite seq_length; lia). rewrite seq_nth by lia. reflexivity.
Qed.

(* ---- set_sens_rhs as a call in a block ---- *)
Definition sens_then (o : cvs_rhs) (n : nat) (yS : list (list F)) (xv hs : list Z) : M (list (list F)) :=
  mbind (mmap (sens_row o n (firstn n xv) (skipn (2 * n) xv) yS) hs) (fun rows => mret (columns (ode_ns o) rows)).

Lemma mmap_app {A B} (f : A -> M B) xs ys s : mmap f (xs ++ ys) s = mbind (mmap f xs) (fun a => mbind (mmap f ys) (fun b => mret (a ++ b))) s.
Proof.
  revert s. induction xs as [|x xs IH]; intros s; cbn [app mmap].
  - unfold mbind, mret. cbn [bind]. destruct (mmap f ys s) as [[b s']| | |]; reflexivity.
  - rewrite bind_bind. apply bind_ext. intros a s1. unfold mbind at 1. rewrite IH. unfold mbind, mret.
    destruct (mmap f xs s1) as [[b s2]| | |]; cbn [bind]; auto. destruct (mmap f ys s2) as [[c s3]| | |]; reflexivity.
Qed.

Lemma sens_block t y yS (o : cvs_rhs) q s : ode_f o = rhs_fn q -> (par_is_var o (length y) = true -> length (ode_pval o) = pvar_size) ->
  set_sens_rhs t y yS o s = block (rhs_args y (par_vals o (length y))) (fun xv => call_fn (q t) ([] ++ xv)) (sens_then o (length y) yS) s.
Proof.
  intros EF HP. unfold set_sens_rhs, block, rhs_args. apply bind_ext. intros _ s1.
  match goal with |- _ = mbind _ ?k s1 => set (K := k) end.
  assert (ES : mbind (new_var_vals (y ++ repeat f0 (length y) ++ par_vals o (length y))) K s1 =
    mbind (new_var_vals y) (fun yv => mbind (new_var_vals (repeat f0 (length y))) (fun fv => mbind (new_var_vals (par_vals o (length y))) (fun pv => K (yv ++ fv ++ pv)))) s1).
  { unfold new_var_vals, mbind. rewrite mmap_app. unfold mbind. destruct (mmap new_var_val y s1) as [[yv s2]| | |]; cbn [bind]; auto. rewrite mmap_app. unfold mbind.
    destruct (mmap new_var_val (repeat f0 (length y)) s2) as [[fv s3]| | |]; cbn [bind]; auto.
    destruct (mmap new_var_val (par_vals o (length y)) s3) as [[pv s4]| | |]; cbn [bind]; auto. }
  rewrite ES. clear ES. unfold sens_body, mbind. rewrite EF.
  destruct (new_var_vals y s1) as [[yv s2]| | |] eqn:E1; cbn [bind]; auto. pose proof (new_vals_len _ _ _ _ E1) as L1.
  destruct (new_var_vals (repeat f0 (length y)) s2) as [[fv s3]| | |] eqn:E2; cbn [bind]; auto. pose proof (new_vals_len _ _ _ _ E2) as L2. rewrite repeat_length in L2.
  assert (GO : forall pv s4, firstn (length y) (yv ++ fv ++ pv) = yv -> skipn (2 * length y) (yv ++ fv ++ pv) = pv ->
    bind (bind (rhs_fn q t yv fv pv s4) (fun p => mret (yv, pv, fst p) (snd p))) (fun p =>
      bind (mmap (sens_row o (length y) (fst (fst (fst p))) (snd (fst (fst p))) yS) (snd (fst p)) (snd p)) (fun p0 => bind (end_nested (snd p0)) (fun p1 => mret (columns (ode_ns o) (fst p0)) (snd p1)))) =
    K (yv ++ fv ++ pv) s4).
  { intros pv s4 Q1 Q2. unfold K, sens_then, mbind, rhs_fn. cbn [app]. destruct (call_fn (q t) (yv ++ fv ++ pv) s4) as [[hs s5]| | |]; cbn [bind]; auto. unfold mret. cbn [bind fst snd].
    rewrite Q1, Q2. destruct (mmap _ hs s5) as [[rows s6]| | |]; cbn [bind fst snd]; auto. destruct (end_nested s6) as [[u s7]| | |]; reflexivity. }
  assert (Q1 : forall pv, firstn (length y) (yv ++ fv ++ pv) = yv) by (intros pv; rewrite <- L1, firstn_app, firstn_all, Nat.sub_diag; cbn [firstn]; apply app_nil_r).
  assert (Q2 : forall pv, skipn (2 * length y) (yv ++ fv ++ pv) = pv).
  { intros pv. rewrite app_assoc, skipn_app, skipn_all2 by (rewrite app_length; lia). replace (2 * length y - length (yv ++ fv)) with 0 by (rewrite app_length; lia). reflexivity. }
  unfold par_vals. destruct (par_is_var o (length y)).
  - rewrite (HP eq_refl), Nat.eqb_refl. destruct (new_var_vals (ode_pval o) s3) as [[pv s4]| | |]; cbn [bind fst snd]; auto.
    rewrite <- (GO pv s4 (Q1 pv) (Q2 pv)). destruct (rhs_fn q t yv fv pv s4) as [[hs s5]| | |]; cbn [bind fst snd]; unfold mret; cbn [bind fst snd]; auto; destruct (mmap _ hs s5) as [[rows s6]| | |]; cbn [bind fst snd]; auto; destruct (end_nested s6) as [[u s7]| | |]; reflexivity.
  - unfold new_var_vals. cbn [mmap]. unfold mret at 3. cbn [bind]. rewrite <- (GO [] s3 (Q1 []) (Q2 [])).
    destruct (rhs_fn q t yv fv [] s3) as [[hs s5]| | |]; cbn [bind fst snd]; unfold mret; cbn [bind fst snd]; auto; destruct (mmap _ hs s5) as [[rows s6]| | |]; cbn [bind fst snd]; auto; destruct (end_nested s6) as [[u s7]| | |]; reflexivity.
Qed.

Lemma par_count_le (o : cvs_rhs) n : par_count o n <= ode_ns o.
Proof. unfold par_count. destruct (ode_ys o); lia. Qed.

(* what a callback needs of the right-hand side's record *)
Record ready (o : cvs_rhs) (q : F -> fn) (n : nat) : Prop := {
  rd_f : ode_f o = rhs_fn q;
  rd_p : par_is_var o n = true -> length (ode_pval o) = pvar_size;
  rd_m : par_is_var o n = true -> par_count o n <= pvar_size
}.

Lemma sens_lines_at s g t y yS (o : cvs_rhs) q : practical -> Rel s g -> sound g -> (s_lvl s < 10)%Z -> ready o q (length y) -> length yS = ode_ns o ->
  let xs := rhs_args y (par_vals o (length y)) in let t0 := map given xs in let rs := seq 0 (length xs) in let w := (6 * zlen xs + cost (q t) rs t0)%Z in
  0 < length xs -> well_formed (q t) rs t0 -> (g_peak g <= cap)%Z -> (g_top g + w <= cap)%Z ->
  match trace (q t) rs t0 with
  | None => set_sens_rhs t y yS o s = ErrStop
  | Some (ys, tr) =>
      (exactly_full s w -> set_sens_rhs t y yS o s = Undef OutOfBounds) /\
      (~ exactly_full s w -> exists s', set_sens_rhs t y yS o s = Ok (sens_vectors tr (length y) ys yS (par_of o (length y)), s') /\
        left_by s g [] (q t) w s' /\ forall h, alive s h -> var_adj s' h = var_adj s h)
  end.
Proof.
  intros HP R0 HG HL RD LS xs t0 rs w NX HF M1 M2. pose proof HP as [HC HJ].
  rewrite (sens_block t y yS o q s (rd_f _ _ _ RD) (rd_p _ _ _ RD)). fold xs.
  pose proof (block_lines s g [] [] xs (q t) HP R0 HG HL (Forall_nil _) eq_refl HF M1 M2) as BL. cbv zeta in BL.
  change (map given ([] ++ xs)) with t0 in BL. change (seq 0 (length (@nil F) + length xs)) with rs in BL. fold w in BL.
  destruct BL as (s1 & xv & s2 & E1 & E2 & K).
  destruct (trace (q t) rs t0) as [[ys tr]|] eqn:ER.
  2:{ unfold block. rewrite (mbind_ok _ _ _ _ _ E1), (mbind_ok _ _ _ _ _ E2). unfold mbind. rewrite K. reflexivity. }
  destruct K as (ke & b & s3 & g3 & r & E3 & R3 & G3 & L3 & LK & EXV & BY & LT & HZ & NE & T3 & P3 & Eb & Er & EL & GD & RE & EV & g1 & AB & W1 & GR).
  assert (ke = []) by (destruct ke; [reflexivity|discriminate LK]). subst ke. clear LK EV. cbn [length Nat.add] in LT, EXV.
  assert (R3' : Rel s3 (set_gadj g3 (g_adj g3))) by (destruct g3; exact R3).
  set (n := length y) in *. set (np := length (par_vals o n)).
  assert (LX : length xs = 2 * n + np) by (unfold xs, rhs_args; rewrite !app_length, repeat_length; fold n np; lia).
  assert (HIP : in_pars o n np).
  { intros EP. unfold np, par_vals. rewrite EP, (rd_p _ _ _ RD EP). apply (rd_m _ _ _ RD EP). }
  destruct (sens_rows HJ b g3 tr _ _ r o n np yS G3 L3 NE ltac:(lia) HIP ys s3 (g_adj g3) R3' HZ BY) as (s4 & a & EG & R4 & Z4 & O4 & RG).
  assert (NZ : 0 < gsize g3) by (pose proof (ln_len _ _ _ _ L3) as Q; cbn [length] in Q; lia).
  destruct (filled HC s g s4 (set_gadj g3 a) _ R0 R4 T3 P3 NZ) as [FF FN].
  assert (ET : sens_then o n yS xv (map hd (map (place [] b) ys)) s3 = Ok (sens_vectors tr n ys yS (par_of o n), s4)).
  { unfold sens_then. rewrite EXV, !firstn_map, !skipn_map.
    assert (F1 : firstn n (seq 0 (length xs)) = seq 0 n).
    { rewrite LX. replace (2 * n + np) with (n + (n + np)) by lia. rewrite seq_app, firstn_app, firstn_all2 by (rewrite seq_length; lia).
      rewrite seq_length, Nat.sub_diag. cbn [firstn]. apply app_nil_r. }
    assert (F2 : skipn (2 * n) (seq 0 (length xs)) = seq (2 * n) np).
    { rewrite LX, seq_app, skipn_app, skipn_all2 by (rewrite seq_length; lia). rewrite seq_length, Nat.sub_diag. reflexivity. }
    rewrite F1, F2, (mbind_ok _ _ _ _ _ EG). unfold mret. rewrite columns_vectors; auto. apply par_count_le. }
  assert (GO : block xs (fun xv => call_fn (q t) ([] ++ xv)) (sens_then o n yS) s = mbind end_nested (fun _ => mret (sens_vectors tr n ys yS (par_of o n))) s4).
  { unfold block. rewrite (mbind_ok _ _ _ _ _ E1), (mbind_ok _ _ _ _ _ E2), (mbind_ok _ _ _ _ _ E3), (mbind_ok _ _ _ _ _ ET). reflexivity. }
  rewrite GO. split; intros HE.
  - unfold mbind. rewrite (end_full s4 _ _ _ R4 NE (FF HE)). reflexivity.
  - destruct (end_fits s4 _ _ _ R4 NE (FN HE)) as (s5 & E5 & _). rewrite (mbind_ok _ _ _ _ _ E5). unfold mret. exists s5. split; auto. split.
    + rewrite Eb, Er in NE.
      apply (Claims_reverse2.leaves HC s g [] (q t) w s4 g3 a (map hd (map (place [] b) ys)) s5 R0 R4 NE EL NZ T3 P3 (FN HE) E5 GD).
      intros e HR NM HI. destruct (RE e HR NM HI) as (e' & V1 & V2 & V3). exists e'. split; auto.
    + intros h Hh. destruct (alive_node s g h R0 Hh) as (k & -> & Hk). pose proof (end_inv s4 _ _ _ s5 R4 NE E5) as R5.
      rewrite (rel_var_adj s g R0 k Hk). rewrite (rel_var_adj s5 _ R5 k).
      * cbn [atrunc g_adj set_gadj]. f_equal. rewrite O4 by lia. rewrite (gr_adj _ _ GR k). 
        -- unfold abegin in AB. destruct (Nat.ltb _ _); [|discriminate]. injection AB as <-. reflexivity.
        -- unfold abegin in AB. destruct (Nat.ltb _ _); [|discriminate]. injection AB as <-. exact Hk.
      * unfold gsize. cbn [atrunc g_nodes mk_n set_gadj]. rewrite firstn_length. pose proof (ln_b _ _ _ _ L3). unfold gsize in *. lia.
Qed.

Theorem steadyh_grad_nested h : steadyh (grad_nested h).
Proof.
  apply steadyh_mput. intros p s t H. eapply both_bind; [apply set_adj_still; exact H|]. intros a b [G S].
  unfold curr_nested_vari_head. rewrite (ag_lvl _ _ _ G), (ag_nv _ _ _ G), (ag_head _ _ _ G). eapply both_bind; [apply both_eq|]. intros lo ? <-.
  eapply both_weak; [apply chains_agree; [exact G|]|].
  - eapply Forall_impl; [|apply down_below]. cbv beta. intros; lia.
  - intros x y [Q S']. split; auto. eapply still_trans; eauto.
Qed.

Lemma sens_then_steady o n yS xv hs : steadyh (sens_then o n yS xv hs).
Proof.
  unfold sens_then. apply steadyh_bind; [|intros rows; apply steadyh_ret]. apply steadyh_mmap. intros h. unfold sens_row.
  apply steadyh_bind; [apply steadyh_grad_nested|]. intros _. apply steadyh_bind; [apply steadyh_get, steady_mapM; intros; apply steady_adj|]. intros a. cbv zeta.
  apply steadyh_bind; [|intros r; apply steadyh_bind; [apply steadyh_zero|intros _; apply steadyh_ret]].
  destruct (par_is_var o n); [|apply steadyh_ret]. destruct (_ <=? _); [|apply steadyh_lift].
  apply steadyh_bind; [apply steadyh_get, steady_mapM; intros; apply steady_adj|]. intros b. apply steadyh_ret.
Qed.

(* a callback in a state with stale pointers *)
Lemma sens_at P g0 s z g t y yS (o : cvs_rhs) q : practical -> agree (slots (gsize g0) P) s z -> Rel z g -> sound g -> same_graph g0 g -> (s_lvl s < 10)%Z ->
  ready o q (length y) -> length yS = ode_ns o ->
  let xs := rhs_args y (par_vals o (length y)) in let t0 := map given xs in let rs := seq 0 (length xs) in let w := (6 * zlen xs + cost (q t) rs t0)%Z in
  0 < length xs -> well_formed (q t) rs t0 -> in_place P [] (q t) xs -> (g_peak g <= cap)%Z -> (g_top g0 + w <= cap)%Z ->
  match trace (q t) rs t0 with
  | None => set_sens_rhs t y yS o s = ErrStop
  | Some (ys, tr) =>
      (exactly_full s w -> set_sens_rhs t y yS o s = Undef OutOfBounds) /\
      (~ exactly_full s w -> exists s' z' g', set_sens_rhs t y yS o s = Ok (sens_vectors tr (length y) ys yS (par_of o (length y)), s') /\
        agree (slots (gsize g0) P) s' z' /\ Rel z' g' /\ sound g' /\ same_graph g0 g' /\ undisturbed s s' /\ (forall h, alive s h -> var_adj s' h = var_adj s h) /\ (g_peak g' <= cap)%Z /\
        storage (t_size (s_tape s)) (t_head (s_tape s) + w) (t_size (s_tape s')))
  end.
Proof.
  intros HP HAG R0 HG SG HL RD LS xs t0 rs w NX HF [IP1 IP2] P1 P2.
  change (apart P (length (@nil F)) (q t) (seq 0 (length (@nil F) + length xs)) (map given ([] ++ xs))) with (apart P 0 (q t) rs t0) in IP2.
  pose proof SG as (Q1 & Q2 & Q3 & Q4 & Q5). assert (SZ : gsize g = gsize g0) by (unfold gsize; congruence).
  assert (HL' : (s_lvl z < 10)%Z) by (rewrite (ag_lvl _ _ _ HAG); exact HL).
  assert (EF : exactly_full z w <-> exactly_full s w) by (unfold exactly_full; rewrite (ag_tape _ _ _ HAG); tauto).
  assert (P2' : (g_top g + w <= cap)%Z) by lia.
  pose proof (sens_lines_at z g t y yS o q HP R0 HG HL' RD LS NX HF P1 P2') as G1. fold xs in G1. fold t0 rs w in G1.
  assert (HAG' : agree (slots (gsize g) P) s z) by (rewrite SZ; exact HAG).
  assert (B : both (pairs (slots (gsize g0) P)) (set_sens_rhs t y yS o s) (set_sens_rhs t y yS o z)).
  { rewrite <- SZ. rewrite !(sens_block t y yS o q _ (rd_f _ _ _ RD) (rd_p _ _ _ RD)). fold xs.
    apply (block_transfer P s z g [] [] xs (q t) (sens_then o (length y) yS) HP HAG' R0 HG HL' (Forall_nil _) eq_refl HF IP2 IP1 P1 P2' (sens_then_steady o (length y) yS)). }
  destruct (trace (q t) rs t0) as [[ys tr]|].
  - destruct G1 as [F1 A1]. rewrite <- EF. split; intros HE.
    + rewrite (F1 HE) in B. destruct (set_sens_rhs t y yS o s) as [[r' s']| | |]; cbn [both] in B; try contradiction. congruence.
    + destruct (A1 HE) as (z1 & E & LB & AD). rewrite E in B. destruct (set_sens_rhs t y yS o s) as [[r' s']| | |]; cbn [both] in B; try contradiction.
      destruct B as [Er AG1]. cbn [fst snd] in Er, AG1. subst r'.
      destruct (left_like P g0 z g [] (q t) w s' z1 AG1 R0 HG SG LB P1 P2) as (z' & g' & a & V1 & V2 & V3 & V4 & V5 & V6 & V7).
      exists s', z', g'. split; auto. split; auto. split; auto. split; auto. split; auto.
      split; [eapply agree_undisturbed; [exact HAG|exact AG1|eapply left_undisturbed; eauto]|]. split.
      { intros h Hh. rewrite (steady_adj h _ s' z1 AG1), (steady_adj h _ s z HAG). apply AD. unfold alive in *. rewrite (ag_head _ _ _ HAG). exact Hh. }
      split; auto. destruct LB as (g1 & _ & _ & _ & _ & _ & _ & _ & ST & _). rewrite (ag_tape _ _ _ HAG), (ag_tape _ _ _ AG1) in ST. exact ST.
  - rewrite G1 in B. destruct (set_sens_rhs t y yS o s) as [[r' s']| | |]; cbn [both] in B; first [contradiction|reflexivity|discriminate B].
Qed.
End Sens.
