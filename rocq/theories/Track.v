(* Straight-line programs run from any state with the invariant: each register
   is the function it denotes of register x, with the rate of the coefficients. *)
From Verif Require Import TapeFacts.
From Coq Require Import ZifyBool ZifyNat.
From Verif Require Export DerivProg.

Section Unnest.
Context {N : Num} {RL : RepLaws N} {C : Cfg N}.

(* the graph with the nested levels forgotten *)
Definition unnest (g : graph) : graph :=
  {| g_nodes := g_nodes g; g_adj := g_adj g; g_arrs := g_arrs g; g_ch := g_ch g;
     g_nest := []; g_top := g_top g; g_peak := g_peak g |}.

Definition amap {A B} (f : A -> B) (r : ares A) : ares B :=
  match r with AOk a => AOk (f a) | AStop => AStop | ABad => ABad end.

Lemma aregs_unnest g env l : aregs (unnest g) env l = aregs g env l.
Proof. induction l as [|r l IH]; cbn [aregs]; auto. rewrite IH. reflexivity. Qed.

Lemma act_op_unnest g env o : act_op (unnest g) env o = act_op g env o.
Proof.
  destruct o; cbn [act_op]; rewrite ?aregs_unnest; try reflexivity.
Qed.

Lemma mat_nodes_unnest ch ia ib ps : forall g, mat_nodes ch ia ib ps (unnest g) = unnest (mat_nodes ch ia ib ps g).
Proof.
  induction ps as [|q ps IH]; intros g; auto. rewrite !mat_nodes_cons. rewrite <- IH. reflexivity.
Qed.

Lemma amat_unnest ch m k n ca cb av bv g : amat ch m k n ca cb av bv (unnest g) =
  amap (fun p => (fst p, unnest (snd p))) (amat ch m k n ca cb av bv g).
Proof.
  unfold amat. destruct (_ && _ && _); [|reflexivity]. cbn [amap fst snd]. rewrite <- mat_nodes_unnest. reflexivity.
Qed.

Lemma do_act_unnest g a : do_act (unnest g) a = amap (fun p => (fst p, unnest (snd p))) (do_act g a).
Proof. destruct a as [v ops ds ch|k [ch|]| |]; reflexivity. Qed.

Lemma aexec_op_unnest g env o : aexec_op (unnest g) env o = amap (fun p => (fst p, unnest (snd p))) (aexec_op g env o).
Proof.
  assert (A : abind (do_act (unnest g) (act_op (unnest g) env o)) (fun p => AOk ([fst p], snd p)) =
    amap (fun p => (fst p, unnest (snd p))) (abind (do_act g (act_op g env o)) (fun p => AOk ([fst p], snd p)))).
  { rewrite act_op_unnest, do_act_unnest. destruct (do_act g (act_op g env o)) as [[k g1]| |]; reflexivity. }
  destruct o; try exact A; cbn [aexec_op]; rewrite !aregs_unnest.
  - destruct (aregs g env a); [|reflexivity]. destruct (aregs g env b); [|reflexivity]. apply amat_unnest.
  - destruct (aregs g env a); [|reflexivity]. apply amat_unnest.
  - destruct (aregs g env b); [|reflexivity]. apply amat_unnest.
Qed.

(* every record suits its chain procedure *)
Definition sound (g : graph) : Prop := good (unnest g).

Lemma good_sound g : good g -> sound g.
Proof. intros [A B D]. constructor; auto. cbn [unnest g_nest]. intros m []. Qed.

Lemma sound_accept g env o : sound g -> Forall (has_node g env) (op_regs o) -> op_shape o -> neutral o = false ->
  aexec_op g env o <> ABad /\ (forall ks g', aexec_op g env o = AOk (ks, g') -> sound g').
Proof.
  intros HG HR HS HN. destruct (op_accept_g (unnest g) env o HG) as [A B]; auto.
  rewrite aexec_op_unnest in A, B. split.
  - intros E. rewrite E in A. apply A. reflexivity.
  - intros ks g' E. rewrite E in B. apply (B ks (unnest g')). reflexivity.
Qed.

Lemma sound_sweep (HJ : exists j, junk = Some j) g : sound g -> forall n lo, (lo + n <= gsize g)%nat ->
  forall f, exists g', asweep lo n (set_gadj g f) = Some g'.
Proof.
  intros HG. induction n as [|n IH]; intros lo Hn f; cbn [asweep]; [eauto|].
  destruct (effect_some HJ (set_gadj g f) (lo + n)) as [l E].
  { apply (gd_fit _ HG). unfold gsize in *. cbn [unnest g_nodes]. lia. }
  rewrite E. apply (IH lo ltac:(lia)).
Qed.

(* a program on live registers, on the graph *)
Definition prog_ok' (p : list op) : Prop := Forall (fun o => op_shape o /\ neutral o = false) p.

Lemma op_run (HC : cfg_ok C) s g ke o hs s' : Rel s g -> sound g -> Forall (fun k => (k < gsize g)%nat) ke ->
  op_shape o -> neutral o = false -> exec_op (map hd ke) o s = Ok (hs, s') ->
  exists kk ks g', aregs g ke (op_regs o) = Some kk /\ aexec_op g ke o = AOk (ks, g') /\ Rel s' g' /\ sound g' /\
    grows g g' /\ hs = map hd ks /\ Forall (fun k => (k < gsize g')%nat) (ke ++ ks).
Proof.
  intros R HG HB HS HN HX. pose proof (exec_op_regs _ _ _ _ HX) as HR.
  assert (HN' : Forall (has_node g ke) (op_regs o)).
  { eapply Forall_impl; [|exact HR]. cbv beta. intros a (h & E). rewrite nth_error_map in E.
    destruct (nth_error ke a) as [k|] eqn:E2; [|discriminate]. exists k. unfold areg. rewrite E2.
    rewrite Forall_forall in HB. pose proof (HB k (nth_error_In _ _ E2)) as Hk. cbv beta in Hk.
    replace (Nat.ltb k (gsize g)) with true by lia. reflexivity. }
  assert (EK : exists kk, aregs g ke (op_regs o) = Some kk).
  { clear - HN'. induction HN' as [|r l [k Hk] _ [kk IH]]; cbn [aregs]; eauto. rewrite Hk, IH. eauto. }
  destruct EK as [kk EK].
  destruct (sound_accept g ke o HG HN' HS HN) as [A1 A2].
  pose proof (exec_op_ok HC s g ke o R) as HP.
  destruct (aexec_op g ke o) as [[ks g']| |] eqn:E; [| |tauto].
  2:{ simpl in HP. rewrite HX in HP. discriminate. }
  simpl in HP. specialize (HP (cap < g_peak g') (fun x => x)). rewrite HX in HP. simpl in HP.
  destruct HP as [Eh R']. cbn [fst snd] in *. destruct (op_frame _ _ _ _ _ HN E) as [GR RK].
  exists kk, ks, g'. split; auto. split; auto. split; auto. split; [eapply A2; eauto|]. split; auto. split; auto.
  pose proof (grows_size _ _ GR) as SZ. apply Forall_app. split; [eapply Forall_impl; [|exact HB]; cbv beta; lia|].
  destruct RK as [(M & k & -> & Hk & ->)|(Es & Sz)]; [repeat constructor; auto|].
  rewrite Es, Forall_forall. intros k Hk. apply in_seq in Hk. lia.
Qed.

Lemma prog_run (HC : cfg_ok C) p : forall s g ke env' s', Rel s g -> sound g -> Forall (fun k => (k < gsize g)%nat) ke ->
  prog_ok' p -> exec p (map hd ke) s = Ok (env', s') ->
  exists l g', Rel s' g' /\ sound g' /\ grows g g' /\ env' = map hd (ke ++ l) /\ Forall (fun k => (k < gsize g')%nat) (ke ++ l).
Proof.
  induction p as [|o p IH]; intros s g ke env' s' R HG HB HP HX.
  - cbn in HX. inversion HX; subst. exists [], g. rewrite app_nil_r. split; auto. split; auto. split; [apply grows_refl|]. auto.
  - inversion HP as [|? ? [P1 P2] P3]; subst. cbn [exec] in HX. unfold mbind in HX.
    destruct (exec_op (map hd ke) o s) as [[hs s1]| | |] eqn:E; try discriminate. cbn [bind] in HX.
    destruct (op_run HC s g ke o hs s1 R HG HB P1 P2 E) as (kk & ks & g1 & _ & _ & R1 & G1 & GR1 & -> & B1).
    rewrite <- map_app in HX. destruct (IH s1 g1 (ke ++ ks) env' s' R1 G1 B1 P3 HX) as (l & g' & Q1 & Q2 & Q3 & Q4 & Q5).
    exists (ks ++ l), g'. rewrite app_assoc. split; auto. split; auto. split; [eapply grows_trans; eauto|]. auto.
Qed.

End Unnest.

Section Track.
Context {lg : R -> R} {C : Cfg (RNum lg)}.
Notation N := (RNum lg).
Notation graph := (@graph N).
Local Open Scope R_scope.

Lemma hold_seq x t : forall (ys : list R) from, hold x t from ys =
  map (fun q => if Nat.eqb (from + q) x then t else nth q ys 0) (seq 0 (length ys)).
Proof.
  unfold hold. induction ys as [|y ys IH]; intros from; [reflexivity|]. cbn [length seq combine map fst snd].
  rewrite Nat.add_0_r. f_equal. rewrite IH, <- seq_shift, map_map. apply map_ext. intros q.
  replace (S from + q)%nat with (from + S q)%nat by lia. reflexivity.
Qed.

Lemma hold_len x t from (ys : list R) : length (hold x t from ys) = length ys.
Proof. rewrite hold_seq, map_length, seq_length. reflexivity. Qed.

Context (x j : nat) (t0 : R).

Definition track (g : graph) (rate : nat -> R) (f : R -> R) (k : nat) : Prop :=
  (k < gsize g)%nat /\ moves g rate t0 f k.
Definition tracks (g : graph) : list (R -> R) -> list nat -> Prop := Forall2 (track g (tau g 0 j)).

Lemma Forall2_impl {A B} (P Q : A -> B -> Prop) l1 l2 : (forall a b, P a b -> Q a b) -> Forall2 P l1 l2 -> Forall2 Q l1 l2.
Proof. intros H. induction 1; constructor; auto. Qed.

Lemma tracks_grow (g g' : graph) fs ke : gwf g -> gwf g' -> grows g g' -> tracks g fs ke ->
  Forall2 (track g (tau g' 0 j)) fs ke /\ tracks g' fs ke.
Proof.
  intros W W' G H. pose proof (grows_size _ _ G) as SZ. split; eapply Forall2_impl; [|exact H| |exact H];
    intros f k [H1 [H2 H3]]; unfold track.
  - split; auto. split; auto. rewrite (grows_tau g g' 0 j W W' G k H1). exact H3.
  - split; [lia|]. split; [rewrite (grows_gval g g' k G H1); auto|]. rewrite (grows_tau g g' 0 j W W' G k H1). exact H3.
Qed.

Definition curves (fs : list (R -> R)) (l : list nat) : list (R -> R) := map (fun r => nth r fs (fun _ => 0)) l.

Lemma curves_at fs l (t : R) : at_regs (map (fun f : R -> R => f t) fs) l = map (fun c : R -> R => c t) (curves fs l).
Proof.
  unfold at_regs, curves. rewrite map_map. apply map_ext. intros r.
  rewrite <- (map_nth (fun c : R -> R => c t) fs (fun _ => 0)). reflexivity.
Qed.

Lemma tracks_len (g : graph) rate fs ke : Forall2 (track g rate) fs ke -> length fs = length ke.
Proof. induction 1; cbn [length]; auto. Qed.

Lemma Forall2_nth_r {A B} (P : A -> B -> Prop) l1 l2 i b d : Forall2 P l1 l2 -> nth_error l2 i = Some b -> P (nth i l1 d) b.
Proof.
  intros H. revert i. induction H as [|a b' l1 l2 Hab _ IH]; intros i E; [destruct i; discriminate|].
  destruct i as [|i]; cbn [nth_error nth] in *; [inversion E; subst; auto|]. apply IH; auto.
Qed.

Lemma tracks_curves (g : graph) rate fs ke l : forall kk, Forall2 (track g rate) fs ke -> aregs g ke l = Some kk ->
  Forall2 (moves g rate t0) (curves fs l) kk.
Proof.
  induction l as [|r l IH]; intros kk H E; cbn [aregs curves map] in *.
  - apply some_eq in E; subst. constructor.
  - destruct (areg g ke r) as [k|] eqn:E1; [|discriminate]. destruct (aregs g ke l) as [ks|]; [|discriminate].
    apply some_eq in E; subst. constructor; [|apply IH; auto].
    unfold areg in E1. destruct (nth_error ke r) as [k'|] eqn:E2; [|discriminate].
    destruct (Nat.ltb k' (gsize g)); [|discriminate]. apply some_eq in E1; subst k'.
    apply (Forall2_nth_r _ _ _ _ _ (fun _ => 0) H E2).
Qed.

Lemma Forall2_seq {A B} (P : A -> B -> Prop) (f : nat -> A) l : (forall q b, nth_error l q = Some b -> P (f q) b) ->
  Forall2 P (map f (seq 0 (length l))) l.
Proof.
  revert f. induction l as [|b l IH]; intros f H; cbn [length seq map]; constructor.
  - apply (H O). reflexivity.
  - rewrite <- seq_shift, map_map. apply IH. intros q c E. apply (H (S q)). exact E.
Qed.

Lemma op_track (g g' : graph) fs ke (o : @op N) ks rest : gwf g -> gwf g' -> grows g g' -> tracks g fs ke ->
  op_dom o (at_regs (map (fun f : R -> R => f t0) fs) (op_regs o)) -> op_shape o -> neutral o = false ->
  (exists kk, aregs g ke (op_regs o) = Some kk) -> aexec_op g ke o = AOk (ks, g') ->
  nth_error (ke ++ ks ++ rest) x = Some j -> (forall r, (r < x)%nat -> nth_error (ke ++ ks ++ rest) r <> Some j) ->
  ((j < gsize g')%nat -> gval g' j = t0) -> Forall (fun k => (k < gsize g')%nat) ks ->
  denote o (at_regs (map (fun f : R -> R => f t0) fs) (op_regs o)) = map (gval g') ks /\
  exists fs', tracks g' (fs ++ fs') (ke ++ ks) /\
    forall t, map (fun f : R -> R => f t) (fs ++ fs') =
      map (fun f : R -> R => f t) fs ++
      hold x t (length (map (fun f : R -> R => f t) fs)) (denote o (at_regs (map (fun f : R -> R => f t) fs) (op_regs o))).
Proof.
  intros W W' GR HT HD HS HN (kk & EK) HX Hx Hfirst Hval HB.
  destruct (tracks_grow g g' fs ke W W' GR HT) as [T1 T2].
  pose proof (tracks_curves g (tau g' 0 j) fs ke _ kk T1 EK) as HM.
  rewrite curves_at in HD.
  destruct (op_right g g' (tau g' 0 j) t0 ke o kk (curves fs (op_regs o)) ks EK HM HD HS HN HX) as [HL HR].
  pose proof (tracks_len _ _ _ _ HT) as LF.
  set (new := fun q t => if Nat.eqb (length ke + q) x then t else nth q (denote o (map (fun c : R -> R => c t) (curves fs (op_regs o)))) 0).
  split.
  { rewrite curves_at. apply nth_ext with (d := 0) (d' := 0); [rewrite map_length; apply HL|].
    intros q Hq. assert (Hq' : (q < length ks)%nat) by (rewrite <- (HL (map (fun c : R -> R => c t0) (curves fs (op_regs o)))); exact Hq).
    destruct (nth_error ks q) as [k|] eqn:EQ; [|apply nth_error_None in EQ; lia].
    destruct (HR q k EQ) as [V _]. etransitivity; [exact V|].
    pose proof (nth_map_in (gval g') ks q 0 O Hq') as EN. rewrite (nth_error_nth _ _ _ EQ) in EN. symmetry. exact EN. }
  exists (map new (seq 0 (length ks))). split.
  - unfold tracks. apply Forall2_app; [exact T2|]. apply Forall2_seq. intros q k EQ.
    pose proof (nth_error_lt _ _ _ EQ) as Lq.
    assert (EKF : nth_error (ke ++ ks ++ rest) (length ke + q) = Some k).
    { rewrite nth_error_app2 by lia. replace (length ke + q - length ke)%nat with q by lia.
      rewrite nth_error_app1 by lia. exact EQ. }
    assert (Bk : (k < gsize g')%nat) by (rewrite Forall_forall in HB; apply HB; eapply nth_error_In; eauto).
    destruct (HR q k EQ) as [V D]. split; auto. unfold new, moves.
    destruct (Nat.eqb_spec (length ke + q) x) as [Ex|Ex].
    + rewrite Ex in EKF. rewrite Hx in EKF. apply some_eq in EKF. subst k. split; [symmetry; auto|].
      rewrite tau_self by auto. apply (is_derive_id t0).
    + split; [exact V|].
      destruct D as [(-> & -> & D)|(Ek & D)]; [exact D|].
      assert (NJ : k <> j).
      { intros ->. destruct (lt_eq_lt_dec (length ke + q) x) as [[L|L]|L]; [|lia|].
        - apply (Hfirst _ L). exact EKF.
        - destruct (Nat.ltb_spec x (length ke)) as [L2|L2].
          + rewrite nth_error_app1 in Hx by auto.
            destruct (Forall2_nth_r _ _ _ _ _ (fun _ => 0) HT Hx) as [B _]. lia.
          + rewrite nth_error_app2 in Hx by auto. rewrite nth_error_app1 in Hx by lia.
            destruct (HR _ _ Hx) as [_ [(EKK & E0 & _)|(E2 & _)]]; [|lia].
            pose proof (aregs_lt _ _ _ _ EK) as BK. rewrite EKK in BK. inversion BK; subst. lia. }
      rewrite tau_rec by (auto; lia). exact D.
  - intros t. rewrite map_app. f_equal. rewrite hold_seq, map_map, map_length.
    rewrite curves_at, HL, LF. reflexivity.
Qed.

Lemma tracks_vals (g : graph) fs ke : tracks g fs ke -> map (fun f : R -> R => f t0) fs = map (gval g) ke.
Proof. induction 1 as [|f k fs ke [_ [H _]] _ IH]; cbn [map]; [reflexivity|]. rewrite H, IH. reflexivity. Qed.

Lemma tracks_live (g : graph) fs ke : tracks g fs ke -> Forall (fun k => (k < gsize g)%nat) ke.
Proof. induction 1 as [|f k fs ke [H _] _ IH]; constructor; auto. Qed.

Lemma prog_dom_ok (p : list (@op N)) : forall ws : list R, prog_dom p ws -> prog_ok' p.
Proof.
  unfold prog_ok'. induction p as [|o p IH]; intros ws H; [constructor|]. destruct H as (_ & H1 & H2 & H3).
  constructor; [auto|]. apply (IH _ H3).
Qed.

Lemma prog_track (HC : cfg_ok C) p : forall s (g : graph) ke fs env' s', Rel s g -> sound g -> tracks g fs ke ->
  prog_dom p (map (fun f : R -> R => f t0) fs) -> exec p (map hd ke) s = Ok (env', s') ->
  nth_error env' x = Some (hd j) -> (forall r, (r < x)%nat -> nth_error env' r <> Some (hd j)) ->
  var_val s' (hd j) = Ok t0 ->
  exists fs' g' ke', Rel s' g' /\ sound g' /\ grows g g' /\ env' = map hd ke' /\ tracks g' fs' ke' /\
    forall t, eval_with x t p (map (fun f : R -> R => f t) fs) = map (fun f : R -> R => f t) fs'.
Proof.
  induction p as [|o p IH]; intros s g ke fs env' s' R0 HG HT HD HX Hx Hf Hv.
  - cbn in HX. inversion HX; subst. exists fs, g, ke. split; auto. split; auto. split; [apply grows_refl|]. auto.
  - pose proof (prog_dom_ok _ _ HD) as HO. inversion HO as [|? ? [O1 O2] O3]; subst.
    destruct HD as (D1 & _ & _ & D2). cbn [exec] in HX. unfold mbind in HX.
    destruct (exec_op (map hd ke) o s) as [[hs s1]| | |] eqn:E; try discriminate. cbn [bind] in HX.
    destruct (op_run HC s g ke o hs s1 R0 HG (tracks_live _ _ _ HT) O1 O2 E) as (kk & ks & g1 & EK & EX & R1 & G1 & GR1 & -> & B1).
    rewrite <- map_app in HX.
    destruct (prog_run HC p s1 g1 (ke ++ ks) env' s' R1 G1 B1 O3 HX) as (l & gf & Rf & Gf & GRf & Ef & Bf).
    assert (INJ : forall i k, nth_error env' i = Some (hd k) <-> nth_error ((ke ++ ks) ++ l) i = Some k).
    { intros i k. rewrite Ef, nth_error_map. destruct (nth_error ((ke ++ ks) ++ l) i) as [k'|]; cbn [option_map].
      - split; intros HH; inversion HH; subst; auto. f_equal. unfold hd in *. lia.
      - split; discriminate. }
    assert (Hx2 : nth_error (ke ++ ks ++ l) x = Some j) by (rewrite app_assoc; apply INJ; auto).
    assert (Hf2 : forall r, (r < x)%nat -> nth_error (ke ++ ks ++ l) r <> Some j).
    { intros r Hr HH. apply (Hf r Hr). apply INJ. rewrite <- app_assoc. exact HH. }
    assert (Hjf : (j < gsize gf)%nat).
    { rewrite Forall_forall in Bf. apply Bf. rewrite <- app_assoc. eapply nth_error_In; eauto. }
    assert (Hv2 : (j < gsize g1)%nat -> gval g1 j = t0).
    { intros Hj. rewrite <- (grows_gval g1 gf j GRf Hj). rewrite (rel_var_val s' gf Rf j Hjf) in Hv. inversion Hv; auto. }
    pose proof B1 as B2. apply Forall_app in B2. destruct B2 as [_ B2].
    destruct (op_track g g1 fs ke o ks l (r_wf s g R0) (r_wf s1 g1 R1) GR1 HT D1 O1 O2 (ex_intro _ kk EK) EX Hx2 Hf2 Hv2 B2)
      as (DV & fs1 & T1 & EV).
    assert (D2' : prog_dom p (map (fun f : R -> R => f t0) (fs ++ fs1))).
    { rewrite (tracks_vals _ _ _ T1), map_app, <- DV, (gval_follow g g1 ke GR1 (tracks_live _ _ _ HT)), <- (tracks_vals _ _ _ HT). exact D2. }
    destruct (IH s1 g1 (ke ++ ks) (fs ++ fs1) env' s' R1 G1 T1 D2' HX Hx Hf Hv) as (fs' & g' & ke' & Q1 & Q2 & Q3 & Q4 & Q5 & Q6).
    exists fs', g', ke'. split; auto. split; auto. split; [eapply grows_trans; eauto|]. split; auto. split; auto.
    intros t. rewrite <- Q6, EV. reflexivity.
Qed.

End Track.
