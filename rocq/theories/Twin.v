(* Two runs on states that differ only in storage size, build configuration and
   stale slots give the same results. *)
From Verif Require Import TapeFacts.
From Coq Require Import ZifyBool ZifyNat.
From Verif Require Export Forward.

Section Eqv.
Context {N : Num} {RL : RepLaws N}.

Record eqv (g g' : graph) : Prop := {
  e_nodes : g_nodes g' = g_nodes g;
  e_arrs : g_arrs g' = g_arrs g;
  e_nest : g_nest g' = g_nest g;
  e_top : g_top g' = g_top g;
  e_adj : forall j, (j < gsize g)%nat -> g_adj g' j = g_adj g j;
  e_ch : forall j nd, nth_error (g_nodes g) j = Some nd -> g_ch g' j = g_ch g j \/ n_body nd = BRec [] []
}.

Lemma eqv_refl g : eqv g g.
Proof. constructor; auto. Qed.

Lemma eqv_size g g' : eqv g g' -> gsize g' = gsize g.
Proof. intros E. unfold gsize. rewrite (e_nodes _ _ E). auto. Qed.

Lemma eqv_val g g' j : eqv g g' -> gval g' j = gval g j.
Proof. intros E. unfold gval. rewrite (e_nodes _ _ E). auto. Qed.

Lemma eqv_vals g g' l : eqv g g' -> map (gval g') l = map (gval g) l.
Proof. intros E. apply map_ext. intros; apply eqv_val; auto. Qed.

Lemma eqv_areg g g' env r : eqv g g' -> areg g' env r = areg g env r.
Proof. intros E. unfold areg. rewrite (eqv_size _ _ E). auto. Qed.

Lemma eqv_aregs g g' env l : eqv g g' -> aregs g' env l = aregs g env l.
Proof. intros E. induction l as [|r l IH]; cbn [aregs]; auto. rewrite (eqv_areg _ _ _ _ E), IH. auto. Qed.

Lemma eqv_act g g' env o : eqv g g' -> act_op g' env o = act_op g env o.
Proof.
  intros E. destruct o; cbn [act_op]; rewrite ?(eqv_areg _ _ _ _ E), ?(eqv_aregs _ _ _ _ E); auto.
  - destruct (areg g env a) as [k|]; auto.
    destruct u; cbn [act_un]; unfold anew1, act_abs; rewrite ?(eqv_val _ _ _ E); auto.
  - destruct (areg g env x) as [k1|]; auto. destruct (areg g env y) as [k2|]; auto.
    destruct b; cbn [act_vv]; rewrite ?(eqv_val _ _ _ E); auto.
  - destruct (areg g env x) as [k|]; auto.
    destruct b; cbn [act_vd]; unfold anew1, act_abs; rewrite ?(eqv_val _ _ _ E); auto.
  - destruct (areg g env y) as [k|]; auto.
    destruct b; cbn [act_dv]; rewrite ?(eqv_val _ _ _ E); auto.
  - destruct (aregs g env l) as [k|]; auto. rewrite (eqv_vals _ _ _ E). auto.
  - destruct (aregs g env l) as [k|]; auto. rewrite (eqv_vals _ _ _ E). auto.
  - destruct (aregs g env l) as [k|]; auto. rewrite (eqv_vals _ _ _ E). auto.
  - destruct (aregs g env l1) as [k1|]; auto. destruct (aregs g env l2) as [k2|]; auto. rewrite !(eqv_vals _ _ _ E). auto.
  - destruct (aregs g env l) as [k|]; auto. rewrite (eqv_vals _ _ _ E). auto.
  - destruct (aregs g env l) as [k|]; auto. rewrite (eqv_vals _ _ _ E). auto.
  - destruct (aregs g env l) as [k|]; auto. rewrite (eqv_vals _ _ _ E). auto.
Qed.

Lemma eqv_new g g' v b ch : eqv g g' -> (ch = None -> b = BRec [] []) ->
  eqv (a_new g v b ch) (a_new g' v b ch).
Proof.
  intros E HB. pose proof (eqv_size _ _ E) as SZ. constructor; unfold a_new, push_top; cbn [g_nodes g_arrs g_nest g_top g_adj g_ch].
  - rewrite (e_nodes _ _ E), (e_top _ _ E). auto.
  - apply E.
  - apply E.
  - rewrite (e_top _ _ E). auto.
  - intros j Hj. rewrite SZ. unfold nupd. destruct (Nat.eqb_spec j (gsize g)); auto. apply (e_adj _ _ E).
    unfold gsize in *. cbn [g_nodes] in Hj. rewrite app_length in Hj. cbn [length] in Hj. lia.
  - intros j nd Hn. destruct (Nat.lt_ge_cases j (gsize g)) as [Hl|Hl].
    + rewrite nth_error_app1 in Hn by exact Hl.
      destruct ch; [rewrite SZ; unfold nupd; replace (Nat.eqb j (gsize g)) with false by lia|]; apply (e_ch _ _ E _ _ Hn).
    + unfold gsize in Hl. rewrite nth_error_app2 in Hn by exact Hl.
      destruct (j - length (g_nodes g))%nat as [|[|q]] eqn:Q; try discriminate. inversion Hn; subst. cbn [n_body].
      destruct ch; [left|right; auto]. rewrite SZ. unfold nupd, gsize. replace (Nat.eqb j (length (g_nodes g))) with true by lia. auto.
Qed.

Lemma eqv_arr g g' m n c : eqv g g' -> eqv (a_arr g m n c) (a_arr g' m n c).
Proof.
  intros E. constructor; unfold a_arr, push_top; cbn [g_nodes g_arrs g_nest g_top g_adj g_ch].
  - apply E.
  - rewrite (e_arrs _ _ E), (e_top _ _ E). auto.
  - apply E.
  - rewrite (e_top _ _ E). auto.
  - apply (e_adj _ _ E).
  - apply (e_ch _ _ E).
Qed.

Lemma eqv_mat ch ia ib ps : forall g g', eqv g g' -> eqv (mat_nodes ch ia ib ps g) (mat_nodes ch ia ib ps g').
Proof.
  unfold mat_nodes. induction ps as [|q ps IH]; intros g g' E; cbn [fold_left]; auto.
  apply IH. apply eqv_new; auto. discriminate.
Qed.

Lemma eqv_amat ch m k n ca cb av bv g g' : eqv g g' ->
  match amat ch m k n ca cb av bv g, amat ch m k n ca cb av bv g' with
  | AOk (ks, g1), AOk (ks', g1') => ks = ks' /\ eqv g1 g1'
  | ABad, ABad => True
  | _, _ => False
  end.
Proof.
  intros E. unfold amat. destruct (_ && _ && _); auto. rewrite (eqv_size _ _ E), (e_arrs _ _ E).
  split; auto. apply eqv_mat. apply eqv_arr. apply eqv_arr. auto.
Qed.

(* leaves are the only records without a chain of their own *)
Definition own_chain (a : act) : Prop :=
  match a with ANew _ ops ds None => ops = [] /\ ds = [] | _ => True end.

Lemma act_own g env o : own_chain (act_op g env o).
Proof.
  destruct o; cbn [act_op own_chain]; auto.
  - destruct (areg g env a) as [k|]; [|exact I]. destruct u; cbn [act_un anew1 own_chain]; auto.
    + destruct (is_nan_d _); [exact I|]. destruct (fle _ _); exact I.
    + destruct (is_nan_d _); [exact I|]. destruct (_ || _); exact I.
    + unfold act_abs. destruct (fgt _ _); [exact I|]. destruct (flt _ _); [exact I|].
      destruct (feq _ _); cbn; auto.
  - destruct (areg g env x) as [k1|]; [|exact I]. destruct (areg g env y) as [k2|]; [|exact I]. destruct b; exact I.
  - destruct (areg g env x) as [k|]; [|exact I]. destruct b; cbn [act_vd];
      repeat match goal with |- own_chain (if ?c then _ else _) => destruct c end; try exact I.
    unfold act_abs. repeat match goal with |- own_chain (if ?c then _ else _) => destruct c end; exact I.
  - destruct (areg g env y) as [k|]; [|exact I]. destruct b; cbn [act_dv];
      repeat match goal with |- own_chain (if ?c then _ else _) => destruct c end; exact I.
  - destruct (aregs g env l); exact I.
  - destruct (aregs g env l); exact I.
  - destruct (aregs g env l); exact I.
  - destruct (aregs g env l1); [|exact I]. destruct (aregs g env l2); [|exact I]. destruct (Nat.eqb _ _); exact I.
  - destruct (aregs g env l); [|exact I]. destruct (Nat.eqb _ _); exact I.
  - destruct (aregs g env l); [|exact I]. destruct (Nat.eqb _ _); exact I.
  - destruct (aregs g env l); [|exact I]. cbv zeta. destruct (Nat.eqb _ _); exact I.
Qed.

Definition ares_eqv {A} (r r' : ares (A * graph)) : Prop :=
  match r, r' with
  | AOk (x, g1), AOk (x', g1') => x = x' /\ eqv g1 g1'
  | AStop, AStop => True
  | ABad, ABad => True
  | _, _ => False
  end.

Lemma eqv_act_res g g' a : eqv g g' -> own_chain a ->
  ares_eqv (abind (do_act g a) (fun p => AOk ([fst p], snd p)))
           (abind (do_act g' a) (fun p => AOk ([fst p], snd p))).
Proof.
  intros E HO. destruct a as [v ops ds ch|k ch| |]; cbn [do_act abind ares_eqv fst snd]; auto.
  - rewrite (eqv_size _ _ E). split; auto. apply eqv_new; auto. intros ->. destruct HO; subst; auto.
  - destruct ch as [c|]; cbn [abind fst snd]; split; auto. constructor; cbn [set_gch g_nodes g_arrs g_nest g_top g_adj g_ch]; try apply E.
    intros j nd Hn. unfold nupd. destruct (Nat.eqb j k); [left; auto|]. apply (e_ch _ _ E _ _ Hn).
Qed.

Lemma eqv_exec g g' env o : eqv g g' -> ares_eqv (aexec_op g env o) (aexec_op g' env o).
Proof.
  intros E. pose proof (eqv_act_res g g' (act_op g env o) E (act_own g env o)) as H.
  destruct o; cbn [aexec_op]; rewrite ?(eqv_act _ _ _ _ E); try exact H; clear H;
    rewrite ?(eqv_aregs _ _ _ _ E).
  - destruct (aregs g env a) as [ka|]; [|exact I]. destruct (aregs g env b) as [kb|]; [|exact I].
    rewrite !(eqv_vals _ _ _ E).
    pose proof (eqv_amat ChMatVV m k n (AVar ka) (AVar kb) (map (gval g) ka) (map (gval g) kb) g g' E) as H.
    unfold ares_eqv. destruct (amat _ _ _ _ _ _ _ _ g) as [[? ?]| |], (amat _ _ _ _ _ _ _ _ g') as [[? ?]| |]; auto.
  - destruct (aregs g env a) as [ka|]; [|exact I]. rewrite !(eqv_vals _ _ _ E).
    pose proof (eqv_amat ChMatVD m k n (AVar ka) (ADat b) (map (gval g) ka) b g g' E) as H.
    unfold ares_eqv. destruct (amat _ _ _ _ _ _ _ _ g) as [[? ?]| |], (amat _ _ _ _ _ _ _ _ g') as [[? ?]| |]; auto.
  - destruct (aregs g env b) as [kb|]; [|exact I]. rewrite !(eqv_vals _ _ _ E).
    pose proof (eqv_amat ChMatDV m k n (ADat a) (AVar kb) a (map (gval g) kb) g g' E) as H.
    unfold ares_eqv. destruct (amat _ _ _ _ _ _ _ _ g) as [[? ?]| |], (amat _ _ _ _ _ _ _ _ g') as [[? ?]| |]; auto.
Qed.

(* ---- sweeps, under two build configurations ---- *)
Context {C1 C2 : Cfg N}.

Lemma contrib_cfg ch v a xs ds : (exists j, @junk N C1 = Some j) -> (exists j, @junk N C2 = Some j) ->
  @contrib N C1 ch v a xs ds = @contrib N C2 ch v a xs ds.
Proof.
  intros [j1 J1] [j2 J2]. unfold contrib, leaf_safe. rewrite J1, J2. reflexivity.
Qed.

Lemma leaf_effect {C : Cfg N} g k nd : (exists j, @junk N C = Some j) -> good g ->
  nth_error (g_nodes g) k = Some nd -> n_body nd = BRec [] [] -> effect g k = Some [].
Proof.
  intros [j J] HG E B. unfold effect. rewrite E, B. cbn [map].
  pose proof (gd_fit g HG k (nth_error_lt _ _ _ E)) as HF. unfold fits in HF. rewrite E, B in HF. cbn [length] in HF.
  unfold contrib, leaf_safe. rewrite J. cbn [is_nil andb]. unfold cshape in HF. cbn [Nat.eqb andb] in HF.
  destruct (g_ch g k); cbn in *; auto; discriminate.
Qed.

Lemma eqv_effect g g' k : (exists j, @junk N C1 = Some j) -> (exists j, @junk N C2 = Some j) ->
  good g -> good g' -> eqv g g' -> (k < gsize g)%nat ->
  @effect N C2 g' k = @effect N C1 g k.
Proof.
  intros J1 J2 HG HG' E Hk. destruct (lt_nth_error _ _ Hk) as [nd En].
  assert (En' : nth_error (g_nodes g') k = Some nd) by (rewrite (e_nodes _ _ E); auto).
  destruct (e_ch _ _ E _ _ En) as [Ec|Eb].
  - unfold effect. rewrite En, En', Ec, (e_adj _ _ E) by auto. rewrite (e_arrs _ _ E).
    destruct (n_body nd) as [ops ds|i j ia ib].
    + rewrite (eqv_vals _ _ _ E). f_equal. symmetry. apply contrib_cfg; auto.
    + destruct (g_ch g k); auto; destruct (nth_error (g_arrs g) ia) as [[? ? [?|?] ?]|]; auto;
      destruct (nth_error (g_arrs g) ib) as [[? ? [?|?] ?]|]; auto.
      destruct (_ && _ && _); auto. f_equal. f_equal; f_equal; apply map_ext; intros; rewrite (eqv_val _ _ _ E); auto.
  - rewrite (leaf_effect g k nd J1 HG En Eb), (leaf_effect g' k nd J2 HG' En' Eb). auto.
Qed.

Lemma eqv_set_gadj g g' f f' : eqv g g' -> (forall j, (j < gsize g)%nat -> f' j = f j) ->
  eqv (set_gadj g f) (set_gadj g' f').
Proof. intros E H. constructor; cbn [set_gadj g_nodes g_arrs g_nest g_top g_adj g_ch]; try apply E. auto. Qed.

Lemma eqv_sweep n : forall lo g g', (exists j, @junk N C1 = Some j) -> (exists j, @junk N C2 = Some j) ->
  gwf g -> good g -> good g' -> eqv g g' -> (lo + n <= gsize g)%nat ->
  match @asweep N C1 lo n g, @asweep N C2 lo n g' with
  | Some g1, Some g1' => eqv g1 g1'
  | None, None => True
  | _, _ => False
  end.
Proof.
  induction n as [|n IH]; intros lo g g' J1 J2 W HG HG' E Hn; cbn [asweep]; auto.
  rewrite (eqv_effect g g' (lo + n) J1 J2 HG HG' E) by lia.
  destruct (effect g (lo + n)) as [l|] eqn:EL; auto.
  apply IH; auto.
  - apply gwf_set_gadj; auto.
  - apply good_set_gadj; auto.
  - apply good_set_gadj; auto.
  - apply eqv_set_gadj; auto. intros j Hj. apply (apply_effect_ext l _ _ (gsize g)); auto.
    + intros i Hi. apply (e_adj _ _ E); auto.
    + eapply Forall_impl; [|apply (effect_lt g (lo + n) l W EL)]. cbv beta. intros; lia.
  - cbn [set_gadj gsize g_nodes]. unfold gsize in *. cbn [set_gadj g_nodes]. lia.
Qed.

Lemma eqv_step g g' env c : (exists j, @junk N C1 = Some j) -> (exists j, @junk N C2 = Some j) ->
  gwf g -> good g -> good g' -> eqv g g' ->
  ares_eqv (@gstep N C1 g env c) (@gstep N C2 g' env c).
Proof.
  intros J1 J2 W HG HG' E.
  assert (SEED : forall k, eqv (a_seed g k) (a_seed g' k)).
  { intros k. apply eqv_set_gadj; auto. apply nupd_ext. intros; apply (e_adj _ _ E); auto. }
  destruct c; cbn [gstep astep]; rewrite ?(eqv_areg _ _ _ _ E).
  - pose proof (eqv_exec g g' env o E) as H. unfold ares_eqv in *.
    destruct (aexec_op g env o) as [[? ?]| |], (aexec_op g' env o) as [[? ?]| |]; cbn [abind fst snd]; auto.
    destruct H as [-> H]. auto.
  - destruct (areg g env r) as [k|]; cbn [ares_eqv]; auto. split; auto.
    assert (EN : g_nodes (set_gval g' k d) = g_nodes (set_gval g k d)).
    { unfold set_gval, set_gnodes. cbn [g_nodes]. unfold gsize. rewrite (e_nodes _ _ E). auto. }
    constructor; [exact EN|apply E|apply E|apply E| |].
    + intros j Hj. rewrite set_gval_size in Hj. apply (e_adj _ _ E); auto.
    + intros j nd Hn. destruct (set_gval_inv _ _ _ _ _ Hn) as (nd0 & E0 & B & _ & _). rewrite B.
      apply (e_ch _ _ E _ _ E0).
  - destruct (areg g env r) as [k|] eqn:EA; cbn [ares_eqv]; auto. unfold agrad. rewrite (eqv_size _ _ E).
    destruct (Nat.ltb k (gsize g)); cbn [aquiet ares_eqv]; auto.
    pose proof (eqv_sweep (gsize g) 0 (a_seed g k) (a_seed g' k) J1 J2 (gwf_set_gadj _ _ W)
      (good_set_gadj _ _ HG) (good_set_gadj _ _ HG') (SEED k) (le_n _)) as H.
    destruct (@asweep N C1 _ _ _), (@asweep N C2 _ _ _); cbn [aquiet ares_eqv]; auto.
  - destruct (areg g env r) as [k|] eqn:EA; cbn [ares_eqv]; auto. unfold agrad_nested. rewrite (eqv_size _ _ E), (e_nest _ _ E).
    destruct (g_nest g) as [|mk rst] eqn:EN; cbn [aquiet ares_eqv]; auto.
    destruct (Nat.ltb k (gsize g)); cbn [aquiet ares_eqv]; auto.
    pose proof (w_nest g W) as WN. rewrite EN in WN. cbn [marks_ok] in WN.
    pose proof (eqv_sweep (gsize g - mk_n mk) (mk_n mk) (a_seed g k) (a_seed g' k) J1 J2 (gwf_set_gadj _ _ W)
      (good_set_gadj _ _ HG) (good_set_gadj _ _ HG') (SEED k)) as H.
    change (gsize (a_seed g k)) with (gsize g) in H. specialize (H ltac:(lia)).
    destruct (@asweep N C1 _ _ _), (@asweep N C2 _ _ _); cbn [aquiet ares_eqv]; auto.
  - split; auto. apply eqv_set_gadj; auto. intros j Hj. rewrite (eqv_size _ _ E).
    destruct (_ && _); auto. apply (e_adj _ _ E); auto.
  - rewrite (e_nest _ _ E). destruct (g_nest g); cbn [ares_eqv]; auto. split; auto.
    apply eqv_set_gadj; auto. intros j Hj. rewrite (eqv_size _ _ E).
    destruct (_ && _); auto. apply (e_adj _ _ E); auto.
  - unfold abegin. rewrite (e_nest _ _ E), (eqv_size _ _ E), (e_arrs _ _ E), (e_top _ _ E).
    destruct (Nat.ltb _ _); cbn [aquiet ares_eqv]; auto. split; auto.
    constructor; cbn [g_nodes g_arrs g_nest g_top g_adj g_ch]; auto; try apply E.
  - rewrite (e_nest _ _ E). destruct (g_nest g) as [|mk rst]; cbn [ares_eqv]; auto. split; auto.
    constructor; unfold atrunc; cbn [g_nodes g_arrs g_nest g_top g_adj g_ch]; auto.
    + rewrite (e_nodes _ _ E). auto.
    + rewrite (e_arrs _ _ E). auto.
    + intros j Hj. apply (e_adj _ _ E). unfold gsize in *. cbn [g_nodes] in Hj. rewrite firstn_length in Hj. lia.
    + intros j nd Hn. apply (e_ch _ _ E j nd).
      rewrite <- (firstn_skipn (mk_n mk) (g_nodes g)). rewrite nth_error_app1; auto. eapply nth_error_lt; eauto.
  - destruct (areg g env r) as [k|] eqn:EA; cbn [ares_eqv]; auto. rewrite (eqv_val _ _ _ E). auto.
  - destruct (areg g env r) as [k|] eqn:EA; cbn [ares_eqv]; auto. rewrite (e_adj _ _ E); auto.
    eapply areg_lt; eauto.
  - destruct (areg g env a); cbn [ares_eqv]; auto. destruct (areg g env b); cbn [ares_eqv]; auto.
    rewrite !(eqv_val _ _ _ E). auto.
  - destruct (areg g env a); cbn [ares_eqv]; auto. rewrite (eqv_val _ _ _ E). auto.
  - destruct (areg g env b); cbn [ares_eqv]; auto. rewrite (eqv_val _ _ _ E). auto.
Qed.

(* both runs return the same variables and observations *)
Definition agree {A} (Q : st -> st -> Prop) (r1 r2 : res (A * st)) : Prop :=
  match r1, r2 with
  | Ok (x, s1), Ok (y, s2) => x = y /\ Q s1 s2
  | ErrStop, ErrStop => True
  | Undef IntOverflow, _ => True
  | _, Undef IntOverflow => True
  | _, _ => False
  end.

Definition twins (s1 s2 : st) : Prop :=
  exists g1 g2, @Rel N C1 s1 g1 /\ @Rel N C2 s2 g2 /\ good g1 /\ good g2 /\ eqv g1 g2.

Lemma twin_cmd s1 s2 env c : @practical N C1 -> @practical N C2 -> twins s1 s2 -> handles env ->
  cmd_ok s1 env c -> cmd_ok s2 env c ->
  agree twins (@exec_cmd N C1 env c s1) (@exec_cmd N C2 env c s2) /\
  forall p s', @exec_cmd N C1 env c s1 = Ok (p, s') -> handles (fst p).
Proof.
  intros P1 P2 (g1 & g2 & R1 & R2 & G1 & G2 & E) HH O1 O2.
  pose proof (eqv_step g1 g2 (nodes_of env) c (proj2 P1) (proj2 P2) (r_wf _ _ R1) G1 G2 E) as HS.
  destruct (@cmd_sim N RL C1 s1 g1 env c P1 R1 G1 HH O1) as [[A1 B1]|(ks & os & g1' & A1 & B1 & W1)];
  destruct (@cmd_sim N RL C2 s2 g2 env c P2 R2 G2 HH O2) as [[A2 B2]|(ks2 & os2 & g2' & A2 & B2 & W2)];
  rewrite A1, A2 in HS; cbn [ares_eqv] in HS; try tauto.
  - rewrite B1, B2. split; [exact I|discriminate].
  - destruct HS as [HS1 HS2]. inversion HS1; subst ks2 os2.
    specialize (W1 True (fun _ => I)). specialize (W2 True (fun _ => I)).
    destruct (@exec_cmd N C1 env c s1) as [[p1 s1']| |[]|]; simpl in W1; try tauto;
    destruct (@exec_cmd N C2 env c s2) as [[p2 s2']| |[]|]; simpl in W2; try tauto;
    cbn [agree]; (split; [|try discriminate]); auto.
    + destruct W1 as [W1 RR1], W2 as [W2 RR2]. cbn [fst snd] in *. subst. split; auto.
      exists g1', g2'. auto.
    + intros p s' HE. inversion HE; subst. destruct W1 as [W1 _]. cbn [fst] in W1. subst p. apply handles_hd.
    + intros p s' HE. inversion HE; subst. destruct W1 as [W1 _]. cbn [fst] in W1. subst p. apply handles_hd.
Qed.

Theorem twin_run p : @practical N C1 -> @practical N C2 -> forall env s1 s2, twins s1 s2 -> handles env ->
  @client_ok N C1 p env s1 -> @client_ok N C2 p env s2 ->
  agree twins (@run N C1 p env s1) (@run N C2 p env s2).
Proof.
  intros P1 P2. induction p as [|c k IH]; intros env s1 s2 T HH O1 O2; cbn [run client_ok] in *.
  - cbn [mret agree]. auto.
  - destruct O1 as [O1 K1], O2 as [O2 K2]. destruct (twin_cmd s1 s2 env c P1 P2 T HH O1 O2) as [A HD].
    unfold mbind at 1 3. unfold agree in A.
    destruct (@exec_cmd N C1 env c s1) as [[[h1 o1] s1']| |[]|] eqn:E1; try tauto;
    destruct (@exec_cmd N C2 env c s2) as [[[h2 o2] s2']| |[]|] eqn:E2; try tauto; cbn [bind agree]; auto.
    + destruct A as [A1 A2]. inversion A1; subst h2 o2. cbn [fst snd].
      specialize (HD _ _ eq_refl). cbn [fst] in HD.
      specialize (IH o1 (env ++ h1) s1' s2' A2 (handles_app _ _ HH HD) (K1 _ _ _ eq_refl) (K2 _ _ _ eq_refl)).
      unfold mbind. unfold agree in *.
      destruct (@run N C1 (k o1) (env ++ h1) s1') as [[x1 t1]| |[]|]; try tauto;
      destruct (@run N C2 (k o1) (env ++ h1) s2') as [[x2 t2]| |[]|]; try tauto; cbn [bind mret agree]; auto.
      destruct IH as [-> IH]. auto.
    + destruct (mbind _ _ s1') as [[? ?]| |[]|]; auto.
Qed.

(* what twins share, seen from outside *)
Theorem twins_look s1 s2 : twins s1 s2 ->
  s_head s1 = s_head s2 /\ s_lvl s1 = s_lvl s2 /\ t_head (s_tape s1) = t_head (s_tape s2) /\
  forall h, alive s1 h -> same_val s1 s2 h /\ same_adj s1 s2 h /\
    var_operands s2 h = var_operands s1 h /\ var_data s2 h = var_data s1 h.
Proof.
  intros (g1 & g2 & R1 & R2 & G1 & G2 & E).
  split; [rewrite (r_head s1 _ R1), (r_head s2 _ R2), (eqv_size _ _ E); auto|].
  split; [rewrite (r_lvl s1 _ R1), (r_lvl s2 _ R2), (e_nest _ _ E); auto|].
  split; [rewrite (r_thead s1 _ R1), (r_thead s2 _ R2), (e_top _ _ E); auto|].
  intros h Hh. destruct (alive_node s1 g1 h R1 Hh) as (k & -> & Hk).
  assert (Hk2 : (k < gsize g2)%nat) by (rewrite (eqv_size _ _ E); auto).
  unfold same_val, same_adj. rewrite (rel_var_val s1 g1 R1), (rel_var_val s2 g2 R2) by auto.
  rewrite (rel_var_adj s1 g1 R1), (rel_var_adj s2 g2 R2) by auto.
  rewrite (eqv_val _ _ _ E), (e_adj _ _ E) by auto. split; auto. split; auto.
  destruct (lt_nth_error _ _ Hk) as [nd En].
  assert (En2 : nth_error (g_nodes g2) k = Some nd) by (rewrite (e_nodes _ _ E); auto).
  rewrite (rel_var_operands s1 g1 k nd R1 En), (rel_var_operands s2 g2 k nd R2 En2).
  rewrite (rel_var_data s1 g1 k nd R1 En), (rel_var_data s2 g2 k nd R2 En2). split; auto. f_equal.
  destruct (n_body nd); cbn [zops].
  - apply map_ext. intros. unfold gloc. rewrite (e_nodes _ _ E). auto.
  - unfold galoc. rewrite (e_arrs _ _ E). auto.
Qed.

Lemma twins_init : twins st_init st_init.
Proof.
  exists g_init, g_init. split; [apply rel_init|]. split; [apply rel_init|].
  split; [apply good_init|]. split; [apply good_init|]. apply eqv_refl.
Qed.

End Eqv.
