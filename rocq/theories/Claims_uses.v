(* Lemmas behind C08 (independent variables declared first) and C13 (variables
   the dependent does not use). *)
From Verif Require Import TapeFacts.
From Coq Require Import ZifyBool ZifyNat.
From Verif Require Export Claims_deriv.
Local Open Scope R_scope.

(* number of variables a call returns *)
Definition n_res {N : Num} (o : op) : nat :=
  match o with OMatVV m _ n _ _ | OMatVD m _ n _ _ | OMatDV m _ n _ _ => (m * n)%nat | _ => 1%nat end.

(* which registers are, or are computed from, register x *)
Fixpoint uses {N : Num} (x : nat) (p : list op) (d : list bool) : list bool :=
  match p with
  | [] => d
  | o :: q => uses x q (d ++ map (fun i => Nat.eqb i x || existsb (fun r => nth r d false) (op_regs o))
                              (seq (length d) (n_res o)))
  end.

Section ClaimsUses.
Context {lg : R -> R} {C : Cfg (RNum lg)}.
Notation N := (RNum lg).
Notation graph := (@graph N).

(* ---- the record of a result mentions only the operands of the call ---- *)

Definition act_within (kk : list nat) (a : @act N) : Prop :=
  match a with
  | ANew _ ops _ _ => incl ops kk
  | AAlias k ch => kk = [k] /\ ch = None
  | _ => True
  end.

Lemma act_op_within (g : graph) env o kk : aregs g env (op_regs o) = Some kk -> neutral o = false -> act_within kk (act_op g env o).
Proof.
  intros EK HN.
  assert (ONE : forall a, @aregs N g env [a] = Some kk -> exists k, areg g env a = Some k /\ kk = [k]).
  { intros a H. cbn [aregs] in H. destruct (areg g env a) as [k|]; [|discriminate]. apply some_eq in H; subst. eauto. }
  assert (IR : forall l : list nat, incl l l) by (intros l; apply incl_refl).
  assert (IN : forall l : list nat, incl [] l) by (intros l; apply incl_nil_l).
  destruct o; cbn [op_regs] in EK; cbn [act_op]; try exact Logic.I.
  - apply IN.
  - apply IN.
  - destruct (ONE _ EK) as (k & -> & ->). destruct u; cbn [act_un act_within anew1]; auto.
    + destruct (is_nan_d _); cbn [act_within]; auto. destruct (fle _ _); cbn [act_within anew1]; auto.
    + destruct (is_nan_d _); cbn [act_within]; auto. destruct (_ || _); cbn [act_within anew1]; auto.
    + unfold act_abs. destruct (fgt _ _); cbn [act_within]; auto. destruct (flt _ _); cbn [act_within]; auto.
      destruct (feq _ _); cbn [act_within]; auto.
  - cbn [aregs] in EK. destruct (areg g env x) as [k1|]; [|discriminate]. destruct (areg g env y) as [k2|]; [|discriminate].
    apply some_eq in EK; subst. destruct b; cbn [act_vv act_within]; auto.
  - destruct (ONE _ EK) as (k & -> & ->). cbn [neutral] in HN.
    destruct b; cbn [act_vd]; unfold fne; try (rewrite HN; cbn [negb act_within]; auto).
    repeat match goal with |- context [if ?c then _ else _] => destruct c; cbn [act_within anew1]; auto end.
  - destruct (ONE _ EK) as (k & -> & ->). cbn [neutral] in HN.
    destruct b; cbn [act_dv]; unfold fne; try (rewrite HN); cbn [negb act_within]; auto.
  - rewrite EK. cbn [act_within]. auto.
  - rewrite EK. cbn [act_within]. auto.
  - rewrite EK. cbn [act_within]. auto.
  - rewrite aregs_app in EK. destruct (aregs g env l1); [|discriminate]. destruct (aregs g env l2); [|discriminate].
    apply some_eq in EK; subst. destruct (Nat.eqb _ _); cbn [act_within]; auto.
  - rewrite EK. destruct (Nat.eqb _ _); cbn [act_within]; auto.
  - rewrite EK. destruct (Nat.eqb _ _); cbn [act_within]; auto.
  - rewrite EK. destruct (Nat.eqb _ _); cbn [act_within]; auto.
Qed.

Lemma combine_within (ops kk : list nat) (cl : list R) : incl ops kk -> Forall (fun p => In (fst p) kk) (combine ops cl).
Proof.
  intros H. apply Forall_forall. intros [i v] Hp. apply in_combine_l in Hp. cbn [fst]. auto.
Qed.

Lemma mrow_incl m k i (l : list nat) : length l = (m * k)%nat -> (i < m)%nat -> incl (mrow O m k i l) l.
Proof. intros HL Hi x Hx. unfold mrow in Hx. apply in_map_iff in Hx. destruct Hx as (j & <- & Hj). apply in_seq in Hj. apply nth_In. nia. Qed.
Lemma mcol_incl k n j (l : list nat) : length l = (k * n)%nat -> (j < n)%nat -> incl (mcol O k j l) l.
Proof. intros HL Hi x Hx. unfold mcol in Hx. apply in_map_iff in Hx. destruct Hx as (i & <- & Hj). apply in_seq in Hj. apply nth_In. nia. Qed.

(* result q of a call *)
Definition result_within (g g' : graph) (kk : list nat) (q k : nat) : Prop :=
  (kk = [k] /\ g' = g) \/ (k = (gsize g + q)%nat /\ Forall (fun p => In (fst p) kk) (unit_eff g' k)).

Lemma amat_within (g g' : graph) kk ks ch m k n ca cb (av bv : list R) : @amat N ch m k n ca cb av bv g = AOk (ks, g') ->
  is_mat ch = true ->
  (forall ids, ca = AVar ids -> incl ids kk /\ length ids = length av) -> (forall ids, cb = AVar ids -> incl ids kk /\ length ids = length bv) ->
  length ks = (m * n)%nat /\ forall q kq, nth_error ks q = Some kq -> result_within g g' kk q kq.
Proof.
  intros HX HM HA HB. destruct (amat_at _ _ _ _ _ _ _ _ _ _ _ HX) as (L1 & L2 & -> & p1 & p2 & A1 & A2 & HQ).
  split; [apply seq_length|]. intros q kq E. pose proof (nth_error_lt _ _ _ E) as Hq. rewrite seq_length in Hq.
  apply nth_error_nth with (d := O) in E. rewrite seq_nth in E by auto. subst kq. right. split; auto.
  destruct (HQ q Hq) as (_ & nd & E1 & E2 & E3). destruct (pairq_lt m n q Hq) as [P1 P2].
  unfold unit_eff, effect. cbn [set_gadj g_nodes g_adj g_ch g_arrs]. rewrite E1, E2, E3, A1, A2.
  destruct ch; try discriminate HM; destruct ca as [la|la]; try apply Forall_nil; destruct cb as [lb|lb]; try apply Forall_nil;
    (destruct (_ && _ && _); [|apply Forall_nil]).
  - destruct (HA la eq_refl) as [I1 N1]. destruct (HB lb eq_refl) as [I2 N2].
    apply Forall_app. split; apply combine_within; [apply incl_tran with la|apply incl_tran with lb]; auto;
      [eapply mrow_incl|eapply mcol_incl]; eauto; [rewrite N1|rewrite N2]; auto.
  - destruct (HA la eq_refl) as [I1 N1]. apply combine_within; apply incl_tran with la; auto. eapply mrow_incl; eauto. rewrite N1; auto.
  - destruct (HB lb eq_refl) as [I2 N2]. apply combine_within; apply incl_tran with lb; auto. eapply mcol_incl; eauto. rewrite N2; auto.
Qed.

Lemma op_within (g g' : graph) env (o : @op N) kk ks : aregs g env (op_regs o) = Some kk -> neutral o = false ->
  aexec_op g env o = AOk (ks, g') ->
  length ks = n_res o /\ forall q k, nth_error ks q = Some k -> result_within g g' kk q k.
Proof.
  intros EK HN HX. destruct (is_matmul o) eqn:HM.
  - destruct o; try discriminate HM; cbn [aexec_op op_regs n_res] in *.
    + rewrite aregs_app in EK. destruct (aregs g env a) as [ka|] eqn:EA; [|discriminate].
      destruct (aregs g env b) as [kb|] eqn:EB; [|discriminate]. apply some_eq in EK; subst kk.
      eapply amat_within; eauto; intros ids E; inversion E; subst; rewrite map_length; split; auto;
        [apply incl_appl|apply incl_appr]; apply incl_refl.
    + rewrite EK in HX. eapply amat_within; eauto; intros ids E; inversion E; subst; rewrite map_length; split; auto; apply incl_refl.
    + rewrite EK in HX. eapply amat_within; eauto; intros ids E; inversion E; subst; rewrite map_length; split; auto; apply incl_refl.
  - assert (HX2 : abind (do_act g (act_op g env o)) (fun p => AOk ([fst p], snd p)) = AOk (ks, g')).
    { destruct o; try discriminate HM; exact HX. }
    assert (NR : n_res o = 1%nat) by (destruct o; try discriminate HM; reflexivity).
    pose proof (act_op_within g env o kk EK HN) as HW.
    destruct (act_op g env o) as [v ops ds ch|k ch| |]; cbn [do_act abind fst snd act_within] in *; try discriminate.
    + inversion HX2; subst. split; auto. intros q k E. destruct q as [|q]; [|destruct q; discriminate].
      cbn [nth_error] in E. apply some_eq in E. subst k. right. split; [lia|].
      unfold unit_eff, effect, a_new, push_top. cbn [set_gadj g_nodes g_adj g_ch].
      rewrite nth_error_app2 by (unfold gsize; lia). unfold gsize. rewrite Nat.sub_diag. cbn [nth_error n_body n_val].
      destruct (contrib _ _ _ _ _); cbn [option_map]; [|apply Forall_nil]. apply combine_within. exact HW.
    + destruct HW as [-> ->]. cbn [abind fst snd] in HX2. inversion HX2; subst. split; auto.
      intros q k' E. destruct q as [|q]; [|destruct q; discriminate]. cbn [nth_error] in E. apply some_eq in E. subst. left. auto.
Qed.

Lemma uses_len x (p : list (@op N)) : forall d, (length d <= length (uses x p d))%nat.
Proof.
  induction p as [|o p IH]; intros d; cbn [uses]; auto. etransitivity; [|apply IH]. rewrite app_length. lia.
Qed.

Lemma uses_none x (p : list (@op N)) : forall d, Forall (eq false) d -> (length (uses x p d) <= x)%nat -> Forall (eq false) (uses x p d).
Proof.
  induction p as [|o p IH]; intros d HD HL; cbn [uses] in *; auto. apply IH; auto. apply Forall_app. split; auto.
  apply Forall_forall. intros b Hb. apply in_map_iff in Hb. destruct Hb as (i & <- & Hi). apply in_seq in Hi.
  match goal with HL : (length (uses x p ?dd) <= x)%nat |- _ => pose proof (uses_len x p dd) as UL end.
  rewrite app_length, map_length, seq_length in UL. replace (Nat.eqb i x) with false by lia. cbn [orb].
  symmetry. apply not_true_is_false. intros E. apply existsb_exists in E. destruct E as (r & _ & Hr).
  destruct (Nat.ltb_spec r (length d)) as [L|L].
  - rewrite Forall_forall in HD. rewrite <- (HD (nth r d false)) in Hr by (apply nth_In; auto). discriminate.
  - rewrite nth_overflow in Hr by auto. discriminate.
Qed.

(* ---- untouched registers have coefficient zero ---- *)

Section Taint.
Context (x j : nat).

Definition clean (g : graph) : list bool -> list nat -> Prop :=
  Forall2 (fun b k => (k < gsize g)%nat /\ (b = false -> tau g 0 j k = 0)).

Lemma clean_regs (g : graph) d ke l : forall kk, clean g d ke -> aregs g ke l = Some kk ->
  existsb (fun r => nth r d false) l = false -> Forall (fun k => tau g 0 j k = 0) kk.
Proof.
  induction l as [|r l IH]; intros kk HC EK HE; cbn [aregs existsb] in *.
  - apply some_eq in EK; subst; constructor.
  - destruct (areg g ke r) as [k|] eqn:E1; [|discriminate]. destruct (aregs g ke l) as [ks|]; [|discriminate].
    apply some_eq in EK; subst. apply orb_false_iff in HE. destruct HE as [H1 H2]. constructor; [|eauto].
    unfold areg in E1. destruct (nth_error ke r) as [k'|] eqn:E2; [|discriminate].
    destruct (Nat.ltb k' (gsize g)); [|discriminate]. apply some_eq in E1; subst k'.
    apply (Forall2_nth_r _ _ _ _ _ false HC E2). exact H1.
Qed.

Lemma op_clean (g g' : graph) d ke (o : @op N) kk ks : gwf g -> gwf g' -> grows g g' -> clean g d ke ->
  aregs g ke (op_regs o) = Some kk -> neutral o = false -> aexec_op g ke o = AOk (ks, g') ->
  (forall q k, nth_error ks q = Some k -> (length d + q)%nat <> x -> k = (gsize g + q)%nat -> k <> j) ->
  Forall (fun k => (k < gsize g')%nat) ks ->
  clean g' (d ++ map (fun i => Nat.eqb i x || existsb (fun r => nth r d false) (op_regs o)) (seq (length d) (n_res o))) (ke ++ ks).
Proof.
  intros W W' GR HC EK HN HX Hj HB. destruct (op_within g g' ke o kk ks EK HN HX) as [LN HR].
  pose proof (grows_size _ _ GR) as SZ.
  assert (GT : forall k, (k < gsize g)%nat -> tau g' 0 j k = tau g 0 j k) by (intros; apply (grows_tau g g' 0 j); auto).
  apply Forall2_app.
  - eapply Forall2_impl; [|exact HC]. intros b k [H1 H2]. cbv beta. split; [lia|]. intros E. rewrite GT; auto.
  - rewrite <- LN. assert (SH : seq (length d) (length ks) = map (fun q => (length d + q)%nat) (seq 0 (length ks))).
    { generalize (length ks). intros n. generalize (length d). induction n as [|n IH]; intros a; cbn [seq map]; auto.
      rewrite Nat.add_0_r. f_equal. rewrite IH, <- (seq_shift n 0), map_map. apply map_ext. intros; lia. }
    rewrite SH, map_map. apply Forall2_seq. intros q k EQ.
    assert (Bk : (k < gsize g')%nat) by (rewrite Forall_forall in HB; apply HB; eapply nth_error_In; eauto).
    split; auto. intros E. apply orb_false_iff in E. destruct E as [E1 E2]. apply Nat.eqb_neq in E1.
    pose proof (clean_regs g d ke _ kk HC EK E2) as ZK. pose proof (aregs_lt _ _ _ _ EK) as BK.
    destruct (HR q k EQ) as [(-> & ->)|(Ek & HU)].
    + inversion ZK; subst. auto.
    + assert (NJ : k <> j).
      { apply (Hj q); auto. }
      rewrite tau_rec by (auto; lia). apply lsum_zero. intros p Hp. rewrite Forall_forall in HU, ZK, BK.
      specialize (HU p Hp). cbv beta in HU. rewrite GT by (apply BK; exact HU). apply (ZK _ HU).
Qed.

Lemma clean_len (g : graph) d ke : clean g d ke -> length d = length ke.
Proof. induction 1; cbn [length]; auto. Qed.
Lemma clean_live (g : graph) d ke : clean g d ke -> Forall (fun k => (k < gsize g)%nat) ke.
Proof. induction 1 as [|b k d ke [H _] _ IH]; constructor; auto. Qed.

Lemma prog_clean (HC : cfg_ok C) p : forall s (g : graph) ke d env' s', Rel s g -> sound g -> clean g d ke ->
  prog_ok' p -> exec p (map hd ke) s = Ok (env', s') ->
  ((j < gsize g)%nat \/ (nth_error env' x = Some (hd j) /\ forall r, (r < x)%nat -> nth_error env' r <> Some (hd j))) ->
  exists g' ke', Rel s' g' /\ sound g' /\ env' = map hd ke' /\ clean g' (uses x p d) ke' /\ grows g g'.
Proof.
  induction p as [|o p IH]; intros s g ke d env' s' R0 HG HT HO HX Hx.
  - cbn in HX. inversion HX; subst. exists g, ke. split; auto. split; auto. split; auto. split; auto. apply grows_refl.
  - inversion HO as [|? ? [O1 O2] O3]; subst. cbn [exec] in HX. unfold mbind in HX.
    destruct (exec_op (map hd ke) o s) as [[hs s1]| | |] eqn:E; try discriminate. cbn [bind] in HX.
    destruct (op_run HC s g ke o hs s1 R0 HG (clean_live _ _ _ HT) O1 O2 E) as (kk & ks & g1 & EK & EX & R1 & G1 & GR1 & -> & B1).
    rewrite <- map_app in HX.
    destruct (prog_run HC p s1 g1 (ke ++ ks) env' s' R1 G1 B1 O3 HX) as (l & gf & Rf & Gf & GRf & Ef & Bf).
    pose proof B1 as B2. apply Forall_app in B2. destruct B2 as [_ B2]. pose proof (clean_len _ _ _ HT) as LD.
    assert (NJ : forall q k, nth_error ks q = Some k -> (length d + q)%nat <> x -> k = (gsize g + q)%nat -> k <> j).
    { intros q k EQ Er Ek ->. destruct Hx as [Hx|[Hx Hf]]; [lia|]. rewrite Ef in Hx, Hf. rewrite LD in Er.
      pose proof (nth_error_lt _ _ _ EQ) as Lq.
      assert (EKF : nth_error (map hd ((ke ++ ks) ++ l)) (length ke + q) = Some (hd j)).
      { rewrite nth_error_map. rewrite nth_error_app1 by (rewrite app_length; lia). rewrite nth_error_app2 by lia.
        replace (length ke + q - length ke)%nat with q by lia. rewrite EQ. reflexivity. }
      assert (Hx2 : nth_error ((ke ++ ks) ++ l) x = Some j).
      { rewrite nth_error_map in Hx. destruct (nth_error ((ke ++ ks) ++ l) x) as [k'|]; [|discriminate]. cbn [option_map] in Hx.
        f_equal. assert (hd k' = hd j) by congruence. unfold hd in *. lia. }
      destruct (lt_eq_lt_dec (length ke + q) x) as [[L|L]|L]; [apply (Hf _ L EKF)|lia|].
      rewrite <- app_assoc in Hx2. destruct (Nat.ltb_spec x (length ke)) as [L2|L2].
      - rewrite nth_error_app1 in Hx2 by auto. pose proof (clean_live _ _ _ HT) as BL. rewrite Forall_forall in BL.
        specialize (BL j (nth_error_In _ _ Hx2)). cbv beta in BL. lia.
      - rewrite nth_error_app2 in Hx2 by auto. rewrite nth_error_app1 in Hx2 by lia.
        destruct (op_within g g1 ke o kk ks EK O2 EX) as [_ HR].
        destruct (HR _ _ Hx2) as [(EKK & _)|(E2 & _)]; [|lia].
        pose proof (aregs_lt _ _ _ _ EK) as BK. rewrite EKK in BK. inversion BK; subst. lia. }
    pose proof (op_clean g g1 d ke o kk ks (r_wf _ _ R0) (r_wf _ _ R1) GR1 HT EK O2 EX NJ B2) as T1.
    assert (Hx1 : (j < gsize g1)%nat \/ (nth_error env' x = Some (hd j) /\ forall r, (r < x)%nat -> nth_error env' r <> Some (hd j))).
    { pose proof (grows_size _ _ GR1). destruct Hx as [Hx|Hx]; [left; lia|right; auto]. }
    destruct (IH s1 g1 (ke ++ ks) _ env' s' R1 G1 T1 O3 HX Hx1) as (g' & ke' & Q1 & Q2 & Q3 & Q4 & Q5).
    exists g', ke'. split; auto. split; auto. split; auto. split; auto. eapply grows_trans; eauto.
Qed.

End Taint.

(* C13: x a variable of the program *)
Theorem unused_zero s env (p : list (@op N)) env' s' x h y hy : @practical N C -> (exists g : graph, Rel s g /\ sound g) ->
  Forall (alive s) env -> prog_ok' p -> exec p env s = Ok (env', s') ->
  nth_error env' x = Some h -> ~ alive s h -> (forall r, (r < x)%nat -> nth_error env' r <> Some h) ->
  nth_error env' y = Some hy -> nth y (uses x p (repeat false (length env))) true = false ->
  exists s1 s2, set_zero_all_adj s' = Ok (tt, s1) /\ grad hy s1 = Ok (tt, s2) /\ var_adj s2 h = Ok 0.
Proof.
  intros [HC HJ] (g & R0 & HG) HA HO HX Hx Hn Hf Hy HU.
  destruct (alive_nodes s g env R0 HA) as (ke & -> & HB).
  destruct (prog_run HC p s g ke env' s' R0 HG HB HO HX) as (l & gf & Rf & Gf & GRf & Ef & Bf).
  assert (Ej : exists j, h = hd j /\ (j < gsize gf)%nat).
  { rewrite Ef, nth_error_map in Hx. destruct (nth_error (ke ++ l) x) as [j|] eqn:Ex; [|discriminate]. exists j.
    split; [cbn [option_map] in Hx; congruence|]. rewrite Forall_forall in Bf. apply Bf. eapply nth_error_In; eauto. }
  destruct Ej as (j & -> & Hj).
  assert (Hj0 : (gsize g <= j)%nat).
  { destruct (Nat.ltb_spec j (gsize g)) as [L|L]; auto. exfalso. apply Hn. apply (node_alive s g j R0 L). }
  assert (CL : clean j g (repeat false (length (map hd ke))) ke).
  { rewrite map_length. clear - HB Hj0 R0. pose proof (r_wf _ _ R0) as W. induction HB as [|k ke Hk _ IH]; cbn [repeat length]; constructor; auto.
    split; auto. intros _. apply tau_below; auto. lia. }
  destruct (prog_clean x j HC p s g ke _ env' s' R0 HG CL HO HX (or_intror (conj Hx Hf))) as (g' & ke' & R' & G' & EK & CL' & GR').
  subst env'. rewrite EK, nth_error_map in Hy. destruct (nth_error ke' y) as [k|] eqn:Ey; [|discriminate]. cbn [option_map] in Hy.
  assert (Eh : hy = hd k) by congruence. subst hy.
  destruct (Forall2_nth_r _ _ _ _ _ true CL' Ey) as [Hk TZ].
  assert (Hj' : (j < gsize g')%nat).
  { pose proof (r_head _ _ Rf). pose proof (r_head _ _ R'). lia. }
  destruct (reset_grad HJ s' g' k R' G' Hk) as (s1 & s2 & E1 & E2 & HA2).
  exists s1, s2. split; auto. split; auto. rewrite (HA2 j Hj'), TZ; auto.
Qed.

(* ... x a variable that existed before a program that reads no earlier variable *)
Theorem unread_zero s (p : list (@op N)) env' s' h hy : @practical N C -> (exists g : graph, Rel s g /\ sound g) ->
  prog_ok' p -> exec p [] s = Ok (env', s') -> alive s h -> In hy env' ->
  exists s1 s2, set_zero_all_adj s' = Ok (tt, s1) /\ grad hy s1 = Ok (tt, s2) /\ var_adj s2 h = Ok 0.
Proof.
  intros [HC HJ] (g & R0 & HG) HO HX Hh Hy. destruct (alive_node s g h R0 Hh) as (j & -> & Hj).
  assert (CL : clean j g [] []) by constructor.
  change (@nil Z) with (map hd []) in HX.
  destruct (prog_clean (length env') j HC p s g [] [] env' s' R0 HG CL HO HX (or_introl Hj)) as (g' & ke' & R' & G' & EK & CL' & GR').
  subst env'. apply in_map_iff in Hy. destruct Hy as (k & <- & Hk). apply In_nth_error in Hk. destruct Hk as (y & Ey).
  destruct (Forall2_nth_r _ _ _ _ _ true CL' Ey) as [Hk TZ].
  assert (Hj' : (j < gsize g')%nat) by (pose proof (grows_size _ _ GR'); lia).
  destruct (reset_grad HJ s' g' k R' G' Hk) as (s1 & s2 & E1 & E2 & HA2).
  exists s1, s2. split; auto. split; auto. rewrite (HA2 j Hj'). f_equal. apply TZ.
  rewrite map_length in CL'.
  pose proof (clean_len _ _ _ _ CL') as LC.
  pose proof (uses_none (length ke') p [] (Forall_nil _) ltac:(lia)) as UN.
  pose proof (nth_error_lt _ _ _ Ey) as Ly. rewrite Forall_forall in UN. symmetry. apply UN. rewrite map_length. apply nth_In. lia.
Qed.

End ClaimsUses.
