(* Lemmas behind C08, C37-C40 and the per-call properties: independent variables
   declared first, then a program that uses them. *)
From Verif Require Import TapeFacts.
From Coq Require Import ZifyBool ZifyNat.
From Verif Require Export Claims_uses.
Local Open Scope R_scope.

(* one declaration after another *)
Lemma new_vals_nil {N : Num} {C : Cfg N} s xv s1 : @new_var_vals N C [] s = Ok (xv, s1) -> xv = [] /\ s1 = s.
Proof. unfold new_var_vals. cbn [mmap]. unfold mret. intros H. split; congruence. Qed.
Lemma new_vals_cons {N : Num} {C : Cfg N} x xs s xv s1 : @new_var_vals N C (x :: xs) s = Ok (xv, s1) ->
  exists h sm hs, new_var_val x s = Ok (h, sm) /\ new_var_vals xs sm = Ok (hs, s1) /\ xv = h :: hs.
Proof.
  unfold new_var_vals. cbn [mmap]. unfold mbind. intros HX.
  destruct (new_var_val x s) as [[h sm]| | |] eqn:E1; try discriminate. cbn [bind] in HX.
  destruct (mmap new_var_val xs sm) as [[hs s2]| | |] eqn:E2; try discriminate. cbn [bind] in HX. unfold mret in HX.
  exists h, sm, hs. split; auto. split; congruence.
Qed.

Section LeafAny.
Context {N : Num} {RL : RepLaws N} {C : Cfg N}.

Lemma sound_leaf (g : graph) (x : F) : sound g -> sound (a_new g x (BRec [] []) None).
Proof.
  intros HG. destruct (sound_accept g [] (OVar x) HG (Forall_nil _) Logic.I eq_refl) as [_ A].
  apply (A [gsize g]). reflexivity.
Qed.

(* the state after the declarations *)
Lemma leaf_run (HC : cfg_ok C) xs : forall s (g : graph) xv s1, Rel s g -> sound g -> new_var_vals xs s = Ok (xv, s1) ->
  exists g1, Rel s1 g1 /\ sound g1 /\ grows g g1 /\ xv = map hd (seq (gsize g) (length xs)) /\
    gsize g1 = (gsize g + length xs)%nat /\ map (gval g1) (seq (gsize g) (length xs)) = xs.
Proof.
  induction xs as [|x xs IH]; intros s g xv s1 R0 HG HX.
  - destruct (new_vals_nil _ _ _ HX) as [-> ->]. exists g. split; auto. split; auto. split; [apply grows_refl|]. cbn [length seq map]. split; auto. split; [apply eq_sym, Nat.add_0_r|reflexivity].
  - destruct (new_vals_cons _ _ _ _ _ HX) as (h & sm & hs & E1 & E2 & ->). clear HX.
    pose proof (new_var_val_ok HC _ s g x R0 (fun H => H)) as Y.
    rewrite E1 in Y. unfold yields, wp in Y. cbn [fst snd] in Y. destruct Y as [Eh Rm].
    assert (Gm : sound (a_new g x (BRec [] []) None)).
    { apply sound_leaf; auto. }
    destruct (IH sm _ hs s1 Rm Gm E2) as (g1 & Q1 & Q2 & Q3 & Q4 & Q5 & Q6). rewrite new_size in *.
    exists g1. split; auto. split; auto. split; [eapply grows_trans; [apply grows_new|exact Q3]|]. cbn [length seq map].
    split; [cbn [fst] in Eh; rewrite Eh, Q4; reflexivity|]. split; [lia|]. f_equal; auto.
    destruct (gr_nodes _ _ Q3) as [l El]. unfold gval. rewrite El, nth_error_app1 by (fold (gsize (a_new g x (BRec [] []) None)); rewrite new_size; lia).
    change (gval (a_new g x (BRec [] []) None) (gsize g) = x). rewrite gval_new, Nat.eqb_refl. reflexivity.
Qed.
End LeafAny.

Section ClaimsLeaf.
Context {lg : R -> R} {C : Cfg (RNum lg)}.
Notation N := (RNum lg).
Notation graph := (@graph N).

Definition leaves (xs : list R) : list (@op N) := map (@OVar N) xs.

Lemma exec_leaves xs q : forall env s, @exec N C (leaves xs ++ q) env s =
  mbind (new_var_vals (xs : list (@F N))) (fun xv => exec q (env ++ xv)) s.
Proof.
  induction xs as [|x xs IH]; intros env s; cbn [leaves map app].
  - unfold new_var_vals. cbn. rewrite app_nil_r. reflexivity.
  - cbn [exec]. unfold new_var_vals. cbn [mmap]. cbn [exec_op]. unfold one, mbind.
    destruct (@new_var_val N C x s) as [[h s1]| | |]; auto.
    cbn [bind]. cbn [mret bind]. change (map (@OVar N) xs) with (leaves xs). rewrite IH. unfold mbind, new_var_vals.
    destruct (mmap (@new_var_val N C) xs s1) as [[hs s2]| | |]; auto.
    cbn [bind mret]. rewrite <- app_assoc. reflexivity.
Qed.

(* evaluation with an independent variable moved *)
Lemma hold_out x t from (ys : list R) : (x < from)%nat -> hold x t from ys = ys.
Proof.
  intros H. rewrite hold_seq. apply nth_ext with (d := 0) (d' := 0); [rewrite map_length, seq_length; auto|].
  intros i Hi. rewrite map_length, seq_length in Hi. rewrite (nth_map_in _ _ i 0 O) by (rewrite seq_length; auto).
  rewrite seq_nth by auto. cbn [Nat.add]. replace (Nat.eqb (from + i) x) with false by lia. reflexivity.
Qed.

Lemma hold_shift x t from (ys : list R) : hold (from + x) t from ys = hold x t 0 ys.
Proof.
  rewrite !hold_seq. apply map_ext. intros q. cbn [Nat.add].
  destruct (Nat.eqb_spec q x); destruct (Nat.eqb_spec (from + q) (from + x)); try lia; auto.
Qed.

Lemma eval_with_late x t (q : list (@op N)) : forall ws, (x < length ws)%nat -> eval_with x t q ws = eval q ws.
Proof.
  induction q as [|o q IH]; intros ws H; cbn [eval_with eval]; auto. rewrite hold_out by auto. apply IH. rewrite app_length. lia.
Qed.

Lemma eval_with_leaves x t (q : list (@op N)) xs : forall ws, eval_with x t (leaves xs ++ q) ws = eval_with x t q (ws ++ hold x t (length ws) xs).
Proof.
  induction xs as [|a xs IH]; intros ws; cbn [leaves map app eval_with].
  - rewrite app_nil_r. reflexivity.
  - change (map (@OVar N) xs) with (leaves xs). rewrite IH. cbn [denote]. rewrite <- app_assoc. f_equal. f_equal.
    rewrite app_length, !hold_seq. cbn [length seq map nth app]. f_equal.
    rewrite <- seq_shift, map_map. apply map_ext. intros i. cbn [nth].
    replace (length ws + S i)%nat with (length ws + 1 + i)%nat by lia. reflexivity.
Qed.

Lemma eval_leaves (q : list (@op N)) xs : forall ws, eval (leaves xs ++ q) ws = eval q (ws ++ xs).
Proof.
  induction xs as [|a xs IH]; intros ws; cbn [leaves map app eval]; [rewrite app_nil_r; reflexivity|].
  change (map (@OVar N) xs) with (leaves xs). rewrite IH. cbn [denote]. rewrite <- app_assoc. reflexivity.
Qed.

Lemma prog_dom_leaves (q : list (@op N)) xs : forall ws, prog_dom q (ws ++ xs) -> prog_dom (leaves xs ++ q) ws.
Proof.
  induction xs as [|a xs IH]; intros ws H; cbn [leaves map app prog_dom]; [rewrite app_nil_r in H; exact H|].
  split; [exact Logic.I|]. split; [exact Logic.I|]. split; [reflexivity|].
  change (map (@OVar N) xs) with (leaves xs). apply IH. cbn [denote]. rewrite <- app_assoc. exact H.
Qed.

(* C08 *)
Theorem grad_leaf s env ws xs (q : list (@op N)) env' s' x y hy : @practical N C -> (exists g : graph, Rel s g /\ sound g) ->
  Forall (alive s) env -> mapM (var_val s) env = Ok ws -> prog_dom q (ws ++ xs) -> exec (leaves xs ++ q) env s = Ok (env', s') ->
  (x < length xs)%nat -> nth_error env' y = Some hy ->
  exists h s1 s2 d, nth_error env' (length env + x) = Some h /\ set_zero_all_adj s' = Ok (tt, s1) /\ grad hy s1 = Ok (tt, s2) /\
    var_val s' h = Ok (nth x xs 0) /\ var_adj s2 h = Ok d /\
    is_derive (fun t => nth y (eval q (ws ++ hold x t 0 xs)) 0) (nth x xs 0) d.
Proof.
  intros HP HV HA HW HD HX Hx Hy.
  pose proof (prog_dom_leaves q xs ws HD) as HD'.
  destruct HV as (g & R0 & HG). pose proof HX as HX0. rewrite exec_leaves in HX. unfold mbind in HX.
  destruct (@new_var_vals N C xs s) as [[xv s1]| | |] eqn:EL; try discriminate. cbn [bind] in HX.
  destruct (leaf_run (proj1 HP) xs s g xv s1 R0 HG EL) as (g1 & R1 & G1 & GR1 & -> & SZ & VL).
  destruct (alive_nodes s g env R0 HA) as (ke & -> & HB).
  assert (LW : length ws = length ke).
  { rewrite (vals_nodes s g ke R0 HB) in HW. assert (EW : ws = map (gval g) ke) by congruence. rewrite EW. apply map_length. }
  rewrite map_length.
  assert (HB1 : Forall (fun k => (k < gsize g1)%nat) (ke ++ seq (gsize g) (length xs))).
  { apply Forall_app. split; [eapply Forall_impl; [|exact HB]; cbv beta; lia|]. apply Forall_forall. intros k Hk. apply in_seq in Hk. lia. }
  rewrite <- map_app in HX.
  assert (HO : prog_ok' q) by (eapply prog_dom_ok; eauto).
  destruct (prog_run (proj1 HP) q s1 g1 _ env' s' R1 G1 HB1 HO HX) as (l & gf & Rf & Gf & GRf & Ef & Bf).
  assert (Ex : nth_error env' (length ke + x) = Some (hd (gsize g + x))).
  { rewrite Ef, nth_error_map, <- app_assoc. rewrite nth_error_app2 by lia. replace (length ke + x - length ke)%nat with x by lia.
    rewrite nth_error_app1 by (rewrite seq_length; lia).
    rewrite (nth_error_nth' _ O) by (rewrite seq_length; lia). rewrite seq_nth by auto. reflexivity. }
  assert (Hf : forall r, (r < length ke + x)%nat -> nth_error env' r <> Some (hd (gsize g + x))).
  { intros r Hr E. rewrite Ef, nth_error_map, <- app_assoc in E.
    destruct (Nat.ltb_spec r (length ke)) as [L|L].
    - rewrite nth_error_app1 in E by auto. destruct (nth_error ke r) as [k|] eqn:Ek; [|discriminate]. cbn [option_map] in E.
      rewrite Forall_forall in HB. specialize (HB k (nth_error_In _ _ Ek)). cbv beta in HB.
      assert (hd k = hd (gsize g + x)) by congruence. unfold hd in *. lia.
    - rewrite nth_error_app2, nth_error_app1 in E by (rewrite ?seq_length; lia).
      rewrite (nth_error_nth' _ O) in E by (rewrite seq_length; lia). rewrite seq_nth in E by lia. cbn [option_map] in E.
      assert (hd (gsize g + (r - length ke)) = hd (gsize g + x)) by congruence. unfold hd in *. lia. }
  assert (Hn : ~ alive s (hd (gsize g + x))).
  { unfold alive. rewrite (r_head _ _ R0). unfold hd. lia. }
  destruct (grad_derivative s (map hd ke) ws (leaves xs ++ q) env' s' (length ke + x) _ y hy HP (ex_intro _ g (conj R0 HG)) HA HW HD' HX0 Ex Hn Hf Hy)
    as (s2 & s3 & t0 & d & E1 & E2 & E3 & E4 & E5).
  assert (Ht : t0 = nth x xs 0).
  { rewrite (rel_var_val s' gf Rf) in E3 by (pose proof (grows_size _ _ GRf); lia).
    assert (t0 = gval gf (gsize g + x)) by congruence. subst t0.
    rewrite (grows_gval g1 gf _ GRf) by lia.
    assert (EN : nth x (map (gval g1) (seq (gsize g) (length xs))) 0 = nth x xs 0) by (f_equal; exact VL).
    rewrite (nth_map_in (gval g1) (seq (gsize g) (length xs)) x 0 O) in EN by (rewrite seq_length; auto).
    rewrite seq_nth in EN by auto. exact EN. }
  subst t0. exists (hd (gsize g + x)), s2, s3, d. split; auto. split; auto. split; auto. split; auto. split; auto.
  eapply deriv_ext; [|exact E5]. intros t. cbv beta. rewrite eval_with_leaves.
  rewrite eval_with_late; [rewrite <- LW, hold_shift; reflexivity|]. rewrite app_length, hold_len.
  assert (LW1 : @length R ws = length ke) by exact LW. assert (Hx1 : (x < @length R xs)%nat) by exact Hx. lia.
Qed.

(* values of all registers *)
Theorem prog_eval s env ws (p : list (@op N)) env' s' : @practical N C -> (exists g : graph, Rel s g /\ sound g) ->
  Forall (alive s) env -> mapM (var_val s) env = Ok ws -> prog_dom p ws -> exec p env s = Ok (env', s') ->
  mapM (var_val s') env' = Ok (eval p ws).
Proof.
  intros [HC HJ] (g & R0 & HG) HA HW HD HX. destruct (alive_nodes s g env R0 HA) as (ke & -> & HB).
  rewrite (vals_nodes s g ke R0 HB) in HW. assert (EW : ws = map (gval g) ke) by congruence. subst ws.
  destruct (prog_values HC p s g ke env' s' R0 HG HB HD HX) as (g' & ke' & R' & G' & GR & -> & B' & EV & _).
  rewrite EV. apply vals_nodes; auto.
Qed.

End ClaimsLeaf.
