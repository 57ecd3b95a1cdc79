(* The sweep in exact arithmetic: chain steps are linear in the adjoint, so the
   adjoint a sweep leaves on node j is a combination of the adjoints it starts
   from, with coefficients that depend on the records only. *)
From Verif Require Import TapeFacts.
From Coq Require Import ZifyBool ZifyNat.
From Verif Require Export Calculus Forward Twin.
Local Open Scope R_scope.

(* ---- finite sums ---- *)

Definition sumn (n : nat) (f : nat -> R) : R := rsum (map f (seq 0 n)).

Lemma rsum_app l1 l2 : rsum (l1 ++ l2) = rsum l1 + rsum l2.
Proof. unfold rsum. induction l1 as [|x l IH]; cbn [app fold_right]; [ring|]. rewrite IH. ring. Qed.

Lemma sumn_S n f : sumn (S n) f = sumn n f + f n.
Proof. unfold sumn. rewrite seq_S, map_app, rsum_app. cbn. ring. Qed.

Lemma sumn_ext n f h : (forall i, (i < n)%nat -> f i = h i) -> sumn n f = sumn n h.
Proof.
  intros H. unfold sumn. f_equal. apply map_ext_in. intros i Hi. apply in_seq in Hi. apply H. lia.
Qed.

Lemma sumn_zero n f : (forall i, (i < n)%nat -> f i = 0) -> sumn n f = 0.
Proof.
  induction n as [|n IH]; intros H; [reflexivity|]. rewrite sumn_S, IH, (H n) by (auto; intros; apply H; lia). ring.
Qed.

Lemma sumn_plus n f h : sumn n (fun i => f i + h i) = sumn n f + sumn n h.
Proof. induction n as [|n IH]; [cbn; ring|]. rewrite !sumn_S, IH. ring. Qed.

Lemma sumn_scal n c f : sumn n (fun i => c * f i) = c * sumn n f.
Proof. induction n as [|n IH]; [cbn; ring|]. rewrite !sumn_S, IH. ring. Qed.

Lemma sumn_one n k f : (k < n)%nat -> (forall i, (i < n)%nat -> i <> k -> f i = 0) -> sumn n f = f k.
Proof.
  induction n as [|n IH]; intros Hk H; [lia|]. rewrite sumn_S. destruct (Nat.eq_dec k n) as [->|].
  - rewrite sumn_zero; [ring|]. intros i Hi. apply H; lia.
  - rewrite IH; [|lia|intros; apply H; lia]. rewrite (H n) by lia. ring.
Qed.

Lemma some_eq {A} (x y : A) : Some x = Some y -> x = y.
Proof. intros H. inversion H. reflexivity. Qed.

Ltac rring := match goal with |- ?x = ?y => change (@eq R x y) end; ring.

Section Adjoint.
Context {lg : R -> R} {C : Cfg (RNum lg)}.
Notation N := (RNum lg).
Notation graph := (@graph N).

(* ---- linearity ---- *)

Definition scaled (a : R) (l : list (nat * R)) : list (nat * R) := map (fun p => (fst p, a * snd p)) l.

Lemma contrib_scale ch (v a : R) (xs ds : list R) :
  @contrib N C ch v a xs ds = option_map (map (Rmult a)) (@contrib N C ch v 1 xs ds).
Proof.
  assert (LL : forall (f h : R -> R) l, (forall x, f x = a * h x) ->
    Some (map f l) = option_map (map (Rmult a)) (Some (map h l))).
  { intros f h l H. cbn [option_map]. rewrite map_map. f_equal. apply map_ext. auto. }
  assert (MM : forall l, map (Rmult a) l = map (Rmult a) (map (Rmult 1) l)).
  { intros l. rewrite map_map. apply map_ext. intros. ring. }
  unfold contrib.
  destruct ch; try reflexivity;
    (match goal with |- context [if ?b then _ else _] => destruct b end;
     [match goal with |- context [leaf_safe ?c] => destruct (leaf_safe c) end; reflexivity|]).
  all: try (apply LL; intros x; cbn; unfold Rdiv; ring).
  all: try (match goal with |- context [if ?b then _ else _] => destruct b end; [|reflexivity]; cbn [option_map]; rewrite ?map_app; unfold fmul; cbn [RNum];
            rewrite <- ?MM; reflexivity).
  all: destruct xs as [|x [|y [|z t]]]; try reflexivity;
       try (destruct ds as [|d [|e r]]; try reflexivity).
  all: try (match goal with |- context [if fne _ f0 then _ else _] => idtac end;
            match goal with |- context [if ?b then _ else _] => destruct b end; [|reflexivity]).
  all: try (unfold is_nan_d, fne; cbn; unfold req; destruct (Req_EM_T v v); [reflexivity|tauto]).
  all: cbn; unfold Rdiv.
  all: repeat match goal with
       | |- Some _ = Some _ => apply f_equal
       | |- _ :: _ = _ :: _ => apply f_equal2
       | |- [] = [] => reflexivity
       end; match goal with |- ?x = ?y => change (@eq R x y) end; ring.
Qed.

(* contributions of one chain step for adjoint 1 *)
Definition unit_eff (g : graph) (k : nat) : list (nat * R) :=
  match @effect N C (set_gadj g (fun _ => 1)) k with Some l => l | None => [] end.

Lemma combine_scale (ks : list nat) a (l : list R) : combine ks (map (Rmult a) l) = scaled a (combine ks l).
Proof.
  revert l. induction ks as [|k ks IH]; intros [|x l]; cbn [combine map scaled]; auto.
  rewrite IH. reflexivity.
Qed.

Lemma scaled_app a l1 l2 : scaled a (l1 ++ l2) = scaled a l1 ++ scaled a l2.
Proof. apply map_app. Qed.

Lemma effect_scale (g : graph) f k l : @effect N C (set_gadj g f) k = Some l -> l = scaled (f k) (unit_eff g k).
Proof.
  unfold unit_eff, effect. cbn [set_gadj g_nodes g_adj g_ch g_arrs].
  destruct (nth_error (g_nodes g) k) as [nd|]; [|discriminate].
  destruct (n_body nd) as [ops ds|i j ia ib].
  - replace (map (gval (set_gadj g f)) ops) with (map (gval (set_gadj g (fun _ => 1))) ops) by reflexivity.
    rewrite contrib_scale. cbn [set_gadj g_nodes g_adj g_ch g_arrs].
    destruct (@contrib N C (g_ch g k) (n_val nd) 1 _ ds) as [c|]; [|discriminate].
    cbn [option_map]. intros H. apply some_eq in H. subst l. apply combine_scale.
  - assert (MM : forall (h : nat -> R) c, map (fun x => f k * h x) c = map (Rmult (f k)) (map (fun x => 1 * h x) c)).
    { intros h c. rewrite map_map. apply map_ext. intros. rring. }
    assert (M1 : forall c, map (Rmult (f k)) c = map (Rmult (f k)) (map (Rmult 1) c)).
    { intros c. rewrite map_map. apply map_ext. intros. rring. }
    destruct (g_ch g k); try discriminate;
    try (intros H; apply some_eq in H; subst l; reflexivity);
    destruct (nth_error (g_arrs g) ia) as [[m kk [la|da] l1]|]; try discriminate;
    destruct (nth_error (g_arrs g) ib) as [[kk' n [lb|db] l2]|]; try discriminate;
    (destruct (_ && _ && _); [|discriminate]); intros H; apply some_eq in H; subst l; cbn [fmul RNum].
    + rewrite scaled_app, <- !combine_scale. f_equal; f_equal; apply MM.
    + rewrite <- combine_scale. f_equal. apply M1.
    + rewrite <- combine_scale. f_equal. apply M1.
Qed.

(* rate of change of a node, given the rates of its operands *)
Definition lsum (l : list (nat * R)) (tau : nat -> R) : R := rsum (map (fun p => snd p * tau (fst p)) l).

Lemma lsum_scaled a l tau : lsum (scaled a l) tau = a * lsum l tau.
Proof.
  unfold lsum, scaled. rewrite map_map. cbn [fst snd]. induction l as [|p l IH]; cbn [map rsum fold_right]; [rring|].
  unfold rsum in IH. rewrite IH. rring.
Qed.

Lemma lsum_combine (ks : list nat) cl tau : lsum (combine ks cl) tau = rdot cl (map tau ks).
Proof.
  unfold lsum. revert cl. induction ks as [|k ks IH]; intros [|c cl]; cbn [combine map]; auto.
  rewrite rdot_cons, <- IH. reflexivity.
Qed.

Lemma lsum_app l1 l2 tau : lsum (l1 ++ l2) tau = lsum l1 tau + lsum l2 tau.
Proof. unfold lsum. rewrite map_app. apply rsum_app. Qed.

Lemma lsum_ext l t1 t2 : (forall p, In p l -> t1 (fst p) = t2 (fst p)) -> lsum l t1 = lsum l t2.
Proof. intros H. unfold lsum. f_equal. apply map_ext_in. intros p Hp. rewrite (H p); auto. Qed.

Lemma lsum_zero l tau : (forall p, In p l -> tau (fst p) = 0) -> lsum l tau = 0.
Proof.
  unfold lsum. induction l as [|p l IH]; intros H; [reflexivity|]. cbn [map rsum fold_right].
  rewrite (H p) by (left; auto). unfold rsum in IH. rewrite IH by (intros; apply H; right; auto). rring.
Qed.

Lemma apply_sum l : forall f n tau, Forall (fun p => (fst p < n)%nat) l ->
  sumn n (fun i => @apply_effect N l f i * tau i) = sumn n (fun i => f i * tau i) + lsum l tau.
Proof.
  induction l as [|p l IH]; intros f n tau HF; [unfold lsum; cbn; rring|].
  inversion HF; subst. change (@apply_effect N (p :: l) f) with (@apply_effect N l (@addto N f p)).
  rewrite IH by auto. change (lsum (p :: l) tau) with (snd p * tau (fst p) + lsum l tau).
  rewrite <- Rplus_assoc. f_equal.
  transitivity (sumn n (fun i => f i * tau i + (if Nat.eqb i (fst p) then snd p * tau (fst p) else 0))).
  - apply sumn_ext. intros i _. unfold addto, nupd. destruct (Nat.eqb_spec i (fst p)) as [->|]; cbn [fadd RNum]; rring.
  - rewrite sumn_plus. f_equal. rewrite (sumn_one n (fst p)); auto.
    + rewrite Nat.eqb_refl. reflexivity.
    + intros i _ Hi. destruct (Nat.eqb_spec i (fst p)); [lia|reflexivity].
Qed.

Lemma apply_other l : forall f i, Forall (fun p => fst p <> i) l -> @apply_effect N l f i = f i.
Proof.
  induction l as [|p l IH]; intros f i HF; auto. inversion HF; subst. cbn [apply_effect fold_left].
  change (@apply_effect N l (@addto N f p) i = f i). rewrite IH by auto. unfold addto, nupd.
  destruct (Nat.eqb_spec i (fst p)); [congruence|reflexivity].
Qed.

Lemma unit_eff_lt g k : gwf g -> Forall (fun p => (fst p < k)%nat) (unit_eff g k).
Proof.
  intros W. unfold unit_eff. destruct (effect (set_gadj g (fun _ => 1)) k) as [l|] eqn:E; [|constructor].
  exact (effect_lt _ _ _ (gwf_set_gadj _ _ W) E).
Qed.

(* the last node of a sweep, and everything above, keeps its adjoint *)
Lemma sweep_above (g : graph) lo : gwf g -> forall n (f : nat -> R) g', asweep lo n (set_gadj g f) = Some g' ->
  forall i, (lo + n <= S i)%nat -> @g_adj N g' i = f i.
Proof.
  intros W. induction n as [|n IH]; intros f g' E i Hi; cbn [asweep] in E.
  - apply some_eq in E. subst g'. reflexivity.
  - destruct (effect (set_gadj g f) (lo + n)) as [l|] eqn:EE; [|discriminate].
    pose proof (effect_lt _ _ _ (gwf_set_gadj g f W) EE) as HL.
    change (asweep lo n (set_gadj g (@apply_effect N l f)) = Some g') in E.
    rewrite (IH _ _ E i) by lia. apply apply_other. eapply Forall_impl; [|exact HL]. cbv beta. intros; lia.
Qed.

(* THE SWEEP: if tau gives the rate at which each node changes with node j, the
   adjoint of j afterwards is the sum of all adjoints weighted with tau. *)
Lemma sweep_linear (g : graph) lo j (tau : nat -> R) : gwf g ->
  tau j = 1 -> (forall k, (k < j)%nat -> tau k = 0) ->
  (forall k, (k < lo)%nat -> k <> j -> tau k = 0) ->
  forall n (f : nat -> R) g', (forall k, (lo <= k < lo + n)%nat -> k <> j -> tau k = lsum (unit_eff g k) tau) ->
  asweep lo n (set_gadj g f) = Some g' -> (j < lo + n)%nat ->
  @g_adj N g' j = sumn (lo + n) (fun i => f i * tau i).
Proof.
  intros W T1 T0 TL. induction n as [|n IH]; intros f g' TR E Hj.
  - cbn [asweep] in E. apply some_eq in E. subst g'. cbn [set_gadj g_adj].
    rewrite (sumn_one _ j); [rewrite T1; rring|lia|].
    intros i Hi Hne. rewrite TL by (auto; lia). rring.
  - destruct (Nat.eq_dec j (lo + n)) as [Ej|Ej].
    + rewrite (sweep_above g lo W (S n) f g' E j) by lia.
      rewrite (sumn_one _ j); [rewrite T1; rring|lia|].
      intros i Hi Hne. rewrite T0 by lia. rring.
    + cbn [asweep] in E. destruct (effect (set_gadj g f) (lo + n)) as [l|] eqn:EE; [|discriminate].
      pose proof (effect_lt _ _ _ (gwf_set_gadj g f W) EE) as HL.
      pose proof (effect_scale _ _ _ _ EE) as ES.
      change (asweep lo n (set_gadj g (@apply_effect N l f)) = Some g') in E.
      rewrite (IH _ _ (fun k Hk => TR k ltac:(lia)) E) by lia.
      rewrite apply_sum by auto. replace (lo + S n)%nat with (S (lo + n)) by lia. rewrite sumn_S.
      f_equal. rewrite ES, lsum_scaled. rewrite (TR (lo + n)%nat) by lia. reflexivity.
Qed.

(* the coefficients, computed upwards *)
Fixpoint taus (g : graph) (lo j n : nat) : list R :=
  match n with
  | O => []
  | S m => let t := taus g lo j m in
      t ++ [if Nat.eqb m j then 1 else if Nat.ltb m lo then 0
            else lsum (unit_eff g m) (fun i => nth i t 0)]
  end.

Definition tau (g : graph) (lo j k : nat) : R := nth k (taus g lo j (S k)) 0.

Lemma taus_len g lo j n : length (taus g lo j n) = n.
Proof. induction n as [|n IH]; cbn [taus length]; auto. rewrite app_length, IH. cbn [length]. lia. Qed.

Lemma taus_nth g lo j n k : (k < n)%nat -> nth k (taus g lo j n) 0 = tau g lo j k.
Proof.
  induction n as [|n IH]; intros Hk; [lia|]. destruct (Nat.eq_dec k n) as [->|]; [reflexivity|].
  cbn [taus]. rewrite app_nth1 by (rewrite taus_len; lia). apply IH. lia.
Qed.

Lemma tau_eq g lo j k : gwf g ->
  tau g lo j k = if Nat.eqb k j then 1 else if Nat.ltb k lo then 0 else lsum (unit_eff g k) (tau g lo j).
Proof.
  intros W. unfold tau at 1. cbn [taus]. rewrite app_nth2 by (rewrite taus_len; lia).
  rewrite taus_len, Nat.sub_diag. cbn [nth]. destruct (Nat.eqb k j); auto. destruct (Nat.ltb k lo); auto.
  apply lsum_ext. intros p Hp. pose proof (unit_eff_lt g k W) as HL. rewrite Forall_forall in HL.
  apply taus_nth. apply HL. auto.
Qed.

Lemma tau_self g lo j : gwf g -> tau g lo j j = 1.
Proof. intros W. rewrite tau_eq, Nat.eqb_refl by auto. reflexivity. Qed.

Lemma tau_below g lo j k : gwf g -> (k < j)%nat -> tau g lo j k = 0.
Proof.
  intros W. induction k as [k IH] using (well_founded_induction Wf_nat.lt_wf). intros Hk.
  rewrite tau_eq by auto. replace (Nat.eqb k j) with false by lia. destruct (Nat.ltb k lo); auto.
  apply lsum_zero. intros p Hp. pose proof (unit_eff_lt g k W) as HL. rewrite Forall_forall in HL.
  specialize (HL p Hp). cbv beta in HL. apply IH; lia.
Qed.

Lemma tau_rec g lo j k : gwf g -> (lo <= k)%nat -> k <> j -> tau g lo j k = lsum (unit_eff g k) (tau g lo j).
Proof.
  intros W H1 H2. rewrite tau_eq by auto. replace (Nat.eqb k j) with false by lia.
  replace (Nat.ltb k lo) with false by lia. reflexivity.
Qed.

(* adjoints after a sweep of the nodes lo .. lo+n-1 *)
Theorem sweep_tau (g : graph) lo n (f : nat -> R) g' j : gwf g -> asweep lo n (set_gadj g f) = Some g' -> (j < lo + n)%nat ->
  @g_adj N g' j = sumn (lo + n) (fun i => f i * tau g lo j i).
Proof.
  intros W E Hj. eapply sweep_linear; eauto using tau_self, tau_below.
  - intros k Hk Hne. rewrite tau_eq by auto. replace (Nat.eqb k j) with false by lia.
    replace (Nat.ltb k lo) with true by lia. reflexivity.
  - intros k Hk Hne. apply tau_rec; auto; lia.
Qed.

Theorem grad_tau (g : graph) k g' j : gwf g -> @agrad N C k g = Some g' -> (j < gsize g)%nat ->
  @g_adj N g' j = sumn (gsize g) (fun i => nupd (g_adj g) k 1 i * tau g 0 j i).
Proof.
  intros W E Hj. unfold agrad in E. destruct (Nat.ltb k (gsize g)); [|discriminate].
  apply (sweep_tau g 0 (gsize g) (nupd (g_adj g) k 1) g' j W E). lia.
Qed.

(* all adjoints zero before the call *)
Theorem grad_tau0 (g : graph) k g' j : gwf g -> @agrad N C k g = Some g' -> (j < gsize g)%nat ->
  (forall i, (i < gsize g)%nat -> g_adj g i = 0) -> @g_adj N g' j = tau g 0 j k.
Proof.
  intros W E Hj Z. rewrite (grad_tau g k g' j W E Hj).
  assert (Hk : (k < gsize g)%nat) by (unfold agrad in E; destruct (Nat.ltb_spec k (gsize g)); [auto|discriminate]).
  rewrite (sumn_one _ k); auto.
  - unfold nupd. rewrite Nat.eqb_refl. rring.
  - intros i Hi Hne. unfold nupd. replace (Nat.eqb i k) with false by lia. rewrite Z by auto. rring.
Qed.

(* ---- the coefficients do not change when the graph grows ---- *)

Lemma grows_gval (g g' : graph) i : grows g g' -> (i < gsize g)%nat -> gval g' i = gval g i.
Proof.
  intros G Hi. destruct (gr_nodes _ _ G) as [l E]. unfold gval. rewrite E, nth_error_app1 by exact Hi. reflexivity.
Qed.

Lemma grows_unit_eff (g g' : graph) k : gwf g -> grows g g' -> (k < gsize g)%nat -> unit_eff g' k = unit_eff g k.
Proof.
  intros W G Hk. unfold unit_eff, effect. cbn [set_gadj g_nodes g_adj g_ch g_arrs].
  destruct (gr_nodes _ _ G) as [l En]. destruct (gr_arrs _ _ G) as [la Ea].
  rewrite En, nth_error_app1 by exact Hk. rewrite (gr_ch _ _ G) by auto.
  destruct (nth_error (g_nodes g) k) as [nd|] eqn:E; [|reflexivity].
  destruct (w_node g W _ _ E) as (_ & W2 & W3). unfold body_ok in W3.
  assert (GV : forall ops, Forall (fun i => (i < gsize g)%nat) ops ->
    map (gval (set_gadj g' (fun _ => 1))) ops = map (gval (set_gadj g (fun _ => 1))) ops).
  { intros ops HF. apply map_ext_in. intros i Hi. rewrite Forall_forall in HF. apply (grows_gval g g' i G). auto. }
  destruct (n_body nd) as [ops ds|i j ia ib].
  - rewrite GV; auto. eapply Forall_impl; [|exact W3]. cbv beta. intros; lia.
  - destruct W3 as (_ & _ & (ra & Era & La) & (rb & Erb & Lb)). rewrite Ea.
    rewrite !nth_error_app1 by (eapply nth_error_lt; eauto). rewrite Era, Erb.
    assert (AV : forall a ar ids, nth_error (g_arrs g) a = Some ar -> a_c ar = AVar ids ->
       length ids = (a_m ar * a_n ar)%nat /\ Forall (fun j => (j < gsize g)%nat) ids).
    { intros a ar ids Ear Ec. destruct (w_arr g W _ _ Ear) as (_ & _ & _ & _ & X). rewrite Ec in X.
      destruct X as [X1 X2]. split; auto. eapply Forall_impl; [|exact X2]. cbv beta. tauto. }
    destruct (g_ch g k); auto; destruct ra as [m kk [l1|d1] p1]; auto; destruct rb as [kk' n [l2|d2] p2]; auto.
    destruct (_ && _ && _) eqn:B; auto. apply andb_prop in B. destruct B as [B B3]. apply andb_prop in B. destruct B as [B1 B2].
    assert (M1 : forall x, In x (mcol O kk' j l2) -> gval g' x = gval g x).
    { intros x Hx. destruct (AV _ _ _ Erb eq_refl) as [X1 X2]. cbn [a_m a_n] in *.
      apply (grows_gval g g' x G). rewrite Forall_forall in X2. apply X2. eapply mcol_in; eauto. lia. }
    assert (M2 : forall x, In x (mrow O m kk i l1) -> gval g' x = gval g x).
    { intros x Hx. destruct (AV _ _ _ Era eq_refl) as [X1 X2]. cbn [a_m a_n] in *.
      apply (grows_gval g g' x G). rewrite Forall_forall in X2. apply X2. eapply mrow_in; eauto. lia. }
    apply f_equal2; f_equal; apply map_ext_in; intros x Hx; apply f_equal; [apply M1|apply M2]; auto.
Qed.

Lemma grows_tau (g g' : graph) lo j : gwf g -> gwf g' -> grows g g' ->
  forall k, (k < gsize g)%nat -> tau g' lo j k = tau g lo j k.
Proof.
  intros W W' G k. induction k as [k IH] using (well_founded_induction Wf_nat.lt_wf). intros Hk.
  rewrite !tau_eq by auto. destruct (Nat.eqb k j); auto. destruct (Nat.ltb k lo); auto.
  rewrite (grows_unit_eff g g' k W G Hk). apply lsum_ext. intros p Hp.
  pose proof (unit_eff_lt g k W) as HL. rewrite Forall_forall in HL. specialize (HL p Hp). cbv beta in HL. apply IH; lia.
Qed.

End Adjoint.
