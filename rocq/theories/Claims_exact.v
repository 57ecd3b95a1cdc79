(* Exact floating-point steps of the scalar and array calls (C32, C50). *)
From Coq Require Import ZifyBool ZifyNat.
From Verif Require Import TapeFacts.
From Verif Require Export Exact Claims_real.

Section Calls.
Context {N : Num} {RL : RepLaws N} {C : Cfg N}.

Lemma reach_rel env0 s : practical -> reachable env0 s -> exists g, Rel s g.
Proof. intros HP HR. destruct (proj1 (reach_valid env0 s HP HR)) as (g & R0 & _). eauto. Qed.

Ltac one_node s g x v R0 := let k := fresh "k" in let Hk := fresh "Hk" in
  match goal with HA : alive s x, HX : var_val s x = Ok v |- _ =>
    destruct (alive_node s g x R0 HA) as (k & -> & Hk); rewrite (rel_var_val s g R0 k Hk) in HX;
    let EV := fresh "EV" in assert (EV : gval g k = v) by congruence; clear HX end.

Theorem un_exact env0 s u x v : practical -> reachable env0 s -> alive s x -> var_val s x = Ok v -> un_records u v = true -> roomy s 7 ->
  exists h s', un_v u x s = Ok (h, s') /\ records s s' h (un_value u v) (fun a => [(x, un_step u v (un_value u v) a)]).
Proof.
  intros HP HR HA HX HU HM. destruct (reach_rel env0 s HP HR) as (g & R0). destruct HP as [HC HJ]. one_node s g x v R0.
  pose proof (un_ok HC u s g k R0 Hk) as P. assert (HB : Forall (fun j => (j < gsize g)%nat) [k]) by (constructor; auto).
  assert (GO : forall v1 ch (c : F -> F), performs (un_v u (hd k)) s g (ANew v1 [k] [] (Some ch)) ->
    (forall a, contrib ch v1 a [v] [] = Some [c a]) -> exists h s', un_v u (hd k) s = Ok (h, s') /\ records s s' h v1 (fun a => [(hd k, c a)])).
  { intros v1 ch c HP HE. apply (act_records _ s g v1 [k] [] ch (fun a => [c a]) 7 R0 HB HP); [vm_compute; discriminate|exact HM|].
    intros a. cbn [map]. rewrite EV. apply HE. }
  destruct u; cbn [act_un un_records] in P, HU; try discriminate HU; unfold anew1 in P; rewrite ?EV in P;
    try (refine (GO _ _ _ P _); intros a; reflexivity).
  - apply andb_prop in HU. destruct HU as [U1 U2]. apply negb_true_iff in U1, U2. rewrite U1, U2 in P.
    refine (GO _ _ _ P _); intros a; reflexivity.
  - apply andb_prop in HU. destruct HU as [U1 U3]. apply andb_prop in U1. destruct U1 as [U1 U2].
    apply negb_true_iff in U1, U2, U3. unfold fge in P. rewrite U1, U2, U3 in P. cbn [orb] in P.
    refine (GO _ _ _ P _); intros a; reflexivity.
Qed.

Theorem vv_exact env0 s b x y v w : practical -> reachable env0 s -> alive s x -> alive s y -> var_val s x = Ok v -> var_val s y = Ok w -> roomy s 8 ->
  exists h s', bin_vv b x y s = Ok (h, s') /\
    records s s' h (bin_value b v w) (fun a => combine [x; y] (vv_step b v w (bin_value b v w) a)).
Proof.
  intros HP HR HA HA2 HX HY HM. destruct (reach_rel env0 s HP HR) as (g & R0). destruct HP as [HC HJ].
  one_node s g x v R0. one_node s g y w R0.
  pose proof (vv_ok HC b s g k k0 R0 Hk Hk0) as P. assert (HB : Forall (fun j => (j < gsize g)%nat) [k; k0]) by (repeat constructor; auto).
  destruct b; cbn [act_vv] in P; rewrite EV, EV0 in P;
  apply (act_records _ s g _ [k; k0] [] _ (fun a => vv_step _ v w _ a) 8 R0 HB P); try exact HM; try (vm_compute; discriminate);
    intros a; cbn [map]; rewrite EV, EV0; cbn [contrib vv_step is_nil andb]; try reflexivity.
  unfold fne. destruct (feq v f0); reflexivity.
Qed.

Theorem vd_exact env0 s b x d v : practical -> reachable env0 s -> alive s x -> var_val s x = Ok v -> vd_records b d = true -> roomy s 9 ->
  exists h s', bin_vd b x d s = Ok (h, s') /\
    records s s' h (vd_value b v d) (fun a => combine [x] (vd_step b v d (vd_value b v d) a)).
Proof.
  intros HP HR HA HX HU HM. destruct (reach_rel env0 s HP HR) as (g & R0). destruct HP as [HC HJ].
  one_node s g x v R0.
  pose proof (vd_ok HC b s g k d R0 Hk) as P. assert (HB : Forall (fun j => (j < gsize g)%nat) [k]) by (repeat constructor; auto).
  assert (GO : forall v1 ch ds (c : F -> list F), performs (bin_vd b (hd k) d) s g (ANew v1 [k] ds (Some ch)) -> zlen ds <= 1 ->
    (forall a, contrib ch v1 a [v] ds = Some (c a)) ->
    exists h s', bin_vd b (hd k) d s = Ok (h, s') /\ records s s' h v1 (fun a => combine [hd k] (c a))).
  { intros v1 ch ds c HP HL HE. apply (act_records _ s g v1 [k] ds ch c 9 R0 HB HP); [|exact HM|].
    - cbn [bwidth]. change (zlen [k]) with 1. lia.
    - intros a. cbn [map]. rewrite EV. apply HE. }
  assert (Z0 : zlen (@nil F) <= 1) by (vm_compute; discriminate). assert (Z1 : zlen [d] <= 1) by (vm_compute; discriminate).
  destruct b; cbn [act_vd vd_records] in P, HU; unfold anew1 in P; rewrite ?EV in P.
  - unfold fne in P. rewrite HU in P. apply (GO _ _ _ _ P Z0). reflexivity.
  - unfold fne in P. rewrite HU in P. apply (GO _ _ _ _ P Z0). reflexivity.
  - unfold fne in P. rewrite HU in P. apply (GO _ _ _ _ P Z1). reflexivity.
  - unfold fne in P. rewrite HU in P. apply (GO _ _ _ _ P Z1). reflexivity.
  - cbn [vd_value vd_step]. unfold pow_as in *.
    destruct (feq d fhalf); [apply (GO _ _ _ _ P Z0); reflexivity|].
    destruct (feq d f1); [discriminate HU|].
    destruct (feq d f2); [apply (GO _ _ _ _ P Z0); reflexivity|].
    destruct (feq d (fneg f2)); [apply (GO _ _ _ _ P Z0); reflexivity|].
    destruct (feq d (fneg f1)); [apply (GO _ _ _ _ P Z0); reflexivity|].
    destruct (feq d (fneg fhalf)); [apply (GO _ _ _ _ P Z0); reflexivity|].
    apply (GO _ _ _ _ P Z1). intros a. cbn [contrib is_nil andb]. unfold fne. destruct (feq v f0); reflexivity.
  - unfold fne in P. rewrite HU in P. apply (GO _ _ _ _ P Z0). reflexivity.
Qed.

Theorem dv_exact env0 s b d x v : practical -> reachable env0 s -> alive s x -> var_val s x = Ok v -> dv_records b d = true -> roomy s 9 ->
  exists h s', bin_dv b d x s = Ok (h, s') /\
    records s s' h (dv_value b d v) (fun a => combine [x] (dv_step b d v (dv_value b d v) a)).
Proof.
  intros HP HR HA HX HU HM. destruct (reach_rel env0 s HP HR) as (g & R0). destruct HP as [HC HJ].
  one_node s g x v R0.
  pose proof (dv_ok HC b s g k d R0 Hk) as P. assert (HB : Forall (fun j => (j < gsize g)%nat) [k]) by (repeat constructor; auto).
  assert (GO : forall v1 ch ds (c : F -> list F), performs (bin_dv b d (hd k)) s g (ANew v1 [k] ds (Some ch)) -> zlen ds <= 1 ->
    (forall a, contrib ch v1 a [v] ds = Some (c a)) ->
    exists h s', bin_dv b d (hd k) s = Ok (h, s') /\ records s s' h v1 (fun a => combine [hd k] (c a))).
  { intros v1 ch ds c HP HL HE. apply (act_records _ s g v1 [k] ds ch c 9 R0 HB HP); [|exact HM|].
    - cbn [bwidth]. change (zlen [k]) with 1. lia.
    - intros a. cbn [map]. rewrite EV. apply HE. }
  assert (Z0 : zlen (@nil F) <= 1) by (vm_compute; discriminate). assert (Z1 : zlen [d] <= 1) by (vm_compute; discriminate).
  destruct b; cbn [act_dv dv_records] in P, HU; unfold anew1 in P; rewrite ?EV in P.
  - unfold fne in P. rewrite HU in P. apply (GO _ _ _ _ P Z0). reflexivity.
  - apply (GO _ _ _ _ P Z0). reflexivity.
  - unfold fne in P. rewrite HU in P. apply (GO _ _ _ _ P Z1). reflexivity.
  - apply (GO _ _ _ _ P Z1). reflexivity.
  - apply (GO _ _ _ _ P Z1). intros a. cbn [contrib is_nil andb dv_step]. unfold fne. destruct (feq d f0); reflexivity.
  - unfold fne in P. rewrite HU in P. apply (GO _ _ _ _ P Z0). reflexivity.
Qed.

(* ---- calls with array arguments ---- *)

Lemma gen_nodes s (g : graph) env : Rel s g -> Forall (alive s) env ->
  exists ke, env = map hd ke /\ Forall (fun k => (k < gsize g)%nat) ke.
Proof.
  intros R0. induction 1 as [|h env Hh _ (ke & -> & HB)]; [exists []; auto|].
  destruct (alive_node s g h R0 Hh) as (k & -> & Hk). exists (k :: ke). split; auto.
Qed.
Lemma gen_vals s (g : graph) ke : Rel s g -> Forall (fun k => (k < gsize g)%nat) ke ->
  mapM (var_val s) (map hd ke) = Ok (map (gval g) ke).
Proof.
  intros R0. induction 1 as [|k ke Hk _ IH]; cbn [map mapM]; auto.
  rewrite (rel_var_val s g R0 k Hk). cbn [bind]. rewrite IH. reflexivity.
Qed.

Lemma many_nodes s g xs ws : Rel s g -> Forall (alive s) xs -> mapM (var_val s) xs = Ok ws ->
  exists ks, xs = map hd ks /\ Forall (fun k => (k < gsize g)%nat) ks /\ map (gval g) ks = ws.
Proof.
  intros R0 HA HX. destruct (gen_nodes s g xs R0 HA) as (ks & -> & HB). exists ks. split; auto. split; auto.
  rewrite (gen_vals s g ks R0 HB) in HX. congruence.
Qed.

Lemma list_records m s g v1 ks ds ch (cs : F -> list F) w : practical -> Rel s g -> Forall (fun k => (k < gsize g)%nat) ks ->
  performs m s g (ANew v1 ks ds (Some ch)) -> is_mat ch = false -> 6 + zlen ks + 2 * zlen ds <= w -> roomy s w ->
  (forall a, is_nil ks && is_nil ds = false -> contrib ch v1 a (map (gval g) ks) ds = Some (cs a)) ->
  (forall a, ks = [] -> ds = [] -> cs a = []) ->
  exists h s', m s = Ok (h, s') /\ records s s' h v1 (fun a => combine (map hd ks) (cs a)).
Proof.
  intros [HC [j HJ]] R0 HB HP HS Hw HM HE H0. apply (act_records m s g v1 ks ds ch cs w R0 HB HP Hw HM).
  intros a. destruct (is_nil ks && is_nil ds) eqn:EN; [|auto].
  apply andb_prop in EN. destruct EN as [E1 E2]. destruct ks; [|discriminate E1]. destruct ds; [|discriminate E2].
  rewrite (H0 a eq_refl eq_refl). assert (LS : leaf_safe ch = true) by (unfold leaf_safe; rewrite HJ, HS; reflexivity).
  cbn [map]. unfold contrib. cbn [is_nil andb]. rewrite LS. destruct ch; reflexivity.
Qed.

Lemma is_nil_map {A B} (f : A -> B) l : is_nil (map f l) = is_nil l.
Proof. destruct l; reflexivity. Qed.

(* sum(x): a for every element *)
Theorem sum_exact env0 s xs ws : practical -> reachable env0 s -> Forall (alive s) xs -> mapM (var_val s) xs = Ok ws -> roomy s (6 + zlen xs) ->
  exists h s', sum_v xs s = Ok (h, s') /\ records s s' h (fsum ws) (fun a => map (fun x => (x, a)) xs).
Proof.
  intros HP HR HA HX HM. destruct (reach_rel env0 s HP HR) as (g & R0). destruct (many_nodes s g xs ws R0 HA HX) as (ks & -> & HB & EW).
  replace (fun a : F => map (fun x => (x, a)) (map hd ks)) with (fun a : F => combine (map hd ks) (map (fun _ => a) ws)).
  2:{ apply FunctionalExtensionality.functional_extensionality. intros a. rewrite <- EW. clear. induction ks as [|k ks IH]; cbn [map combine]; congruence. }
  apply (list_records _ s g (fsum ws) ks [] ChSum (fun a => map (fun _ => a) ws) (6 + zlen (map hd ks)) HP R0 HB); auto.
  - unfold sum_v. rewrite <- EW. apply perf_vvals; auto. apply perf_rec; auto. apply HP.
  - unfold zlen. rewrite map_length. cbn [length]. lia.
  - intros a EN. unfold contrib. rewrite is_nil_map, EN, EW. reflexivity.
  - intros a -> _. rewrite <- EW. reflexivity.
Qed.

(* norm2(x): a*x_i/value *)
Theorem norm2_exact env0 s xs ws : practical -> reachable env0 s -> Forall (alive s) xs -> mapM (var_val s) xs = Ok ws -> roomy s (6 + zlen xs) ->
  exists h s', norm2_v xs s = Ok (h, s') /\
    records s s' h (fnorm2 ws) (fun a => combine xs (map (fun w => fdiv (fmul a w) (fnorm2 ws)) ws)).
Proof.
  intros HP HR HA HX HM. destruct (reach_rel env0 s HP HR) as (g & R0). destruct (many_nodes s g xs ws R0 HA HX) as (ks & -> & HB & EW).
  apply (list_records _ s g (fnorm2 ws) ks [] ChNorm2 (fun a => map (fun w => fdiv (fmul a w) (fnorm2 ws)) ws) (6 + zlen (map hd ks)) HP R0 HB); auto.
  - unfold norm2_v. rewrite <- EW. apply perf_vvals; auto. apply perf_rec; auto. apply HP.
  - unfold zlen. rewrite map_length. cbn [length]. lia.
  - intros a EN. unfold contrib. rewrite is_nil_map, EN, EW. reflexivity.
  - intros a -> _. rewrite <- EW. reflexivity.
Qed.

(* log_sum_exp(x): a*exp(x_i - value) *)
Theorem lse_exact env0 s xs ws : practical -> reachable env0 s -> Forall (alive s) xs -> mapM (var_val s) xs = Ok ws -> roomy s (6 + zlen xs) ->
  exists h s', log_sum_exp_v xs s = Ok (h, s') /\
    records s s' h (log_sum_exp_d ws) (fun a => combine xs (map (fun w => fmul a (fexp (fsub w (log_sum_exp_d ws)))) ws)).
Proof.
  intros HP HR HA HX HM. destruct (reach_rel env0 s HP HR) as (g & R0). destruct (many_nodes s g xs ws R0 HA HX) as (ks & -> & HB & EW).
  apply (list_records _ s g (log_sum_exp_d ws) ks [] ChLse (fun a => map (fun w => fmul a (fexp (fsub w (log_sum_exp_d ws)))) ws) (6 + zlen (map hd ks)) HP R0 HB); auto.
  - unfold log_sum_exp_v. rewrite <- EW. apply perf_vvals; auto. apply perf_rec; auto. apply HP.
  - unfold zlen. rewrite map_length. cbn [length]. lia.
  - intros a EN. unfold contrib. rewrite is_nil_map, EN, EW. reflexivity.
  - intros a -> _. rewrite <- EW. reflexivity.
Qed.

(* dot_product(x,y): a*y_i for x_i, then a*x_i for y_i *)
Theorem dot_vv_exact env0 s xs ys ws us : practical -> reachable env0 s -> Forall (alive s) xs -> Forall (alive s) ys ->
  mapM (var_val s) xs = Ok ws -> mapM (var_val s) ys = Ok us -> length xs = length ys -> roomy s (6 + 2 * zlen xs) ->
  exists h s', dot_prod_vv xs ys s = Ok (h, s') /\
    records s s' h (fdot ws us) (fun a => combine (xs ++ ys) (map (fmul a) us ++ map (fmul a) ws)).
Proof.
  intros HP HR HA HA2 HX HY HL HM. destruct (reach_rel env0 s HP HR) as (g & R0).
  destruct (many_nodes s g xs ws R0 HA HX) as (ks & -> & HB & EW). destruct (many_nodes s g ys us R0 HA2 HY) as (js & -> & HB2 & EU).
  rewrite !map_length in HL. rewrite <- map_app.
  assert (L1 : length ws = length ks) by (rewrite <- EW, map_length; reflexivity).
  assert (L2 : length us = length ks) by (rewrite <- EU, map_length; auto).
  apply (list_records _ s g (fdot ws us) (ks ++ js) [] ChDotVV (fun a => map (fmul a) us ++ map (fmul a) ws) (6 + 2 * zlen (map hd ks)) HP R0); auto.
  - apply Forall_app; auto.
  - unfold dot_prod_vv, performs.
    rewrite (mbind_ok _ _ s tt s) by (unfold same_size; rewrite !map_length, HL, Nat.eqb_refl; reflexivity).
    rewrite <- map_app, <- EW, <- EU. apply perf_vvals; auto. apply perf_vvals; auto. apply perf_rec; auto. apply HP. apply Forall_app; auto.
  - unfold zlen. rewrite app_length, map_length. cbn [length]. lia.
  - intros a EN. unfold contrib. rewrite is_nil_map, EN, map_app, EW, EU. cbv zeta. rewrite app_length, L1, L2.
    replace (length ks + length ks)%nat with (2 * length ks)%nat by lia. rewrite Nat.div2_double, Nat.eqb_refl.
    rewrite <- L1. rewrite firstn_app, firstn_all, skipn_app, skipn_all, Nat.sub_diag. cbn [firstn skipn app]. rewrite app_nil_r. reflexivity.
  - intros a EK _. destruct ks; [|discriminate EK]. destruct ws; [|discriminate L1]. destruct us; [|discriminate L2]. reflexivity.
Qed.

(* dot_product(x,d) and dot_product(d,x): a*d_i *)
Theorem dot_vd_exact env0 s xs ws ds : practical -> reachable env0 s -> Forall (alive s) xs ->
  mapM (var_val s) xs = Ok ws -> length xs = length ds -> roomy s (6 + 3 * zlen xs) ->
  exists h s', dot_prod_vd xs ds s = Ok (h, s') /\ records s s' h (fdot ws ds) (fun a => combine xs (map (fmul a) ds)).
Proof.
  intros HP HR HA HX HL HM. destruct (reach_rel env0 s HP HR) as (g & R0).
  destruct (many_nodes s g xs ws R0 HA HX) as (ks & -> & HB & EW). rewrite !map_length in HL.
  assert (L1 : length ws = length ks) by (rewrite <- EW, map_length; reflexivity).
  apply (list_records _ s g (fdot ws ds) ks ds ChDotVD (fun a => map (fmul a) ds) (6 + 3 * zlen (map hd ks)) HP R0 HB); auto.
  - unfold dot_prod_vd, performs.
    rewrite (mbind_ok _ _ s tt s) by (unfold same_size; rewrite !map_length, HL, Nat.eqb_refl; reflexivity).
    rewrite <- EW. apply perf_vvals; auto. apply perf_rec_d; auto. apply HP.
  - unfold zlen. rewrite map_length. lia.
  - intros a EN. unfold contrib. rewrite is_nil_map, EN, EW, L1, HL, Nat.eqb_refl. reflexivity.
  - intros a _ ->. reflexivity.
Qed.
Theorem dot_dv_exact env0 s xs ws ds : practical -> reachable env0 s -> Forall (alive s) xs ->
  mapM (var_val s) xs = Ok ws -> length ds = length xs -> roomy s (6 + 3 * zlen xs) ->
  exists h s', dot_prod_dv ds xs s = Ok (h, s') /\ records s s' h (fdot ds ws) (fun a => combine xs (map (fmul a) ds)).
Proof.
  intros HP HR HA HX HL HM. destruct (reach_rel env0 s HP HR) as (g & R0).
  destruct (many_nodes s g xs ws R0 HA HX) as (ks & -> & HB & EW). rewrite !map_length in HL.
  assert (L1 : length ws = length ks) by (rewrite <- EW, map_length; reflexivity).
  apply (list_records _ s g (fdot ds ws) ks ds ChDotVD (fun a => map (fmul a) ds) (6 + 3 * zlen (map hd ks)) HP R0 HB); auto.
  - unfold dot_prod_dv, performs.
    rewrite (mbind_ok _ _ s tt s) by (unfold same_size; rewrite !map_length, HL, Nat.eqb_refl; reflexivity).
    rewrite <- EW. apply perf_vvals; auto. apply perf_rec_d; auto. apply HP.
  - unfold zlen. rewrite map_length. lia.
  - intros a EN. unfold contrib. rewrite is_nil_map, EN, EW, L1, HL, Nat.eqb_refl. reflexivity.
  - intros a _ ->. reflexivity.
Qed.

(* var(value, operands, partials): a*partial_i *)
Theorem partials_exact env0 s v xs ps : practical -> reachable env0 s -> Forall (alive s) xs -> length ps = length xs -> roomy s (6 + 3 * zlen xs) ->
  exists h s', var_with_partials v xs ps s = Ok (h, s') /\ records s s' h v (fun a => combine xs (map (fmul a) ps)).
Proof.
  intros HP HR HA HL HM. destruct (reach_rel env0 s HP HR) as (g & R0).
  destruct (gen_nodes s g xs R0 HA) as (ks & -> & HB). rewrite !map_length in HL.
  apply (list_records _ s g v ks ps ChEager (fun a => map (fmul a) ps) (6 + 3 * zlen (map hd ks)) HP R0 HB); auto.
  - unfold var_with_partials, performs. rewrite (mbind_ok _ _ s ps s).
    + apply perf_rec_d; auto. apply HP.
    + unfold mlift, explicit_dummy. rewrite map_length, HL, Nat.leb_refl. cbn [bind]. rewrite firstn_all2 by lia. reflexivity.
  - unfold zlen. rewrite map_length. lia.
  - intros a EN. unfold contrib. rewrite is_nil_map, EN, map_length, HL, Nat.eqb_refl. reflexivity.
  - intros a _ ->. reflexivity.
Qed.
End Calls.
