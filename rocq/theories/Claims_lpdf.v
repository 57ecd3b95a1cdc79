(* Densities (C30, C31): the functions the two lpdf procedures denote, their
   partial derivatives, and the four argument mixes. *)
From Verif Require Import TapeFacts.
From Coq Require Import ZifyBool ZifyNat.
From Verif Require Export Claims_real.
Local Open Scope R_scope.

(* ---- the two densities, as in any textbook ---- *)
Definition normal_density (mu sigma y : R) : R :=
  / (sigma * sqrt (2 * PI)) * exp (- ((y - mu) ^ 2 / (2 * sigma ^ 2))).
Definition lognormal_density (mu sigma y : R) : R :=
  / (y * (sigma * sqrt (2 * PI))) * exp (- ((ln y - mu) ^ 2 / (2 * sigma ^ 2))).
(* log of the joint density of independent observations ys *)
Definition log_likelihood (density : R -> R -> R -> R) (ys : list R) (mu sigma : R) : R :=
  ln (fold_right Rmult 1 (map (density mu sigma) ys)).

(* ---- the procedures in terms of var_with_partials ---- *)
Section Words.
Context {N : Num} {C : Cfg N}.

Lemma lpdf_vv_part lp dm ds ys mu sg s m sd : var_val s mu = Ok m -> var_val s sg = Ok sd ->
  lpdf_vv lp dm ds ys mu sg s =
  var_with_partials (fsum (map (lp m sd) ys)) [mu; sg] [fsum (map (dm m sd) ys); fsum (map (ds m sd) ys)] s.
Proof. intros E1 E2. unfold lpdf_vv, mbind at 1, vval at 1, mget at 1. rewrite E1. cbn [bind]. unfold mbind, vval, mget. rewrite E2. reflexivity. Qed.
Lemma lpdf_vd_part lp dm ys mu sd s m : var_val s mu = Ok m ->
  lpdf_vd lp dm ys mu sd s = var_with_partials (fsum (map (lp m sd) ys)) [mu] [fsum (map (dm m sd) ys)] s.
Proof. intros E1. unfold lpdf_vd, mbind, vval, mget. rewrite E1. reflexivity. Qed.
Lemma lpdf_dv_part lp ds ys m sg s sd : var_val s sg = Ok sd ->
  lpdf_dv lp ds ys m sg s = var_with_partials (fsum (map (lp m sd) ys)) [sg] [fsum (map (ds m sd) ys)] s.
Proof. intros E1. unfold lpdf_dv, mbind, vval, mget. rewrite E1. reflexivity. Qed.

(* inside a program an lpdf call is a call of var_with_partials *)
Lemma lpdf_vv_op lp dm ds ys env a b s x y :
  nth_error env a = Some x -> nth_error env b = Some y ->
  exec_op env (OPart (fun l => fsum (map (lp (nth 0 l f0) (nth 1 l f0)) ys))
    (fun l => [fsum (map (dm (nth 0 l f0) (nth 1 l f0)) ys); fsum (map (ds (nth 0 l f0) (nth 1 l f0)) ys)]) [a; b]) s =
  one (lpdf_vv lp dm ds ys x y) s.
Proof.
  intros E1 E2. cbn [exec_op]. rewrite (regs_bind env [a; b] [x; y]) by (repeat constructor; auto).
  unfold lpdf_vv, one, vvals, vval, mbind, mget. cbn [mapM].
  destruct (var_val s x) as [m| | |]; try reflexivity. cbn [bind]. destruct (var_val s y) as [sd| | |]; reflexivity.
Qed.
Lemma lpdf_vd_op lp dm ys sd env a s x : nth_error env a = Some x ->
  exec_op env (OPart (fun l => fsum (map (lp (nth 0 l f0) sd) ys)) (fun l => [fsum (map (dm (nth 0 l f0) sd) ys)]) [a]) s =
  one (lpdf_vd lp dm ys x sd) s.
Proof.
  intros E1. cbn [exec_op]. rewrite (regs_bind env [a] [x]) by (repeat constructor; auto).
  unfold lpdf_vd, one, vvals, vval, mbind, mget. cbn [mapM]. destruct (var_val s x) as [m| | |]; reflexivity.
Qed.
Lemma lpdf_dv_op lp ds ys m env b s y : nth_error env b = Some y ->
  exec_op env (OPart (fun l => fsum (map (lp m (nth 0 l f0)) ys)) (fun l => [fsum (map (ds m (nth 0 l f0)) ys)]) [b]) s =
  one (lpdf_dv lp ds ys m y) s.
Proof.
  intros E1. cbn [exec_op]. rewrite (regs_bind env [b] [y]) by (repeat constructor; auto).
  unfold lpdf_dv, one, vvals, vval, mbind, mget. cbn [mapM]. destruct (var_val s y) as [m1| | |]; reflexivity.
Qed.
End Words.

(* ---- calculus ---- *)

(* one observation; z stands for y or for log y *)
Definition nlp (z m s : R) : R := - (/ 2 * ((z - m) * (1 / s)) * ((z - m) * (1 / s))) - ln s - ln (sqrt (2 * PI)).
Definition nlp_m (z m s : R) : R := (z - m) * (1 / s) * (1 / s).
Definition nlp_s (z m s : R) : R := 1 / s * ((z - m) * (1 / s)) * ((z - m) * (1 / s)) - 1 / s.

Lemma d_nlp z (f g : R -> R) (t df dg : R) : is_derive f t df -> is_derive g t dg -> 0 < g t ->
  is_derive (fun u => nlp z (f u) (g u)) t (nlp_m z (f t) (g t) * df + nlp_s z (f t) (g t) * dg).
Proof.
  intros Hf Hg Hp. unfold nlp, nlp_m, nlp_s.
  auto_derive.
  - repeat split; auto; try lra; eexists; eauto.
  - change (Derive (fun x => f x) t) with (Derive f t). change (Derive (fun x => g x) t) with (Derive g t).
    rewrite (is_derive_unique f t df Hf), (is_derive_unique g t dg Hg). field. lra.
Qed.

Lemma rsum_cons x l : rsum (x :: l) = x + rsum l.
Proof. reflexivity. Qed.

(* sums over the observations *)
Lemma d_nlps zs (f g : R -> R) (t df dg : R) : is_derive f t df -> is_derive g t dg -> 0 < g t ->
  is_derive (fun u => rsum (map (fun z => nlp z (f u) (g u)) zs)) t
    (rsum (map (fun z => nlp_m z (f t) (g t)) zs) * df + rsum (map (fun z => nlp_s z (f t) (g t)) zs) * dg).
Proof.
  intros Hf Hg Hp. induction zs as [|z zs IH].
  - cbn [map rsum fold_right]. eapply deriv_eq; [apply (d_const 0 t)|]. ring.
  - eapply deriv_eq; [apply (d_plus (fun u => nlp z (f u) (g u)) (fun u => rsum (map (fun z => nlp z (f u) (g u)) zs)) t); [exact (d_nlp z f g t df dg Hf Hg Hp)|exact IH]|].
    cbn [map]. rewrite !rsum_cons. ring.
Qed.

(* log of the product = sum of the logs *)
Lemma ln_prod l : Forall (fun x => 0 < x) l -> ln (fold_right Rmult 1 l) = rsum (map ln l) /\ 0 < fold_right Rmult 1 l.
Proof.
  induction 1 as [|x l Hx _ [IH HP]]; cbn [fold_right map].
  - split; [apply ln_1|lra].
  - rewrite rsum_cons, ln_mult, IH by auto. split; auto. apply Rmult_lt_0_compat; auto.
Qed.

Lemma two_pi : 0 < sqrt (2 * PI).
Proof. apply sqrt_lt_R0. pose proof PI_RGT_0. lra. Qed.

Lemma normal_nlp m s y : 0 < s -> 0 < normal_density m s y /\ ln (normal_density m s y) = nlp y m s.
Proof.
  intros H. pose proof two_pi. unfold normal_density, nlp.
  assert (P : 0 < / (s * sqrt (2 * PI))) by (apply Rinv_0_lt_compat, Rmult_lt_0_compat; auto).
  split; [apply Rmult_lt_0_compat; auto; apply exp_pos|].
  rewrite ln_mult, ln_exp, ln_Rinv, ln_mult by (auto using exp_pos, Rmult_lt_0_compat). field. lra.
Qed.

Lemma lognormal_nlp m s y : 0 < s -> 0 < y -> 0 < lognormal_density m s y /\ ln (lognormal_density m s y) = nlp (ln y) m s - ln y.
Proof.
  intros H Hy. pose proof two_pi. unfold lognormal_density, nlp.
  assert (P : 0 < s * sqrt (2 * PI)) by (apply Rmult_lt_0_compat; auto).
  assert (P1 : 0 < / (y * (s * sqrt (2 * PI)))) by (apply Rinv_0_lt_compat, Rmult_lt_0_compat; auto).
  split; [apply Rmult_lt_0_compat; auto; apply exp_pos|].
  rewrite ln_mult, ln_exp, ln_Rinv, !ln_mult by (auto using exp_pos, Rmult_lt_0_compat). field. lra.
Qed.

(* the log likelihood has the partial derivatives the library records *)
Section Both.
Context (density : R -> R -> R -> R) (lp dm ds : R -> R -> R -> R) (ys : list R).
(* dm and ds are the partial derivatives of log density on the observations ys *)
Definition scores : Prop := forall m s, 0 < s -> Forall (fun y => 0 < density m s y /\ lp m s y = ln (density m s y)) ys /\
  forall f g t df dg, f t = m -> g t = s -> is_derive f t df -> is_derive g t dg ->
    is_derive (fun u => rsum (map (lp (f u) (g u)) ys)) t (rsum (map (dm m s) ys) * df + rsum (map (ds m s) ys) * dg).

Lemma scores_val : scores -> forall m s, 0 < s -> rsum (map (lp m s) ys) = log_likelihood density ys m s.
Proof.
  intros H m s Hs. destruct (H m s Hs) as [HF _]. unfold log_likelihood.
  rewrite (proj1 (ln_prod (map (density m s) ys) ltac:(apply Forall_map; eapply Forall_impl; [|exact HF]; cbn beta; tauto))).
  apply f_equal. rewrite map_map. apply map_ext_in. intros y Hy. rewrite Forall_forall in HF. apply HF, Hy.
Qed.

Lemma scores_d : scores -> forall f g t df dg, 0 < g t -> is_derive f t df -> is_derive g t dg ->
  is_derive (fun u => log_likelihood density ys (f u) (g u)) t
    (rsum (map (dm (f t) (g t)) ys) * df + rsum (map (ds (f t) (g t)) ys) * dg).
Proof.
  intros H f g t df dg Hp Hf Hg. destruct (H (f t) (g t) Hp) as [_ HD].
  apply (is_derive_ext_loc (fun u => rsum (map (lp (f u) (g u)) ys))); [|apply HD; auto].
  apply (filter_imp (fun u => 0 < g u)); [|eapply locally_lt; eauto]. intros u Hu. apply scores_val; auto.
Qed.
End Both.

Section RealModel.
Context {lg : R -> R}.
Notation N := (RNum lg).

Lemma normal_scores ys : scores normal_density (@n_logp N) (@n_dmu N) (@n_dsigma N) ys.
Proof.
  intros m s Hs. split.
  - apply Forall_forall. intros y _. destruct (normal_nlp m s y Hs) as [P E]. split; [exact P|rewrite E; reflexivity].
  - intros f g t df dg <- <- Hf Hg. exact (d_nlps ys f g t df dg Hf Hg Hs).
Qed.

Lemma lognormal_scores ys : Forall (fun y => 0 < y) ys -> scores lognormal_density (@ln_logp N) (@ln_dmu N) (@ln_dsigma N) ys.
Proof.
  intros HY m s Hs. split.
  - eapply Forall_impl; [|exact HY]. intros y Hy. cbn beta. destruct (lognormal_nlp m s y Hs Hy) as [P E]. split; auto.
    rewrite E. cbn. unfold nlp. ring.
  - intros f g t df dg <- <- Hf Hg. pose proof (d_nlps (map ln ys) f g t df dg Hf Hg Hs) as D. rewrite !map_map in D.
    pose proof (d_plus _ _ t _ _ D (d_const (- rsum (map ln ys)) t)) as D1.
    eapply deriv_ext; [|eapply deriv_eq; [exact D1|]].
    + intros u. clear. induction ys as [|y l IH]; [cbn; ring|]. cbn [map]. rewrite !rsum_cons, <- IH. cbn. unfold nlp. ring.
    + apply Rplus_0_r.
Qed.

Context {C : Cfg N}.
Notation LL := log_likelihood.

Section Calls.
Context (density lp dm ds : R -> R -> R -> R) (ys : list R) (HS : scores density lp dm ds ys).

Lemma d_mu m s : 0 < s -> is_derive (fun t => LL density ys t s) m (rsum (map (dm m s) ys)).
Proof.
  intros Hs. eapply deriv_eq; [apply (scores_d density lp dm ds ys HS (fun t => t) (fun _ => s) m 1 0 Hs (is_derive_id m) (d_const s m))|]. ring.
Qed.
Lemma d_sg m s : 0 < s -> is_derive (fun t => LL density ys m t) s (rsum (map (ds m s) ys)).
Proof.
  intros Hs. eapply deriv_eq; [apply (scores_d density lp dm ds ys HS (fun _ => m) (fun t => t) s 0 1 Hs (d_const m s) (is_derive_id s))|]. ring.
Qed.
Lemma d_both m : 0 < m -> is_derive (fun t => LL density ys t t) m (rsum (map (dm m m) ys) + rsum (map (ds m m) ys)).
Proof.
  intros Hs. eapply deriv_eq; [apply (scores_d density lp dm ds ys HS (fun t => t) (fun t => t) m 1 1 Hs (is_derive_id m) (is_derive_id m))|]. ring.
Qed.

Lemma lpdf_vv_ok env0 (s : @st N) mu sg (m sd : R) : @practical N C -> reachable env0 s -> alive s mu -> alive s sg ->
  var_val s mu = Ok m -> var_val s sg = Ok sd -> 0 < sd -> roomy s 12 ->
  exists h s', @lpdf_vv N C lp dm ds ys mu sg s = Ok (h, s') /\ var_val s' h = Ok (LL density ys m sd) /\
    (mu <> sg -> exists d e, is_derive (fun t => LL density ys t sd) m d /\ is_derive (fun t => LL density ys m t) sd e /\
       passes s s' h mu d /\ passes s s' h sg e) /\
    (mu = sg -> exists d, is_derive (fun t => LL density ys t t) m d /\ passes s s' h mu d) /\
    forall z, alive s z -> z <> mu -> z <> sg -> passes s s' h z 0.
Proof.
  intros HP HR HA1 HA2 H1 H2 Hs HM.
  assert (HAA : Forall (alive s) [mu; sg]) by (constructor; auto).
  destruct (each_part s (rsum (map (lp m sd) ys)) [mu; sg] [rsum (map (dm m sd) ys); rsum (map (ds m sd) ys)]
    HP (reach_sound env0 s HP HR) HAA eq_refl HM) as (h & s' & E & V & P).
  exists h, s'. split; [rewrite (@lpdf_vv_part N C lp dm ds ys mu sg s m sd H1 H2); exact E|].
  split; [rewrite V; f_equal; apply (scores_val _ _ _ _ _ HS); exact Hs|].
  assert (PW : forall x, alive s x -> passes s s' h x ((if Z.eqb mu x then rsum (map (dm m sd) ys) else 0) + ((if Z.eqb sg x then rsum (map (ds m sd) ys) else 0) + 0))).
  { intros x Hx. exact (P x Hx). }
  split; [|split].
  - intros HN. exists (rsum (map (dm m sd) ys)), (rsum (map (ds m sd) ys)). split; [apply d_mu; auto|]. split; [apply d_sg; auto|]. split.
    + specialize (PW mu HA1). rewrite Z.eqb_refl in PW. destruct (Z.eqb_spec sg mu); [congruence|]. rewrite !Rplus_0_r in PW. exact PW.
    + specialize (PW sg HA2). rewrite Z.eqb_refl in PW. destruct (Z.eqb_spec mu sg); [congruence|]. rewrite Rplus_0_l, Rplus_0_r in PW. exact PW.
  - intros <-. assert (sd = m) by congruence. subst sd. exists (rsum (map (dm m m) ys) + rsum (map (ds m m) ys)).
    split; [apply d_both; auto|]. specialize (PW mu HA1). rewrite !Z.eqb_refl, Rplus_0_r in PW. exact PW.
  - intros z Hz N1 N2. specialize (PW z Hz). destruct (Z.eqb_spec mu z); [congruence|]. destruct (Z.eqb_spec sg z); [congruence|].
    rewrite !Rplus_0_r in PW. exact PW.
Qed.

Lemma lpdf_vd_ok env0 (s : @st N) mu (m sd : R) : @practical N C -> reachable env0 s -> alive s mu ->
  var_val s mu = Ok m -> 0 < sd -> roomy s 9 ->
  exists h s' d, @lpdf_vd N C lp dm ys mu sd s = Ok (h, s') /\ var_val s' h = Ok (LL density ys m sd) /\
    is_derive (fun t => LL density ys t sd) m d /\ passes s s' h mu d /\ forall z, alive s z -> z <> mu -> passes s s' h z 0.
Proof.
  intros HP HR HA1 H1 Hs HM.
  assert (HAA : Forall (alive s) (mu :: nil)) by (constructor; auto).
  destruct (each_part s (rsum (map (lp m sd) ys)) (mu :: nil) (rsum (map (dm m sd) ys) :: nil)
    HP (reach_sound env0 s HP HR) HAA eq_refl HM) as (h & s' & E & V & P).
  exists h, s', (rsum (map (dm m sd) ys)). split; [rewrite (@lpdf_vd_part N C lp dm ys mu sd s m H1); exact E|].
  split; [rewrite V; f_equal; apply (scores_val _ _ _ _ _ HS); exact Hs|]. split; [apply d_mu; auto|].
  assert (PW : forall x, alive s x -> passes s s' h x ((if Z.eqb mu x then rsum (map (dm m sd) ys) else 0) + 0)).
  { intros x Hx. exact (P x Hx). }
  split.
  - specialize (PW mu HA1). rewrite Z.eqb_refl, Rplus_0_r in PW. exact PW.
  - intros z Hz N1. specialize (PW z Hz). destruct (Z.eqb_spec mu z); [congruence|]. rewrite Rplus_0_r in PW. exact PW.
Qed.

Lemma lpdf_dv_ok env0 (s : @st N) sg (m sd : R) : @practical N C -> reachable env0 s -> alive s sg ->
  var_val s sg = Ok sd -> 0 < sd -> roomy s 9 ->
  exists h s' d, @lpdf_dv N C lp ds ys m sg s = Ok (h, s') /\ var_val s' h = Ok (LL density ys m sd) /\
    is_derive (fun t => LL density ys m t) sd d /\ passes s s' h sg d /\ forall z, alive s z -> z <> sg -> passes s s' h z 0.
Proof.
  intros HP HR HA1 H1 Hs HM.
  assert (HAA : Forall (alive s) (sg :: nil)) by (constructor; auto).
  destruct (each_part s (rsum (map (lp m sd) ys)) (sg :: nil) (rsum (map (ds m sd) ys) :: nil)
    HP (reach_sound env0 s HP HR) HAA eq_refl HM) as (h & s' & E & V & P).
  exists h, s', (rsum (map (ds m sd) ys)). split; [rewrite (@lpdf_dv_part N C lp ds ys m sg s sd H1); exact E|].
  split; [rewrite V; f_equal; apply (scores_val _ _ _ _ _ HS); exact Hs|]. split; [apply d_sg; auto|].
  assert (PW : forall x, alive s x -> passes s s' h x ((if Z.eqb sg x then rsum (map (ds m sd) ys) else 0) + 0)).
  { intros x Hx. exact (P x Hx). }
  split.
  - specialize (PW sg HA1). rewrite Z.eqb_refl, Rplus_0_r in PW. exact PW.
  - intros z Hz N1. specialize (PW z Hz). destruct (Z.eqb_spec sg z); [congruence|]. rewrite Rplus_0_r in PW. exact PW.
Qed.

Lemma lpdf_dd_ok (m sd : R) : 0 < sd -> @lpdf_dd N lp ys m sd = LL density ys m sd.
Proof. intros Hs. exact (scores_val _ _ _ _ _ HS m sd Hs). Qed.

(* as a call inside a program *)
Definition lpdf_call (a b : nat) : @op N :=
  @OPart N (fun l => @fsum N (map (lp (nth 0 l 0) (nth 1 l 0)) ys))
    (fun l => [@fsum N (map (dm (nth 0 l 0) (nth 1 l 0)) ys); @fsum N (map (ds (nth 0 l 0) (nth 1 l 0)) ys)]) [a; b].

Lemma lpdf_call_ok a b : op_shape (lpdf_call a b) /\ neutral (lpdf_call a b) = false /\
  (forall env s x y, nth_error env a = Some x -> nth_error env b = Some y ->
     exec_op env (lpdf_call a b) s = one (@lpdf_vv N C lp dm ds ys x y) s) /\
  forall m sd, 0 < sd -> op_dom (lpdf_call a b) [m; sd] /\ denote (lpdf_call a b) [m; sd] = LL density ys m sd :: nil.
Proof.
  split; [intros l _; reflexivity|]. split; [reflexivity|]. split; [intros; apply (@lpdf_vv_op N C lp dm ds ys); auto|].
  intros m sd Hs. split.
  - intros fs t vs HF HD. destruct fs as [|f [|g [|? ?]]]; try discriminate HF. cbn [map] in HF.
    assert (Ef : f t = m) by congruence. assert (Eg : g t = sd) by congruence.
    inversion HD as [|? df ? vs1 D1 HD1]; subst. inversion HD1 as [|? dg ? vs2 D2 HD2]; subst. inversion HD2; subst.
    eapply deriv_eq; [apply (proj2 (HS (f t) (g t) Hs) f g t df dg eq_refl eq_refl D1 D2)|].
    cbn [nth]. cbv [rdot combine map fst snd]. cbn [rsum fold_right fsum RNum]. ring.
  - cbn [denote lpdf_call nth]. f_equal. exact (scores_val _ _ _ _ _ HS m sd Hs).
Qed.
End Calls.
End RealModel.
