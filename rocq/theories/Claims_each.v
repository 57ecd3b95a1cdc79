(* Lemmas behind C14, C15, C17, C18, C20-C23, C26, C29-C31: every procedure of
   the library on live operands in any reachable state. *)
From Verif Require Import TapeFacts.
From Coq Require Import ZifyBool ZifyNat.
From Verif Require Export Claims_total ArrSpec.

Section Direct.
Context {N : Num} {C : Cfg N}.

Lemma one_inv (m : M Z) s hs s' : one m s = Ok (hs, s') -> exists h, hs = [h] /\ m s = Ok (h, s').
Proof.
  unfold one, mbind, mret. destruct (m s) as [[h s1]| | |]; cbn [bind]; intros H; try discriminate.
  inversion H; subst. eauto.
Qed.

Lemma reg_bind {A} env r x (f : Z -> M A) s : nth_error env r = Some x -> mbind (reg env r) f s = f x s.
Proof. intros E. unfold mbind, reg. rewrite E. reflexivity. Qed.

Lemma regs_bind {A} env l hs (f : list Z -> M A) s : Forall2 (fun r h => nth_error env r = Some h) l hs ->
  mbind (regs env l) f s = f hs s.
Proof.
  intros H. unfold mbind, regs. assert (E : mmap (reg env) l s = Ok (hs, s)); [|rewrite E; reflexivity].
  induction H as [|r h l hs E _ IH]; cbn [mmap]; [reflexivity|]. unfold mbind. unfold reg at 1. rewrite E. cbn [mret bind].
  unfold mret at 1. cbn [bind]. rewrite IH. reflexivity.
Qed.

Lemma picks (xs ys zs : list Z) : Forall2 (fun r h => nth_error (xs ++ ys ++ zs) r = Some h) (seq (length xs) (length ys)) ys.
Proof.
  revert xs. induction ys as [|y ys IH]; intros xs; cbn [length seq]; constructor.
  - rewrite nth_error_app2 by lia. rewrite Nat.sub_diag. reflexivity.
  - specialize (IH (xs ++ [y])). rewrite app_length in IH. cbn [length] in IH.
    replace (length xs + 1)%nat with (S (length xs)) in IH by lia. rewrite <- app_assoc in IH. exact IH.
Qed.

Lemma picks0 (ys : list Z) : Forall2 (fun r h => nth_error ys r = Some h) (seq 0 (length ys)) ys.
Proof. pose proof (picks [] ys []) as H. cbn [app length] in H. rewrite app_nil_r in H. exact H. Qed.
Lemma picks1 (xs ys : list Z) : Forall2 (fun r h => nth_error (xs ++ ys) r = Some h) (seq 0 (length xs)) xs.
Proof. exact (picks [] xs ys). Qed.
Lemma picks2 (xs ys : list Z) : Forall2 (fun r h => nth_error (xs ++ ys) r = Some h) (seq (length xs) (length ys)) ys.
Proof. pose proof (picks xs ys []) as H. rewrite app_nil_r in H. exact H. Qed.

Lemma call_un u x s hs s' : exec_op [x] (OUn u 0) s = Ok (hs, s') -> exists h, hs = [h] /\ un_v u x s = Ok (h, s').
Proof. cbn [exec_op]. rewrite (reg_bind [x] 0 x) by reflexivity. apply one_inv. Qed.
Lemma call_vv b x y s hs s' : exec_op [x; y] (OVV b 0 1) s = Ok (hs, s') -> exists h, hs = [h] /\ bin_vv b x y s = Ok (h, s').
Proof.
  cbn [exec_op]. rewrite (reg_bind [x; y] 0 x) by reflexivity. rewrite (reg_bind [x; y] 1 y) by reflexivity. apply one_inv.
Qed.
Lemma call_vd b x d s hs s' : exec_op [x] (OVD b 0 d) s = Ok (hs, s') -> exists h, hs = [h] /\ bin_vd b x d s = Ok (h, s').
Proof. cbn [exec_op]. rewrite (reg_bind [x] 0 x) by reflexivity. apply one_inv. Qed.
Lemma call_dv b d x s hs s' : exec_op [x] (ODV b d 0) s = Ok (hs, s') -> exists h, hs = [h] /\ bin_dv b d x s = Ok (h, s').
Proof. cbn [exec_op]. rewrite (reg_bind [x] 0 x) by reflexivity. apply one_inv. Qed.
Lemma call_sum xs s hs s' : exec_op xs (OSum (seq 0 (length xs))) s = Ok (hs, s') -> exists h, hs = [h] /\ sum_v xs s = Ok (h, s').
Proof. cbn [exec_op]. rewrite (regs_bind _ _ _ _ _ (picks0 xs)). apply one_inv. Qed.
Lemma call_norm2 xs s hs s' : exec_op xs (ONorm2 (seq 0 (length xs))) s = Ok (hs, s') -> exists h, hs = [h] /\ norm2_v xs s = Ok (h, s').
Proof. cbn [exec_op]. rewrite (regs_bind _ _ _ _ _ (picks0 xs)). apply one_inv. Qed.
Lemma call_lse xs s hs s' : exec_op xs (OLse (seq 0 (length xs))) s = Ok (hs, s') -> exists h, hs = [h] /\ log_sum_exp_v xs s = Ok (h, s').
Proof. cbn [exec_op]. rewrite (regs_bind _ _ _ _ _ (picks0 xs)). apply one_inv. Qed.
Lemma call_dvv xs ys s hs s' : exec_op (xs ++ ys) (ODotVV (seq 0 (length xs)) (seq (length xs) (length ys))) s = Ok (hs, s') ->
  exists h, hs = [h] /\ dot_prod_vv xs ys s = Ok (h, s').
Proof.
  cbn [exec_op]. rewrite (regs_bind _ _ _ _ _ (picks1 xs ys)). rewrite (regs_bind _ _ _ _ _ (picks2 xs ys)). apply one_inv.
Qed.
Lemma call_dvd xs ds s hs s' : exec_op xs (ODotVD (seq 0 (length xs)) ds) s = Ok (hs, s') ->
  exists h, hs = [h] /\ dot_prod_vd xs ds s = Ok (h, s').
Proof. cbn [exec_op]. rewrite (regs_bind _ _ _ _ _ (picks0 xs)). apply one_inv. Qed.
Lemma call_ddv ds xs s hs s' : exec_op xs (ODotDV ds (seq 0 (length xs))) s = Ok (hs, s') ->
  exists h, hs = [h] /\ dot_prod_dv ds xs s = Ok (h, s').
Proof. cbn [exec_op]. rewrite (regs_bind _ _ _ _ _ (picks0 xs)). apply one_inv. Qed.
Lemma call_mvv m k n xs ys s : exec_op (xs ++ ys) (OMatVV m k n (seq 0 (length xs)) (seq (length xs) (length ys))) s = mat_mul_vv m k n xs ys s.
Proof. cbn [exec_op]. rewrite (regs_bind _ _ _ _ _ (picks1 xs ys)). rewrite (regs_bind _ _ _ _ _ (picks2 xs ys)). reflexivity. Qed.
Lemma call_mvd m k n xs ds s : exec_op xs (OMatVD m k n (seq 0 (length xs)) ds) s = mat_mul_vd m k n xs ds s.
Proof. cbn [exec_op]. rewrite (regs_bind _ _ _ _ _ (picks0 xs)). reflexivity. Qed.
Lemma call_mdv m k n ds xs s : exec_op xs (OMatDV m k n ds (seq 0 (length xs))) s = mat_mul_dv m k n ds xs s.
Proof. cbn [exec_op]. rewrite (regs_bind _ _ _ _ _ (picks0 xs)). reflexivity. Qed.
Lemma call_part v p xs s hs s' : exec_op xs (OPart v (fun _ => p) (seq 0 (length xs))) s = Ok (hs, s') ->
  exists h vs, hs = [h] /\ mapM (var_val s) xs = Ok vs /\ var_with_partials (v vs) xs p s = Ok (h, s').
Proof.
  cbn [exec_op]. rewrite (regs_bind _ _ _ _ _ (picks0 xs)). unfold mbind at 1. unfold vvals at 1. unfold mget.
  destruct (mapM (var_val s) xs) as [vs| | |]; try discriminate. cbn [bind]. intros H. apply one_inv in H.
  destruct H as (h & -> & H). exists h, vs. auto.
Qed.

End Direct.

Local Open Scope R_scope.

(* An adjoint a of the result h of a call (state s before it, s' after it)
   reaches variable x as a * d: either h is an older variable, returned as it is,
   or the step of h in the gradient pass adds a * d to the adjoint of x. *)
Definition passes {lg : R -> R} {C : Cfg (RNum lg)} (s s' : @st (RNum lg)) (h x : Z) (d : R) : Prop :=
  (alive s h /\ d = if Z.eqb h x then 1 else 0) \/
  (~ alive s h /\ forall a s1 b, set_var_adj h (a : @F (RNum lg)) s' = Ok s1 -> var_adj s1 x = Ok b ->
     exists s2, chain_at s1 h = Ok s2 /\ var_adj s2 x = Ok (b + a * d) /\
       forall z, alive s' z -> var_val s2 z = var_val s' z).

Section Each.
Context {lg : R -> R} {C : Cfg (RNum lg)}.
Notation N := (RNum lg).
Notation graph := (@graph N).

Theorem call_all (s : @st N) env ws (o : @op N) : @practical N C -> (exists g : graph, Rel s g /\ sound g) ->
  Forall (alive s) env -> mapM (var_val s) env = Ok ws -> op_dom o (at_regs ws (op_regs o)) -> op_shape o -> neutral o = false ->
  Forall (fun r => (r < length env)%nat) (op_regs o) -> roomy s (op_words o) ->
  exists hs s', exec_op env o s = Ok (hs, s') /\ length hs = op_results o /\
    forall q h, nth_error hs q = Some h ->
      var_val s' h = Ok (nth q (denote o (at_regs ws (op_regs o))) 0) /\
      forall x v, alive s x -> var_val s x = Ok v ->
        exists d, is_derive (fun t => nth q (denote o (moved env ws x t (op_regs o))) 0) v d /\ passes s s' h x d.
Proof.
  intros HP HV HA HW HD HS HN HR HM. destruct (op_total s env ws o HP HV HA HW HD HS HN HR HM) as (hs & s' & E & L).
  exists hs, s'. split; auto. split; auto. intros q h Hq.
  assert (AD : alive s h \/ ~ alive s h) by (unfold alive; lia). destruct AD as [HL|HL].
  - destruct (call_same s env ws o hs s' q h HP HV HA HW HD HS HN E Hq HL) as (v & V1 & V2 & V3 & (r & Er & Eh) & V4).
    split; [etransitivity; [exact V2|]; f_equal; symmetry; exact V3|].
    intros x vx Hx Hvx. exists (if Z.eqb h x then 1 else 0). split; [|left; auto].
    destruct (Z.eqb_spec h x) as [->|Hne].
    + assert (E0 : @Ok R v = Ok vx) by (etransitivity; [symmetry; exact V1|exact Hvx]).
      assert (v = vx) by congruence. subst. exact V4.
    + rewrite Er. unfold moved. cbn [map]. rewrite (nth_error_nth _ _ _ Eh). destruct (Z.eqb_spec h x); [congruence|].
      apply (d_const (nth q (denote o [nth r ws 0]) 0) vx).
  - destruct (call_adds s env ws o hs s' q h HP HV HA HW HD HS HN E Hq HL) as [V1 V2]. split; auto.
    intros x v Hx Hv. destruct (V2 x v Hx Hv) as (d & D1 & D2). exists d. split; auto. right. split; auto.
Qed.

(* ---- one or two operands ---- *)

Lemma derive_eq (f h : R -> R) v d e : (forall t, f t = h t) -> is_derive f v d -> is_derive h v e -> d = e.
Proof.
  intros E D1 D2. pose proof (deriv_ext f h v d E D1) as D3. apply is_derive_unique in D3. apply is_derive_unique in D2. congruence.
Qed.

Lemma val1 (s : @st N) x (v : R) : alive s x -> var_val s x = Ok v -> Forall (alive s) [x] /\ mapM (var_val s) [x] = Ok [v : @F N].
Proof. intros H1 H2. split; auto. cbn [mapM]. rewrite H2. reflexivity. Qed.
Lemma val2 (s : @st N) x y (v w : R) : alive s x -> alive s y -> var_val s x = Ok v -> var_val s y = Ok w ->
  Forall (alive s) [x; y] /\ mapM (var_val s) [x; y] = Ok [v : @F N; w : @F N].
Proof. intros H1 H2 H3 H4. split; auto. cbn [mapM]. rewrite H3, H4. reflexivity. Qed.

(* an operation with one variable operand *)
Lemma each_1 (s : @st N) x (v : R) (o : @op N) (f : R -> R) : @practical N C -> (exists g : graph, Rel s g /\ sound g) ->
  alive s x -> var_val s x = Ok v -> op_regs o = [O] -> (forall t, denote o [t] = [f t]) -> op_results o = 1%nat ->
  op_dom o [v] -> op_shape o -> neutral o = false -> roomy s (op_words o) ->
  exists h s' d, exec_op [x] o s = Ok ([h], s') /\ var_val s' h = Ok (f v) /\ is_derive f v d /\ passes s s' h x d /\
    forall z, alive s z -> z <> x -> passes s s' h z 0.
Proof.
  intros HP HV HA HX HR HF H1 HD HS HN HM. destruct (val1 s x v HA HX) as [A1 A2].
  destruct (call_all s [x] [v] o HP HV A1 A2) as (hs & s' & E & L & Q); auto.
  { rewrite HR. exact HD. }
  { rewrite HR. repeat constructor. }
  rewrite H1 in L. destruct hs as [|h [|h2 hs]]; try discriminate L. destruct (Q O h eq_refl) as [V P].
  rewrite HR in V, P. unfold at_regs in V. cbn [map nth] in V. rewrite HF in V.
  destruct (P x v HA HX) as (d & D1 & D2). exists h, s', d. split; auto. split; auto. split.
  - eapply deriv_ext; [|exact D1]. intros t. cbv beta. unfold moved. cbn [map nth]. rewrite Z.eqb_refl, HF. reflexivity.
  - split; auto. intros z Hz Hne.
    assert (exists vz, var_val s z = Ok vz) as [vz Hvz].
    { destruct HV as (g & R0 & _). destruct (alive_node s g z R0 Hz) as (k & -> & Hk). eexists. apply (rel_var_val s g R0 k Hk). }
    destruct (P z vz Hz Hvz) as (d0 & D3 & D4).
    replace 0 with d0; auto. eapply derive_eq; [|exact D3|apply (d_const (f v) vz)]. intros t. cbv beta.
    unfold moved. cbn [map nth]. destruct (Z.eqb_spec x z); [congruence|]. rewrite HF. reflexivity.
Qed.

Theorem each_un (s : @st N) u x (v : R) : @practical N C -> (exists g : graph, Rel s g /\ sound g) -> alive s x -> var_val s x = Ok v ->
  un_dom u v -> roomy s 7 ->
  exists h s' d, un_v u x s = Ok (h, s') /\ var_val s' h = Ok (@un_fun lg u v) /\ is_derive (@un_fun lg u) v d /\ passes s s' h x d /\
    forall z, alive s z -> z <> x -> passes s s' h z 0.
Proof.
  intros HP HV HA HX HD HM.
  destruct (each_1 s x v (OUn u 0) (@un_fun lg u) HP HV HA HX) as (h & s' & d & E & Q); auto; try exact Logic.I.
  destruct (call_un _ _ _ _ _ E) as (h1 & E1 & E2). exists h, s', d. split; auto. congruence.
Qed.

Theorem each_vd (s : @st N) b x (c v : R) : @practical N C -> (exists g : graph, Rel s g /\ sound g) -> alive s x -> var_val s x = Ok v ->
  vd_dom b v c -> @neutral N (@OVD N b 0 c) = false -> roomy s 9 ->
  exists h s' d, bin_vd b x (c : @F N) s = Ok (h, s') /\ var_val s' h = Ok (bin_fun b v c) /\
    is_derive (fun t => bin_fun b t c) v d /\ passes s s' h x d /\
    forall z, alive s z -> z <> x -> passes s s' h z 0.
Proof.
  intros HP HV HA HX HD HN HM.
  destruct (each_1 s x v (@OVD N b 0 c) (fun t => bin_fun b t c) HP HV HA HX) as (h & s' & d & E & Q); auto; try exact Logic.I.
  destruct (call_vd _ _ _ _ _ _ E) as (h1 & E1 & E2). exists h, s', d. split; auto. congruence.
Qed.

Theorem each_dv (s : @st N) b (c : R) x (v : R) : @practical N C -> (exists g : graph, Rel s g /\ sound g) -> alive s x -> var_val s x = Ok v ->
  dv_dom b c v -> @neutral N (@ODV N b c 0) = false -> roomy s 9 ->
  exists h s' d, bin_dv b (c : @F N) x s = Ok (h, s') /\ var_val s' h = Ok (bin_fun b c v) /\
    is_derive (fun t => bin_fun b c t) v d /\ passes s s' h x d /\
    forall z, alive s z -> z <> x -> passes s s' h z 0.
Proof.
  intros HP HV HA HX HD HN HM.
  destruct (each_1 s x v (@ODV N b c 0) (fun t => bin_fun b c t) HP HV HA HX) as (h & s' & d & E & Q); auto; try exact Logic.I.
  destruct (call_dv _ _ _ _ _ _ E) as (h1 & E1 & E2). exists h, s', d. split; auto. congruence.
Qed.

Theorem each_vv (s : @st N) b x y (v w : R) : @practical N C -> (exists g : graph, Rel s g /\ sound g) -> alive s x -> alive s y ->
  var_val s x = Ok v -> var_val s y = Ok w -> vv_dom b v w -> roomy s 8 ->
  exists h s', bin_vv b x y s = Ok (h, s') /\ var_val s' h = Ok (bin_fun b v w) /\
    (x <> y -> exists d e, is_derive (fun t => bin_fun b t w) v d /\ is_derive (fun t => bin_fun b v t) w e /\
       passes s s' h x d /\ passes s s' h y e) /\
    (x = y -> exists d, is_derive (fun t => bin_fun b t t) v d /\ passes s s' h x d) /\
    forall z, alive s z -> z <> x -> z <> y -> passes s s' h z 0.
Proof.
  intros HP HV HX HY VX VY HD HM. destruct (val2 s x y v w HX HY VX VY) as [A1 A2].
  destruct (call_all s [x; y] [v; w] (@OVV N b 0 1) HP HV A1 A2) as (hs & s' & E & L & Q); auto; try exact Logic.I.
  { repeat constructor. }
  destruct hs as [|h [|h2 hs]]; try discriminate L. destruct (Q O h eq_refl) as [V P].
  destruct (call_vv _ _ _ _ _ _ E) as (h1 & E1 & E2). assert (h1 = h) by congruence. subst h1.
  exists h, s'. split; auto. split; [exact V|]. split; [|split].
  - intros Hne. destruct (P x v HX VX) as (d & D1 & D2). destruct (P y w HY VY) as (e & D3 & D4).
    exists d, e. split; [|split; [|split; auto]].
    + eapply deriv_ext; [|exact D1]. intros t. unfold moved. cbn [op_regs map nth denote]. rewrite Z.eqb_refl.
      destruct (Z.eqb_spec y x); [congruence|]. reflexivity.
    + eapply deriv_ext; [|exact D3]. intros t. unfold moved. cbn [op_regs map nth denote]. rewrite Z.eqb_refl.
      destruct (Z.eqb_spec x y); [congruence|]. reflexivity.
  - intros <-. destruct (P x v HX VX) as (d & D1 & D2). exists d. split; auto.
    eapply deriv_ext; [|exact D1]. intros t. unfold moved. cbn [op_regs map nth denote]. rewrite Z.eqb_refl. reflexivity.
  - intros z Hz N1 N2.
    assert (exists vz, var_val s z = Ok vz) as [vz Hvz].
    { destruct HV as (g & R0 & _). destruct (alive_node s g z R0 Hz) as (k & -> & Hk). eexists. apply (rel_var_val s g R0 k Hk). }
    destruct (P z vz Hz Hvz) as (d0 & D3 & D4).
    replace 0 with d0; auto. eapply derive_eq; [|exact D3|apply (d_const (bin_fun b v w) vz)]. intros t. cbv beta.
    unfold moved. cbn [op_regs map nth denote]. destruct (Z.eqb_spec x z); [congruence|]. destruct (Z.eqb_spec y z); [congruence|]. reflexivity.
Qed.

(* ---- arrays ---- *)

Lemma at_regs_all (ws : list R) n : length ws = n -> at_regs ws (seq 0 n) = ws.
Proof.
  intros <-. unfold at_regs. induction ws as [|w ws IH]; [reflexivity|]. cbn [length seq map nth]. f_equal.
  rewrite <- seq_shift, map_map. exact IH.
Qed.

Lemma moved_all xs : forall (ws : list R) x t, length xs = length ws -> moved xs ws x t (seq 0 (length xs)) = with_var xs ws x t.
Proof.
  induction xs as [|x0 xs IH]; intros [|w ws] x t H; try discriminate H; [reflexivity|].
  unfold moved. cbn [length seq map nth with_var combine fst snd]. f_equal. rewrite <- seq_shift, map_map.
  apply (IH ws x t). cbn [length] in H. lia.
Qed.

Lemma vals_len (s : @st N) xs ws : mapM (var_val s) xs = Ok (ws : list (@F N)) -> length xs = @length R ws.
Proof.
  revert ws. induction xs as [|x xs IH]; intros ws H; cbn [mapM] in H; [assert (ws = []) by congruence; subst; auto|].
  destruct (var_val s x) as [f| | |]; try discriminate. cbn [bind] in H. destruct (mapM (var_val s) xs) as [l| | |]; try discriminate.
  cbn [bind] in H. assert (ws = f :: l) by congruence. subst. cbn [length]. rewrite (IH l); auto.
Qed.

Lemma vals_at (s : @st N) xs : forall ws, mapM (var_val s) xs = Ok (ws : list (@F N)) ->
  forall x v, var_val s x = Ok v -> Forall2 (fun z (w : R) => z = x -> w = v) xs ws.
Proof.
  induction xs as [|x0 xs IH]; intros ws H x v Hv; cbn [mapM] in H; [assert (ws = []) by congruence; subst; constructor|].
  destruct (var_val s x0) as [f| | |] eqn:E0; try discriminate. cbn [bind] in H. destruct (mapM (var_val s) xs) as [l| | |] eqn:E; try discriminate.
  cbn [bind] in H. assert (ws = f :: l) by congruence. subst. constructor; [|eapply IH; eauto].
  intros ->. assert (E1 : @Ok R f = Ok v) by (etransitivity; [symmetry; exact E0|exact Hv]). congruence.
Qed.

(* differentiable functions of the array *)
Lemma partial_weight (f : list R -> R) xs ws ds x v : has_partials f ws ds -> length xs = length ws -> length xs = length ds ->
  Forall2 (fun z (w : R) => z = x -> w = v) xs ws ->
  is_derive (fun t => f (with_var xs ws x t)) v (weight xs ds x).
Proof.
  intros HP HL HL2 HV.
  set (fs := map (fun p (t : R) => if Z.eqb (fst p) x then t else snd p) (combine xs ws)).
  assert (E0 : map (fun c : R -> R => c v) fs = ws).
  { unfold fs. rewrite map_map. clear - HV. induction HV as [|z w xs ws E _ IH]; [reflexivity|]. cbn [combine map fst snd].
    rewrite IH. destruct (Z.eqb_spec z x); [rewrite E by auto|]; reflexivity. }
  assert (F : Forall2 (fun (c : R -> R) (d : R) => is_derive c v d) fs (map (fun z => if Z.eqb z x then 1 else 0) xs)).
  { unfold fs. clear - HL. revert ws HL. induction xs as [|z xs IH]; intros [|w ws] HL; try discriminate HL; [constructor|].
    cbn [combine map fst snd]. constructor; [|apply IH; cbn [length] in HL; lia].
    destruct (Z.eqb z x); [apply (is_derive_id v)|apply (d_const w v)]. }
  rewrite weight_rdot by auto. pose proof (HP fs v _ E0 F) as D.
  eapply deriv_ext; [|exact D]. intros t. cbv beta. unfold fs, with_var. rewrite map_map. reflexivity.
Qed.

Lemma each_arr (s : @st N) xs (ws : list R) (o : @op N) (f : list R -> R) ds : @practical N C -> (exists g : graph, Rel s g /\ sound g) ->
  Forall (alive s) xs -> mapM (var_val s) xs = Ok ws -> op_regs o = seq 0 (length xs) ->
  (forall l, length l = length xs -> denote o l = [f l]) -> op_results o = 1%nat ->
  has_partials f ws ds -> length xs = length ds ->
  op_dom o ws -> op_shape o -> neutral o = false -> roomy s (op_words o) ->
  exists h s', exec_op xs o s = Ok ([h], s') /\ var_val s' h = Ok (f ws) /\
    forall x, alive s x -> passes s s' h x (weight xs ds x).
Proof.
  intros HP HV HA HX HR HF H1 HPart HL2 HD HS HN HM. pose proof (vals_len s xs ws HX) as HL.
  destruct (call_all s xs ws o HP HV HA HX) as (hs & s' & E & L & Q); auto.
  { rewrite HR, at_regs_all by auto. exact HD. }
  { rewrite HR. apply Forall_forall. intros r Hr. apply in_seq in Hr. lia. }
  rewrite H1 in L. destruct hs as [|h [|h2 hs]]; try discriminate L. destruct (Q O h eq_refl) as [V P].
  rewrite HR in V, P. rewrite at_regs_all in V by auto. rewrite HF in V by auto.
  exists h, s'. split; auto. split; auto. intros x Hx.
  assert (exists v, var_val s x = Ok v) as [v Hv].
  { destruct HV as (g & R0 & _). destruct (alive_node s g x R0 Hx) as (k & -> & Hk). eexists. apply (rel_var_val s g R0 k Hk). }
  destruct (P x v Hx Hv) as (d & D1 & D2).
  replace (weight xs ds x) with d; auto.
  eapply derive_eq; [|exact D1|apply (partial_weight f xs ws ds x v HPart HL HL2 (vals_at s xs ws HX x v Hv))].
  intros t. cbv beta. rewrite moved_all by auto. rewrite HF by (apply with_var_len; auto). reflexivity.
Qed.

End Each.
