(* abs in any arithmetic, and in binary64 bit for bit (C26). *)
From Coq Require Import ZifyBool ZifyNat.
From Flocq Require Import IEEE754.BinarySingleNaN IEEE754.Binary IEEE754.Bits.
From Verif Require Import TapeFacts.
From Verif Require Export Findings.

Section Abs.
Context {N : Num} {RL : RepLaws N} {C : Cfg N}.

Theorem abs_cases env0 s x v h s' : practical -> reachable env0 s -> alive s x -> var_val s x = Ok v -> un_v UAbs x s = Ok (h, s') ->
  if fgt v f0 then h = x /\ s' = s else
  ~ alive s h /\ var_val s' h = Ok (if flt v f0 then fneg v else if feq v f0 then f0 else c_nan) /\
  forall a s1 b, set_var_adj h a s' = Ok s1 -> var_adj s1 x = Ok b -> exists s2, chain_at s1 h = Ok s2 /\
    var_adj s2 x = Ok (if flt v f0 then fadd b (fneg a) else if feq v f0 then b else if is_nan_d c_nan then fadd b c_nan else b).
Proof.
  intros [HC HJ] HR HA HX HU. destruct (proj1 (reach_valid env0 s (conj HC HJ) HR)) as (g & R0 & HG).
  destruct (alive_node s g x R0 HA) as (k & -> & Hk). rewrite (rel_var_val s g R0 k Hk) in HX.
  assert (EV : gval g k = v) by congruence. clear HX. pose proof (abs_ok HC s g k R0 Hk) as P. unfold performs, act_abs in P.
  rewrite EV in P. cbn [un_v] in HU.
  assert (NEW : forall v1 ops ds ch, do_act g (ANew v1 ops ds ch) = AOk (gsize g, a_new g v1 (BRec ops ds) ch)) by reflexivity.
  assert (FR : forall v1 b ch, (forall ov : Prop, excused ov (a_new g v1 b ch) -> yields ov (abs_v (hd k) s) (gsize g) (a_new g v1 b ch)) ->
    h = hd (gsize g) /\ Rel s' (a_new g v1 b ch)).
  { intros v1 b ch HY. specialize (HY True (fun _ => Logic.I)). unfold yields in HY. rewrite HU in HY. exact HY. }
  assert (NA : forall v1 b ch, Rel s' (a_new g v1 b ch) -> ~ alive s (hd (gsize g)) /\ var_val s' (hd (gsize g)) = Ok v1).
  { intros v1 b ch R1. split; [unfold alive; rewrite (r_head s g R0); unfold hd; lia|].
    rewrite (rel_var_val s' _ R1) by (unfold gsize; simpl; rewrite app_length; simpl; lia).
    rewrite gval_new, Nat.eqb_refl. reflexivity. }
  assert (ST : forall v1 ops ch l, let g1 := a_new g v1 (BRec ops []) ch in Rel s' g1 ->
     forall a s1 b, set_var_adj (hd (gsize g)) a s' = Ok s1 -> var_adj s1 (hd k) = Ok b ->
       effect (set_gadj g1 (nupd (g_adj g1) (gsize g) a)) (gsize g) = Some l ->
       exists s2, chain_at s1 (hd (gsize g)) = Ok s2 /\ var_adj s2 (hd k) = Ok (apply_effect l (nupd (g_adj g1) (gsize g) a) k) /\ b = nupd (g_adj g1) (gsize g) a k).
  { intros v1 ops ch l g1 R1 a s1 b HS Hb HE.
    assert (Hs : (gsize g < gsize g1)%nat) by (unfold gsize; simpl; rewrite app_length; simpl; lia).
    destruct (rel_set_var_adj s' g1 (gsize g) a R1 Hs) as (s1' & E1 & R1'). assert (s1' = s1) by congruence. subst s1'.
    rewrite (rel_var_adj s1 _ R1' k) in Hb by (change (k < gsize g1)%nat; lia).
    destruct (rel_chain_at s1 _ (gsize g) l R1' Hs HE) as (s2 & E2 & R2). exists s2. split; auto.
    rewrite (rel_var_adj s2 _ R2 k) by (change (k < gsize g1)%nat; lia). split; [reflexivity|]. injection Hb as <-. reflexivity. }
  assert (GV : forall v1 b ch f, gval (set_gadj (a_new g v1 b ch) f) k = v).
  { intros. change (gval (a_new g v1 b ch) k = v). rewrite gval_new. destruct (Nat.eqb_spec k (gsize g)); [lia|exact EV]. }
  assert (ND : forall v1 b ch f, nth_error (g_nodes (set_gadj (a_new g v1 b ch) f)) (gsize g) = Some (mkNode v1 b (g_top g))).
  { intros. simpl. rewrite nth_error_app2 by (unfold gsize; lia). unfold gsize. rewrite Nat.sub_diag. reflexivity. }
  destruct (fgt v f0) eqn:G0.
  { cbn [do_act] in P. specialize (P True (fun _ => Logic.I)). unfold yields in P. rewrite HU in P. destruct P as [P _]. cbn [fst] in P. subst h.
    split; auto. revert HU. unfold abs_v, mbind, vval, mget. rewrite (rel_var_val s g R0 k Hk), EV. cbn [bind]. rewrite G0. unfold mret. congruence. }
  assert (KN : k <> gsize g) by lia.
  destruct (flt v f0); [|destruct (feq v f0)].
  - cbn [do_act] in P. destruct (FR _ _ _ P) as [-> R1]. destruct (NA _ _ _ R1) as [N1 N2]. split; auto. split; auto.
    intros a s1 b HS Hb.
    destruct (ST _ _ _ [(k, fneg a)] R1 a s1 b HS Hb) as (s2 & E2 & E3 & ->).
    { unfold effect. rewrite ND. cbn [n_body n_val map set_gadj g_adj g_ch a_new push_top]. rewrite GV.
      unfold nupd. rewrite !Nat.eqb_refl. reflexivity. }
    exists s2. split; auto. rewrite E3. f_equal. unfold apply_effect, addto. cbn [fold_left fst snd].
    unfold nupd at 1. rewrite Nat.eqb_refl. reflexivity.
  - cbn [do_act] in P. destruct (FR _ _ _ P) as [-> R1]. destruct (NA _ _ _ R1) as [N1 N2]. split; auto. split; auto.
    intros a s1 b HS Hb.
    destruct (ST _ _ _ [] R1 a s1 b HS Hb) as (s2 & E2 & E3 & ->).
    { unfold effect. rewrite ND. cbn [n_body n_val map set_gadj g_adj g_ch a_new push_top].
      pose proof (gd_stale g HG (gsize g) ltac:(lia)) as HS'. destruct HJ as [j EJ].
      unfold contrib, is_nil, leaf_safe. rewrite EJ. cbn [andb]. rewrite HS'. cbn [negb]. destruct (g_ch g (gsize g)); reflexivity. }
    exists s2. split; auto.
  - cbn [do_act] in P. destruct (FR _ _ _ P) as [-> R1]. destruct (NA _ _ _ R1) as [N1 N2]. split; auto. split; auto.
    intros a s1 b HS Hb.
    destruct (ST _ _ _ (if is_nan_d c_nan then [(k, c_nan)] else []) R1 a s1 b HS Hb) as (s2 & E2 & E3 & ->).
    { unfold effect. rewrite ND. cbn [n_body n_val map set_gadj g_adj g_ch a_new push_top]. rewrite GV.
      unfold nupd. rewrite !Nat.eqb_refl. cbn [contrib is_nil andb option_map]. destruct (is_nan_d c_nan); reflexivity. }
    exists s2. split; auto. rewrite E3. f_equal. destruct (is_nan_d c_nan); [|reflexivity]. unfold apply_effect, addto. cbn [fold_left fst snd].
    unfold nupd at 1. rewrite Nat.eqb_refl. reflexivity.
Qed.
End Abs.

Section Abs64.
Context (L : Libm) {C : Cfg (B64 L)}.
Notation N := (B64 L).

Lemma plus_nan_r (x y : binary64) : is_nan 53 1024 y = true -> is_nan 53 1024 (b64_plus rne x y) = true.
Proof. destruct x, y; intros H; try discriminate; reflexivity. Qed.

Lemma cmp_nan (x y : binary64) : is_nan 53 1024 x = true -> b_cmp x y = None /\ b_cmp y x = None.
Proof. destruct x, y; intros H; try discriminate; split; reflexivity. Qed.

Lemma cnan_nan : is_nan 53 1024 cnan = true.
Proof. vm_compute. reflexivity. Qed.

(* not a number: none of the three tests succeeds *)
Lemma nan_tests (v : binary64) : is_nan 53 1024 v = true -> b_lt c0 v = false /\ b_lt v c0 = false /\ b_eq v c0 = false.
Proof. intros H. destruct (cmp_nan v c0 H) as [E1 E2]. unfold b_lt, b_eq. rewrite E1, E2. auto. Qed.

(* a number: the library's case distinction computes |v| bit for bit *)
Lemma abs_bits (v : binary64) : is_nan 53 1024 v = false ->
  b64_abs v = if b_lt c0 v then v else if b_lt v c0 then b64_opp v else c0.
Proof.
  destruct v as [b|b|b pl H|b m e H]; intros HN; try discriminate; try (destruct b; reflexivity).
Qed.
Lemma num_tests (v : binary64) : is_nan 53 1024 v = false -> b_lt c0 v = false -> b_lt v c0 = false -> b_eq v c0 = true.
Proof.
  destruct v as [b|b|b pl H|b m e H]; intros HN; try discriminate; try (destruct b; cbn; congruence).
Qed.

Theorem abs_b64 env0 (s : @st N) x (v : binary64) h s' : @practical N C -> reachable env0 s -> alive s x ->
  var_val s x = Ok v -> un_v UAbs x s = Ok (h, s') ->
  (exists w : binary64, var_val s' h = Ok w /\ is_nan 53 1024 w = is_nan 53 1024 v /\ (is_nan 53 1024 v = false -> w = b64_abs v)) /\
  (b_lt c0 v = true -> h = x /\ s' = s) /\
  (b_lt c0 v = false -> ~ alive s h /\
    forall (a : binary64) s1 (b : binary64), set_var_adj h (a : @F N) s' = Ok s1 -> var_adj s1 x = Ok b ->
      exists s2 (b' : binary64), chain_at s1 h = Ok s2 /\ var_adj s2 x = Ok b' /\
        (is_nan 53 1024 v = true -> is_nan 53 1024 b' = true) /\
        (b_eq v c0 = true -> b' = b) /\
        (b_lt v c0 = true -> b' = b64_plus rne b (b64_opp a))).
Proof.
  intros HP HR HA HX HU. pose proof (abs_cases env0 s x v h s' HP HR HA HX HU) as Q. unfold fgt in Q.
  cbn [flt fneg feq f0 c_nan fadd B64] in Q. assert (EN : @is_nan_d N cnan = true) by (vm_compute; reflexivity). rewrite EN in Q.
  destruct (b_lt c0 v) eqn:G1.
  - destruct Q as [-> ->]. assert (HN : is_nan 53 1024 v = false).
    { destruct (is_nan 53 1024 v) eqn:E; auto. destruct (nan_tests v E) as [H _]. congruence. }
    split; [|split; [auto|discriminate]]. exists v. split; auto. split; auto. intros _. rewrite (abs_bits v HN), G1. reflexivity.
  - destruct Q as (Q1 & Q2 & Q3). split; [|split; [discriminate|]].
    + exists (if b_lt v c0 then b64_opp v else if b_eq v c0 then c0 else cnan). split; [exact Q2|]. destruct (is_nan 53 1024 v) eqn:E.
      * destruct (nan_tests v E) as (_ & H2 & H3). rewrite H2, H3. split; [apply cnan_nan|discriminate].
      * assert (EA : (if b_lt v c0 then b64_opp v else if b_eq v c0 then c0 else cnan) = b64_abs v).
        { rewrite (abs_bits v E), G1. destruct (b_lt v c0) eqn:G2; auto. rewrite (num_tests v E G1 G2). reflexivity. }
        rewrite EA. split; auto. destruct v; try discriminate; reflexivity.
    + intros _. split; auto. intros a s1 b HS Hb. destruct (Q3 a s1 b HS Hb) as (s2 & E2 & E3). eexists. eexists. split; [exact E2|].
      split; [exact E3|]. split; [|split].
      * intros E. destruct (nan_tests v E) as (_ & H2 & H3). rewrite H2, H3. apply plus_nan_r, cnan_nan.
      * intros E. rewrite E. destruct (b_lt v c0) eqn:G2; auto. exfalso. unfold b_lt, b_eq in *. destruct (b_cmp v c0) as [[| |]|]; discriminate.
      * intros E. rewrite E. reflexivity.
Qed.
End Abs64.
