(* Preconditions of calls, valid states, and what every call preserves. *)
From Verif Require Import TapeFacts.
From Coq Require Import ZifyBool ZifyNat.
From Verif Require Export RefineSession.

(* ---- vocabulary of the property theorems (concrete state only) ---- *)
Section Vocab.
Context {N : Num} {C : Cfg N}.

(* handles that denote a variable *)
Definition alive (s : st) (h : Z) : Prop := 1 <= h < s_head s.

(* registers an operation reads *)
Definition op_regs (o : op) : list nat :=
  match o with
  | OVar _ | OVar0 => []
  | OUn _ a => [a]
  | OVV _ a b => [a; b]
  | OVD _ a _ => [a]
  | ODV _ _ a => [a]
  | OSum l | ONorm2 l | OLse l => l
  | ODotVV l1 l2 => l1 ++ l2
  | ODotVD l _ => l
  | ODotDV _ l => l
  | OMatVV _ _ _ a b => a ++ b
  | OMatVD _ _ _ a _ => a
  | OMatDV _ _ _ _ b => b
  | OPart _ _ l => l
  end.

(* array arguments have the sizes the language requires *)
Definition op_shape (o : op) : Prop :=
  match o with
  | ODotVV l1 l2 => length l1 = length l2
  | ODotVD l d => length l = length d
  | ODotDV d l => length d = length l
  | OMatVV m k n a b =>
      length a = (m * k)%nat /\ length b = (k * n)%nat /\
      Z.of_nat m <= max_int /\ Z.of_nat k <= max_int /\ Z.of_nat n <= max_int
  | OMatVD m k n a b =>
      length a = (m * k)%nat /\ length b = (k * n)%nat /\
      Z.of_nat m <= max_int /\ Z.of_nat k <= max_int /\ Z.of_nat n <= max_int
  | OMatDV m k n a b =>
      length a = (m * k)%nat /\ length b = (k * n)%nat /\
      Z.of_nat m <= max_int /\ Z.of_nat k <= max_int /\ Z.of_nat n <= max_int
  | OPart v p l => forall xs, length xs = length l -> length (p xs) = length l
  | _ => True
  end.

(* calls that return their operand and overwrite its chain pointer (C16) *)
Definition neutral (o : op) : bool :=
  match o with
  | OVD BAdd _ d | OVD BSub _ d | OVD BHypot _ d | ODV BAdd d _ | ODV BHypot d _ => feq d f0
  | OVD BMul _ d | OVD BDiv _ d | ODV BMul d _ => feq d f1
  | _ => false
  end.

Definition is_matmul (o : op) : bool :=
  match o with OMatVV _ _ _ _ _ | OMatVD _ _ _ _ _ | OMatDV _ _ _ _ _ => true | _ => false end.

Definition has_reg (s : st) (env : list Z) (r : nat) : Prop :=
  exists h, nth_error env r = Some h /\ alive s h.

(* an operation on live variables with conforming arrays *)
Definition op_ok (s : st) (env : list Z) (o : op) : Prop :=
  Forall (has_reg s env) (op_regs o) /\ op_shape o /\ neutral o = false /\
  (is_matmul o = true -> s_lvl s = 0).

(* precondition of a call *)
Definition cmd_ok (s : st) (env : list Z) (c : cmd) : Prop :=
  match c with
  | COp o => op_ok s env o
  | CSet r _ | CGrad r | CVal r | CAdj r | CRelVD _ r _ | CRelDV _ _ r => has_reg s env r
  | CRelVV _ a b => has_reg s env a /\ has_reg s env b
  | CGradNested r => has_reg s env r /\ 1 <= s_lvl s
  | CZeroAll => True
  | CZeroNested => 1 <= s_lvl s
  | CBegin => s_lvl s < 10
  | CEnd => s_lvl s = 0 \/ t_head (s_tape s) <= t_size (s_tape s)
  end.

(* every call of the client meets its precondition when it is reached *)
Fixpoint client_ok (p : client) (env : list Z) (s : st) : Prop :=
  match p with
  | Done => True
  | Do c k => cmd_ok s env c /\
      forall hs os s', exec_cmd env c s = Ok ((hs, os), s') -> client_ok (k os) (env ++ hs) s'
  end.

(* compiled code: a nonconforming array leaves arbitrary contents *)
Definition practical : Prop := cfg_ok C /\ exists j, junk = Some j.

End Vocab.

Section Valid.
Context {N : Num} {RL : RepLaws N} {C : Cfg N}.

(* operand and data counts a chain procedure expects *)
Definition cshape (ch : chain) (nx nd : nat) : bool :=
  match ch with
  | ChDummy => true
  | _ =>
    if Nat.eqb nx 0 && Nat.eqb nd 0 then negb (is_mat ch) else
    match ch with
    | ChAddVV | ChSubVV | ChMulVV | ChDivVV | ChPowVV => Nat.eqb nx 2
    | ChMulVD | ChDivVD | ChPowVD | ChPowDV => Nat.eqb nx 1 && Nat.eqb nd 1
    | ChHypot | ChSum | ChNorm2 | ChLse => true
    | ChDotVV => Nat.eqb nx (2 * Nat.div2 nx)
    | ChDotVD | ChEager => Nat.eqb nx nd
    | ChMatVV | ChMatVD | ChMatDV => false
    | _ => Nat.eqb nx 1
    end
  end.

Definition fits (g : graph) (k : nat) : bool :=
  match nth_error (g_nodes g) k with
  | None => false
  | Some nd =>
    match n_body nd with
    | BRec ops ds => cshape (g_ch g k) (length ops) (length ds)
    | BMat i j ia ib =>
        match g_ch g k, nth_error (g_arrs g) ia, nth_error (g_arrs g) ib with
        | ChMatVV, Some (mkArr m kk (AVar la) l1), Some (mkArr kk' n (AVar lb) l2)
        | ChMatVD, Some (mkArr m kk (AVar la) l1), Some (mkArr kk' n (ADat lb) l2)
        | ChMatDV, Some (mkArr m kk (ADat la) l1), Some (mkArr kk' n (AVar lb) l2) =>
            Nat.ltb i m && Nat.ltb j n && Nat.eqb kk kk'
        | _, _, _ => false
        end
    end
  end.

Lemma contrib_some (HJ : exists j, junk = Some j) ch v a xs ds :
  cshape ch (length xs) (length ds) = true -> exists l, contrib ch v a xs ds = Some l.
Proof.
  destruct HJ as [jk HJ]. intros H. unfold contrib, leaf_safe. rewrite HJ.
  assert (X : is_nil xs && is_nil ds = Nat.eqb (length xs) 0 && Nat.eqb (length ds) 0).
  { destruct xs, ds; reflexivity. }
  unfold cshape in H.
  destruct ch; eauto; rewrite X;
    destruct (Nat.eqb (length xs) 0 && Nat.eqb (length ds) 0) eqn:E;
    try (simpl in H |- *; rewrite ?H; eauto; discriminate).
  all: try discriminate H.
  all: try (rewrite H; eauto; fail).
  all: destruct xs as [|x1 [|x2 [|x3 xs]]]; simpl in H; try discriminate H; eauto.
  all: destruct ds as [|d1 [|d2 ds]]; simpl in H; try discriminate H; eauto.
Qed.

Lemma effect_some (HJ : exists j, junk = Some j) g k : fits g k = true -> exists l, effect g k = Some l.
Proof.
  unfold fits, effect. destruct (nth_error (g_nodes g) k) as [nd|]; [|discriminate].
  destruct (n_body nd) as [ops ds|i j ia ib].
  - intros H. destruct (contrib_some HJ (g_ch g k) (n_val nd) (g_adj g k) (map (gval g) ops) ds) as [l E].
    { rewrite map_length. exact H. }
    rewrite E. simpl. eauto.
  - destruct (g_ch g k); try discriminate;
    destruct (nth_error (g_arrs g) ia) as [[m kk [la|da] l1]|]; try discriminate;
    destruct (nth_error (g_arrs g) ib) as [[kk' n [lb|db] l2]|]; try discriminate;
    intros H; rewrite H; eauto.
Qed.

Record good (g : graph) : Prop := {
  gd_fit : forall k, (k < gsize g)%nat -> fits g k = true;
  gd_stale : forall k, (gsize g <= k)%nat -> is_mat (g_ch g k) = false;
  gd_nest : forall m, In m (g_nest g) -> forall k, (mk_n m <= k)%nat -> is_mat (g_ch g k) = false
}.

(* The library's invariant. *)
Definition valid (s : st) : Prop := exists g, Rel s g /\ good g.

Lemma good_init : good g_init.
Proof.
  constructor; simpl.
  - intros k H. inversion H.
  - auto.
  - intros m [].
Qed.

Lemma good_set_gadj g f : good g -> good (set_gadj g f).
Proof. intros [A B D]. constructor; auto. Qed.

Lemma fits_set_gval g k d j : fits (set_gval g k d) j = fits g j.
Proof.
  unfold fits. rewrite set_gval_nth. destruct (nth_error (g_nodes g) j) as [nd|]; auto.
  destruct (Nat.eqb j k); reflexivity.
Qed.

Lemma good_set_gval g k d : good g -> good (set_gval g k d).
Proof.
  intros [A B D]. constructor.
  - intros j. rewrite set_gval_size, fits_set_gval. apply A.
  - intros j. rewrite set_gval_size. apply B.
  - exact D.
Qed.

Lemma sweep_total (HJ : exists j, junk = Some j) g : good g -> forall n lo, (lo + n <= gsize g)%nat ->
  forall f, exists g', asweep lo n (set_gadj g f) = Some g' /\ g_nodes g' = g_nodes g /\ good g'.
Proof.
  intros HG. induction n as [|n IH]; intros lo Hn f.
  - exists (set_gadj g f). split; [reflexivity|]. split; [reflexivity|]. apply good_set_gadj; auto.
  - cbn [asweep].
    destruct (effect_some HJ (set_gadj g f) (lo + n)) as [l E].
    { apply (gd_fit g HG). lia. }
    rewrite E. apply (IH lo ltac:(lia)).
Qed.

Lemma agrad_total (HJ : exists j, junk = Some j) g k : good g -> (k < gsize g)%nat ->
  exists g', agrad k g = Some g' /\ good g'.
Proof.
  intros HG Hk. unfold agrad. replace (Nat.ltb k (gsize g)) with true by lia.
  destruct (sweep_total HJ g HG (gsize g) 0 ltac:(lia) (nupd (g_adj g) k f1)) as (g' & E & _ & G'). eauto.
Qed.

Lemma good_new g v b ch : good g -> is_mat ch = false \/ g_nest g = [] ->
  fits (a_new g v b (Some ch)) (gsize g) = true -> good (a_new g v b (Some ch)).
Proof.
  intros [A B D] Hm Hf.
  assert (SZ : gsize (a_new g v b (Some ch)) = S (gsize g)).
  { unfold gsize; simpl. rewrite app_length; simpl. lia. }
  constructor.
  - intros k Hk. rewrite SZ in Hk. destruct (Nat.eq_dec k (gsize g)) as [->|Hne]; auto.
    specialize (A k ltac:(lia)). unfold fits in *. simpl. unfold nupd.
    rewrite nth_error_app1 by (unfold gsize in *; lia). destruct (Nat.eqb_spec k (gsize g)); [lia|]. exact A.
  - intros k Hk. rewrite SZ in Hk. simpl. unfold nupd. destruct (Nat.eqb_spec k (gsize g)); [lia|]. apply B. lia.
  - intros m Hin k Hk. simpl in Hin |- *. unfold nupd. destruct Hm as [Hm|Hm].
    + destruct (Nat.eqb k (gsize g)); auto. eapply D; eauto.
    + rewrite Hm in Hin. destruct Hin.
Qed.

Lemma good_leaf g v : good g -> good (a_new g v (BRec [] []) None).
Proof.
  intros [A B D].
  assert (SZ : gsize (a_new g v (BRec [] []) None) = S (gsize g)).
  { unfold gsize; simpl. rewrite app_length; simpl. lia. }
  constructor.
  - intros k Hk. rewrite SZ in Hk. destruct (Nat.eq_dec k (gsize g)) as [->|Hne].
    + unfold fits. simpl. rewrite nth_error_app2, Nat.sub_diag by auto. simpl.
      specialize (B (gsize g) (le_n _)). destruct (g_ch g (gsize g)); try discriminate B; reflexivity.
    + specialize (A k ltac:(lia)). unfold fits in *. simpl.
      rewrite nth_error_app1 by (unfold gsize in *; lia). exact A.
  - intros k Hk. rewrite SZ in Hk. simpl. apply B. lia.
  - exact D.
Qed.

Lemma good_arr g m n c : good g -> g_nest g = [] -> good (a_arr g m n c).
Proof.
  intros [A B D] HN. constructor; auto.
  intros k Hk. specialize (A k Hk). unfold fits in *. simpl.
  destruct (nth_error (g_nodes g) k) as [nd|]; auto. destruct (n_body nd) as [|i j ia ib]; auto.
  destruct (nth_error (g_arrs g) ia) as [ra|] eqn:Ea; [|destruct (g_ch g k); discriminate A].
  destruct (nth_error (g_arrs g) ib) as [rb|] eqn:Eb;
    [|destruct (g_ch g k); try discriminate A; destruct ra as [? ? [|] ?]; discriminate A].
  rewrite !nth_error_app1 by (eapply nth_error_lt; eauto). rewrite Ea, Eb. exact A.
Qed.

Lemma good_begin g g' : good g -> abegin g = Some g' -> good g'.
Proof.
  intros [A B D]. unfold abegin. destruct (Nat.ltb _ 10); [|discriminate]. intros E; inversion E; subst.
  constructor; auto. intros m Hin k Hk. simpl in Hin. destruct Hin as [<-|Hin]; [apply B; exact Hk|].
  eapply D; eauto.
Qed.

Lemma good_trunc g m r : gwf g -> good g -> g_nest g = m :: r -> good (atrunc m r g).
Proof.
  intros HW [A B D] HN. destruct (trunc_facts g m r HW HN) as (T1 & T2 & T3 & T4 & T5).
  constructor.
  - intros k Hk. rewrite trunc_size in Hk by auto. specialize (A k ltac:(lia)).
    unfold fits in *. simpl. rewrite nth_firstn by auto.
    destruct (nth_error (g_nodes g) k) as [nd|] eqn:E; auto.
    destruct (w_node g HW _ _ E) as (_ & _ & W3). destruct (proj1 T4 _ _ E) as [S1 _]. specialize (S1 Hk).
    pose proof (bwidth_pos (n_body nd)). unfold body_ok, nwidth in *.
    destruct (n_body nd) as [|i j ia ib]; auto.
    destruct W3 as (_ & _ & (ra & Ea & La) & (rb & Eb & Lb)).
    pose proof (alen_pos ra). pose proof (alen_pos rb).
    rewrite !nth_firstn; auto.
    + eapply trunc_arr_live; [exact HW|exact HN|exact Eb|lia].
    + eapply trunc_arr_live; [exact HW|exact HN|exact Ea|lia].
  - intros k Hk. rewrite trunc_size in Hk by auto. simpl. eapply D; [rewrite HN; left; reflexivity|auto].
  - intros m' Hin k Hk. simpl in *. eapply D; [rewrite HN; right; exact Hin|auto].
Qed.

(* an action that appends a node with a matching chain, or returns a node *)
Definition act_fine (g : graph) (a : act) : Prop :=
  match a with
  | ANew v ops ds (Some ch) => cshape ch (length ops) (length ds) = true /\ is_mat ch = false
  | ANew v ops ds None => ops = [] /\ ds = []
  | AAlias k None => True
  | AAlias k (Some _) => False
  | AErr => True
  | ABadCall => False
  end.

Lemma do_act_good g a k g' : good g -> act_fine g a -> do_act g a = AOk (k, g') -> good g'.
Proof.
  intros HG. destruct a as [v ops ds [ch|]|j [ch|]| |]; simpl; try discriminate; try tauto.
  - intros [H1 H2] E. inversion E; subst. apply good_new; auto.
    unfold fits; simpl. rewrite nth_error_app2, Nat.sub_diag by auto. simpl.
    unfold nupd. rewrite Nat.eqb_refl. exact H1.
  - intros [-> ->] E. inversion E; subst. apply good_leaf; auto.
  - intros _ E. inversion E; subst. auto.
Qed.

Lemma act_un_fine u g k : act_fine g (act_un u g k).
Proof.
  destruct u; simpl; auto.
  - destruct (is_nan_d (gval g k)); [exact I|]. destruct (fle (gval g k) f1); simpl; auto.
  - destruct (is_nan_d (gval g k)); [exact I|].
    destruct (fle (gval g k) (fneg f1) || fge (gval g k) f1); simpl; auto.
  - unfold act_abs. destruct (fgt (gval g k) f0); simpl; auto. destruct (flt (gval g k) f0); simpl; auto.
    destruct (feq (gval g k) f0); simpl; auto.
Qed.

Lemma act_vv_fine b g k1 k2 : act_fine g (act_vv b g k1 k2).
Proof. destruct b; simpl; auto. Qed.

Lemma act_vd_fine b g k d r : neutral (OVD b r d) = false -> act_fine g (act_vd b g k d).
Proof.
  destruct b; simpl; unfold fne; intros H; try (rewrite H; simpl; auto).
  destruct (feq d fhalf); simpl; auto. destruct (feq d f1); simpl; auto.
  destruct (feq d f2); simpl; auto. destruct (feq d (fneg f2)); simpl; auto.
  destruct (feq d (fneg f1)); simpl; auto. destruct (feq d (fneg fhalf)); simpl; auto.
Qed.

Lemma act_dv_fine b g k d r : neutral (ODV b d r) = false -> act_fine g (act_dv b g d k).
Proof. destruct b; simpl; unfold fne; intros H; try (rewrite H); simpl; auto. Qed.

Lemma mat_nodes_good ch m k n la lb ca cb ps : is_mat ch = true ->
  (forall i j ia ib l1 l2 g v, nth_error (g_arrs g) ia = Some (mkArr m k ca l1) ->
     nth_error (g_arrs g) ib = Some (mkArr k n cb l2) -> (i < m)%nat -> (j < n)%nat ->
     fits (a_new g v (BMat i j ia ib) (Some ch)) (gsize g) = true) ->
  forall ia ib g, good g -> g_nest g = [] ->
  nth_error (g_arrs g) ia = Some (mkArr m k ca la) -> nth_error (g_arrs g) ib = Some (mkArr k n cb lb) ->
  Forall (fun q : (nat * nat) * F => (fst (fst q) < m)%nat /\ (snd (fst q) < n)%nat) ps ->
  good (mat_nodes ch ia ib ps g).
Proof.
  intros Hm HF ia ib g HG HN Ea Eb HP. revert g HG HN Ea Eb.
  induction HP as [|q ps [Q1 Q2] HP IH]; intros g HG HN Ea Eb; auto.
  rewrite mat_nodes_cons. apply IH; auto. apply good_new; auto. eapply HF; eauto.
Qed.

Lemma amat_good ch m k n ca cb av bv g ks g' : is_mat ch = true ->
  (forall i j ia ib l1 l2 g v, nth_error (g_arrs g) ia = Some (mkArr m k ca l1) ->
     nth_error (g_arrs g) ib = Some (mkArr k n cb l2) -> (i < m)%nat -> (j < n)%nat ->
     fits (a_new g v (BMat i j ia ib) (Some ch)) (gsize g) = true) ->
  good g -> g_nest g = [] -> amat ch m k n ca cb av bv g = AOk (ks, g') -> good g'.
Proof.
  intros Hm HF HG HN. unfold amat. destruct (_ && _ && _); [|discriminate]. intros E; inversion E; subst; clear E.
  eapply mat_nodes_good with (m := m) (k := k) (n := n); try eassumption.
  - apply good_arr; [apply good_arr; auto|auto].
  - cbn [a_arr push_top g_arrs]. rewrite nth_error_app1 by (rewrite app_length; cbn [length]; lia).
    rewrite nth_error_app2, Nat.sub_diag by auto. reflexivity.
  - cbn [a_arr push_top g_arrs]. rewrite nth_error_app2 by (rewrite app_length; cbn [length]; lia).
    rewrite app_length; cbn [length].
    replace (S (length (g_arrs g)) - (length (g_arrs g) + 1))%nat with O by lia. reflexivity.
  - apply (combine_Forall_fst (fun p : nat * nat => (fst p < m)%nat /\ (snd p < n)%nat)).
    apply mpairs_bound.
Qed.

Lemma fits_mat g v i j ia ib ch : fits (a_new g v (BMat i j ia ib) (Some ch)) (gsize g) =
  match ch, nth_error (g_arrs g) ia, nth_error (g_arrs g) ib with
        | ChMatVV, Some (mkArr m kk (AVar la) l1), Some (mkArr kk' n (AVar lb) l2)
        | ChMatVD, Some (mkArr m kk (AVar la) l1), Some (mkArr kk' n (ADat lb) l2)
        | ChMatDV, Some (mkArr m kk (ADat la) l1), Some (mkArr kk' n (AVar lb) l2) =>
            Nat.ltb i m && Nat.ltb j n && Nat.eqb kk kk'
        | _, _, _ => false
        end.
Proof.
  unfold fits; simpl. rewrite nth_error_app2, Nat.sub_diag by auto. simpl.
  unfold nupd. rewrite Nat.eqb_refl. reflexivity.
Qed.

(* ---- registers of a valid state ---- *)

Definition nodes_of (env : list Z) : list nat := map (fun h => Z.to_nat (h - 1)) env.

Definition handles (env : list Z) : Prop := Forall (fun h => 1 <= h) env.

Lemma nodes_of_hd env : handles env -> map hd (nodes_of env) = env.
Proof.
  induction 1 as [|h env H _ IH]; simpl; auto. rewrite IH. f_equal. unfold hd. lia.
Qed.

Lemma has_reg_areg s g env r : Rel s g -> has_reg s env r -> exists k, areg g (nodes_of env) r = Some k /\
  nth_error env r = Some (hd k) /\ (k < gsize g)%nat.
Proof.
  intros R (h & E & H). unfold alive in H. rewrite (r_head s g R) in H. exists (Z.to_nat (h - 1)).
  unfold areg, nodes_of. rewrite nth_error_map, E. simpl.
  replace (Nat.ltb (Z.to_nat (h - 1)) (gsize g)) with true by lia.
  split; auto. split; [|lia]. f_equal. unfold hd. lia.
Qed.

Lemma has_regs_aregs s g env l : Rel s g -> Forall (has_reg s env) l ->
  exists ks, aregs g (nodes_of env) l = Some ks /\ length ks = length l.
Proof.
  intros R. induction 1 as [|r l H _ IH]; simpl; eauto.
  destruct (has_reg_areg s g env r R H) as (k & E & _). destruct IH as (ks & E2 & L).
  rewrite E, E2. eexists. split; [reflexivity|]. simpl. lia.
Qed.

Definition has_node (g : graph) (env : list nat) (r : nat) : Prop := exists k, areg g env r = Some k.

Lemma has_nodes_aregs g env l : Forall (has_node g env) l ->
  exists ks, aregs g env l = Some ks /\ length ks = length l.
Proof.
  induction 1 as [|r l H _ IH]; simpl; eauto. destruct H as (k & E). destruct IH as (ks & E2 & L).
  rewrite E, E2. eexists. split; [reflexivity|]. simpl. lia.
Qed.

(* the graph level: nothing is out of contract and the invariant is kept *)
Lemma op_accept_g g env o : good g -> Forall (has_node g env) (op_regs o) -> op_shape o -> neutral o = false ->
  (is_matmul o = true -> g_nest g = []) ->
  aexec_op g env o <> ABad /\ (forall ks g', aexec_op g env o = AOk (ks, g') -> good g').
Proof.
  intros HG HR HS HN LV.
  assert (ONE : forall a, act_fine g a ->
     abind (do_act g a) (fun p => AOk ([fst p], snd p)) <> ABad /\
     (forall ks g', abind (do_act g a) (fun p => AOk ([fst p], snd p)) = AOk (ks, g') -> good g')).
  { intros a Ha. split.
    - destruct a as [v ops ds [ch|]|j [ch|]| |]; simpl in *; try discriminate; tauto.
    - intros ks g'. destruct (do_act g a) as [[k1 g1]| |] eqn:E; simpl; try discriminate.
      intros H; inversion H; subst. eapply do_act_good; eauto. }
  destruct o; cbn [op_regs op_shape] in HR, HS; cbn [aexec_op act_op].
  - apply ONE; simpl; auto.
  - apply ONE; simpl; auto.
  - inversion HR as [|? ? H1 _]; subst. destruct H1 as (k & E). rewrite E.
    apply ONE, act_un_fine.
  - inversion HR as [|? ? H1 HR2]; subst. inversion HR2 as [|? ? H2 _]; subst.
    destruct H1 as (k & E). destruct H2 as (k2 & E2).
    rewrite E, E2. apply ONE, act_vv_fine.
  - inversion HR as [|? ? H1 _]; subst. destruct H1 as (k & E). rewrite E.
    apply ONE. eapply act_vd_fine; eauto.
  - inversion HR as [|? ? H1 _]; subst. destruct H1 as (k & E). rewrite E.
    apply ONE. eapply act_dv_fine; eauto.
  - destruct (has_nodes_aregs _ _ _ HR) as (ks & E & L). rewrite E. apply ONE; simpl.
    destruct ks; simpl; auto.
  - destruct (has_nodes_aregs _ _ _ HR) as (ks & E & L). rewrite E. apply ONE; simpl.
    destruct ks; simpl; auto.
  - destruct (has_nodes_aregs _ _ _ HR) as (ks & E & L). rewrite E. apply ONE; simpl.
    destruct ks; simpl; auto.
  - apply Forall_app in HR. destruct HR as [HR1 HR2].
    destruct (has_nodes_aregs _ _ _ HR1) as (k1 & E1 & L1).
    destruct (has_nodes_aregs _ _ _ HR2) as (k2 & E2 & L2). rewrite E1, E2.
    replace (Nat.eqb (length k1) (length k2)) with true by lia. apply ONE; simpl. split; auto.
    rewrite app_length. assert (EQ : length k2 = length k1) by lia. rewrite EQ.
    destruct (Nat.eqb (length k1 + length k1) 0); [reflexivity|].
    replace (length k1 + length k1)%nat with (2 * length k1)%nat by lia. rewrite Nat.div2_double.
    simpl. apply Nat.eqb_refl.
  - destruct (has_nodes_aregs _ _ _ HR) as (ks & E & L). rewrite E.
    replace (Nat.eqb (length ks) (length d)) with true by lia. apply ONE; simpl. split; auto.
    rewrite L, HS, Nat.eqb_refl. destruct (Nat.eqb (length d) 0 && Nat.eqb (length d) 0); reflexivity.
  - destruct (has_nodes_aregs _ _ _ HR) as (ks & E & L). rewrite E.
    replace (Nat.eqb (length d) (length ks)) with true by lia. apply ONE; simpl. split; auto.
    rewrite L, <- HS, Nat.eqb_refl. destruct (Nat.eqb (length d) 0 && Nat.eqb (length d) 0); reflexivity.
  - apply Forall_app in HR. destruct HR as [HR1 HR2]. destruct HS as (S1 & S2 & S3 & S4 & S5).
    destruct (has_nodes_aregs _ _ _ HR1) as (k1 & E1 & L1).
    destruct (has_nodes_aregs _ _ _ HR2) as (k2 & E2 & L2). rewrite E1, E2.
    split.
    + unfold amat, dims_ok, dim_ok. rewrite !map_length.
      replace (Nat.eqb _ _ && Nat.eqb _ _ && _) with true by lia. discriminate.
    + intros ks g'. apply amat_good; auto. intros. rewrite fits_mat, H, H0. lia.
  - destruct HS as (S1 & S2 & S3 & S4 & S5).
    destruct (has_nodes_aregs _ _ _ HR) as (k1 & E1 & L1). rewrite E1.
    split.
    + unfold amat, dims_ok, dim_ok. rewrite !map_length.
      replace (Nat.eqb _ _ && Nat.eqb _ _ && _) with true by lia. discriminate.
    + intros ks g'. apply amat_good; auto. intros. rewrite fits_mat, H, H0. lia.
  - destruct HS as (S1 & S2 & S3 & S4 & S5).
    destruct (has_nodes_aregs _ _ _ HR) as (k1 & E1 & L1). rewrite E1.
    split.
    + unfold amat, dims_ok, dim_ok. rewrite !map_length.
      replace (Nat.eqb _ _ && Nat.eqb _ _ && _) with true by lia. discriminate.
    + intros ks g'. apply amat_good; auto. intros. rewrite fits_mat, H, H0. lia.
  - destruct (has_nodes_aregs _ _ _ HR) as (ks & E & L). rewrite E.
    specialize (HS (map (gval g) ks) ltac:(rewrite map_length; exact L)).
    replace (Nat.eqb (length (p (map (gval g) ks))) (length ks)) with true by lia. apply ONE; simpl. split; auto.
    rewrite HS, L, Nat.eqb_refl. destruct (Nat.eqb (length l) 0 && Nat.eqb (length l) 0); reflexivity.
Qed.

Lemma op_accept s g env o : Rel s g -> good g -> op_ok s env o ->
  aexec_op g (nodes_of env) o <> ABad /\
  (forall ks g', aexec_op g (nodes_of env) o = AOk (ks, g') -> good g').
Proof.
  intros R HG (HR & HS & HN & HM). apply op_accept_g; auto.
  - eapply Forall_impl; [|exact HR]. intros r Hr. destruct (has_reg_areg s g env r R Hr) as (k & E & _). exists k. auto.
  - intros E. apply HM in E. rewrite (r_lvl s g R) in E. unfold zlen in E. destruct (g_nest g); simpl in *; auto. lia.
Qed.

(* ---- one call, without the configuration-dependent side conditions ---- *)

Definition gstep (g : graph) (env : list nat) (c : cmd) : ares (list nat * list obs * graph) :=
  match c with
  | CEnd => match g_nest g with
            | [] => AOk ([], [], g)
            | m :: r => AOk ([], [], atrunc m r g)
            end
  | _ => astep g env c
  end.

Lemma gstep_refines s g env c : cfg_ok C -> Rel s g -> handles env -> cmd_ok s env c ->
  refines (exec_cmd env c s) (gstep g (nodes_of env) c).
Proof.
  intros HC R HH HO. pose proof (step_refines s g (nodes_of env) c HC R) as H.
  rewrite nodes_of_hd in H by auto.
  destruct c; try exact H. clear H. cbn [gstep exec_cmd cmd_ok] in *.
  destruct (g_nest g) as [|m r] eqn:E.
  - apply refines_quiet. exists s. split; [eapply end_unmatched; eauto|auto].
  - apply refines_quiet. eapply end_fits; eauto.
    rewrite (r_lvl s g R), E, (r_thead s g R) in HO. unfold zlen in HO. simpl in HO. lia.
Qed.

Lemma lvl_nest s g : Rel s g -> s_lvl s = zlen (g_nest g).
Proof. apply r_lvl. Qed.

Lemma asweep_good lo n g g' : good g -> asweep lo n g = Some g' -> good g'.
Proof.
  revert g. induction n as [|n IH]; intros g HG; simpl.
  - intros E; inversion E; subst; auto.
  - destruct (effect g (lo + n)); [|discriminate]. apply IH. apply good_set_gadj; auto.
Qed.

Lemma cmd_accept (HJ : exists j, junk = Some j) s g env c : Rel s g -> good g -> cmd_ok s env c ->
  gstep g (nodes_of env) c <> ABad /\ (forall ks os g', gstep g (nodes_of env) c = AOk (ks, os, g') -> good g').
Proof.
  intros R HG HO. destruct c; cbn [gstep astep cmd_ok] in *.
  - destruct (op_accept s g env o R HG HO) as [H1 H2].
    destruct (aexec_op g (nodes_of env) o) as [[k1 g1]| |] eqn:E; cbn [abind].
    + split; [discriminate|]. intros ks os g' H; inversion H; subst. eapply H2; eauto.
    + split; discriminate.
    + tauto.
  - destruct (has_reg_areg _ _ _ _ R HO) as (k & E & _). rewrite E. split; [discriminate|].
    intros ks os g' H; inversion H; subst. apply good_set_gval; auto.
  - destruct (has_reg_areg _ _ _ _ R HO) as (k & E & _ & Hk). rewrite E.
    destruct (agrad_total HJ g k HG Hk) as (g1 & E1 & G1). rewrite E1. split; [discriminate|].
    intros ks os g' H; inversion H; subst; auto.
  - destruct HO as [HO HL]. destruct (has_reg_areg _ _ _ _ R HO) as (k & E & _ & Hk). rewrite E.
    unfold agrad_nested. rewrite (r_lvl s g R) in HL. destruct (g_nest g) as [|m l] eqn:EN; [unfold zlen in HL; simpl in HL; lia|].
    replace (Nat.ltb k (gsize g)) with true by lia.
    destruct (trunc_facts g m l (r_wf s g R) EN) as (T1 & _).
    destruct (sweep_total HJ g HG (gsize g - mk_n m) (mk_n m) ltac:(lia) (nupd (g_adj g) k f1)) as (g1 & E1 & _ & G1).
    unfold a_seed. rewrite E1. split; [discriminate|]. intros ks os g' H; inversion H; subst; auto.
  - split; [discriminate|]. intros ks os g' H; inversion H; subst. apply good_set_gadj; auto.
  - rewrite (r_lvl s g R) in HO. destruct (g_nest g) as [|m l]; [unfold zlen in HO; simpl in HO; lia|].
    split; [discriminate|]. intros ks os g' H; inversion H; subst. apply good_set_gadj; auto.
  - destruct (abegin g) as [g1|] eqn:E.
    + split; [discriminate|]. intros ks os g' H; inversion H; subst. eapply good_begin; eauto.
    + exfalso. unfold abegin in E. rewrite (r_lvl s g R) in HO. unfold zlen in HO.
      destruct (Nat.ltb_spec (length (g_nest g)) 10); [discriminate|lia].
  - destruct (g_nest g) as [|m l] eqn:EN; (split; [discriminate|]); intros ks os g' H; inversion H; subst; auto.
    apply good_trunc; auto. apply (r_wf s g R).
  - destruct (has_reg_areg _ _ _ _ R HO) as (k & E & _). rewrite E. split; [discriminate|].
    intros ks os g' H; inversion H; subst; auto.
  - destruct (has_reg_areg _ _ _ _ R HO) as (k & E & _). rewrite E. split; [discriminate|].
    intros ks os g' H; inversion H; subst; auto.
  - destruct HO as [H1 H2]. destruct (has_reg_areg _ _ _ _ R H1) as (k & E & _).
    destruct (has_reg_areg _ _ _ _ R H2) as (k2 & E2 & _). rewrite E, E2. split; [discriminate|].
    intros ks os g' H; inversion H; subst; auto.
  - destruct (has_reg_areg _ _ _ _ R HO) as (k & E & _). rewrite E. split; [discriminate|].
    intros ks os g' H; inversion H; subst; auto.
  - destruct (has_reg_areg _ _ _ _ R HO) as (k & E & _). rewrite E. split; [discriminate|].
    intros ks os g' H; inversion H; subst; auto.
Qed.

Lemma cmd_sim s g env c : practical -> Rel s g -> good g -> handles env -> cmd_ok s env c ->
  (gstep g (nodes_of env) c = AStop /\ exec_cmd env c s = ErrStop) \/
  exists ks os g', gstep g (nodes_of env) c = AOk (ks, os, g') /\ good g' /\
    forall ov : Prop, excused ov g' ->
      wp ov (exec_cmd env c s) (fun p => fst p = (map hd ks, os) /\ Rel (snd p) g').
Proof.
  intros [HC HJ] R HG HH HO. pose proof (gstep_refines s g env c HC R HH HO) as HR.
  destruct (cmd_accept HJ s g env c R HG HO) as [H1 H2].
  destruct (gstep g (nodes_of env) c) as [[[ks os] g']| |] eqn:E; simpl in HR.
  - right. exists ks, os, g'. split; auto. split; [eapply H2; eauto|]. exact HR.
  - left. auto.
  - tauto.
Qed.

Lemma handles_hd ks : handles (map hd ks).
Proof. induction ks; constructor; auto. unfold hd. lia. Qed.

Lemma handles_app e1 e2 : handles e1 -> handles e2 -> handles (e1 ++ e2).
Proof. apply Forall_app_2 || (intros; apply Forall_app; auto). Qed.

(* one accepted call of a valid state: defined behaviour *)
Theorem cmd_valid s env c : practical -> valid s -> handles env -> cmd_ok s env c ->
  match exec_cmd env c s with
  | Ok ((hs, os), s') => valid s' /\ handles hs
  | ErrStop => True
  | Undef IntOverflow => True
  | _ => False
  end.
Proof.
  intros HP (g & R & HG) HH HO.
  destruct (cmd_sim s g env c HP R HG HH HO) as [[_ ->]|(ks & os & g' & _ & G' & W)]; auto.
  specialize (W True (fun _ => I)).
  destruct (exec_cmd env c s) as [[[hs os'] s']| |[]|]; simpl in W; auto.
  destruct W as [W1 W2]. cbn [fst snd] in *. inversion W1; subst. split; [exists g'; auto|].
  apply handles_hd.
Qed.

Theorem client_valid p : practical -> forall env s, valid s -> handles env -> client_ok p env s ->
  match run p env s with
  | Ok ((hs, os), s') => valid s' /\ handles hs
  | ErrStop => True
  | Undef IntOverflow => True
  | _ => False
  end.
Proof.
  intros HP. induction p as [|c k IH]; intros env s HV HH HO; cbn [run client_ok] in *.
  - simpl. auto.
  - destruct HO as [H1 H2]. pose proof (cmd_valid s env c HP HV HH H1) as HC.
    unfold mbind at 1. destruct (exec_cmd env c s) as [[[hs os] s1]| |[]|] eqn:E; cbn [bind]; auto.
    destruct HC as [V1 A1]. specialize (IH os (env ++ hs) s1 V1 (handles_app _ _ HH A1) (H2 _ _ _ eq_refl)).
    cbn [fst snd]. unfold mbind. destruct (run (k os) (env ++ hs) s1) as [[[hs2 os2] s2]| |[]|]; cbn [bind]; auto.
Qed.

Lemma valid_init : valid st_init.
Proof. exists g_init. split; [apply rel_init|apply good_init]. Qed.

End Valid.
