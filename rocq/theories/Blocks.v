(* Nested blocks: what is left when a block ends. *)
From Verif Require Import TapeFacts.
From Coq Require Import ZifyBool ZifyNat.
From Verif Require Export Twin.

Section BlockVocab.
Context {N : Num} {C : Cfg N}.

(* The body of a block opened at level l, with the variables below handle
   [outer] created before it: every call meets its precondition, the block's own
   begin_nested stays unmatched, outer variables are not assigned. *)
Fixpoint block_ok (l outer : Z) (p : client) (env : list Z) (s : st) : Prop :=
  match p with
  | Done => s_lvl s = l
  | Do c k =>
      cmd_ok s env c /\
      (c = CEnd -> l < s_lvl s) /\
      (forall r d, c = CSet r d -> forall h, nth_error env r = Some h -> outer <= h) /\
      forall hs os s', exec_cmd env c s = Ok ((hs, os), s') -> block_ok l outer (k os) (env ++ hs) s'
  end.

(* begin_nested(); body; end_nested() *)
Definition block (p : client) (env : list Z) : M (list Z * list obs) :=
  _ <~ begin_nested ;; r <~ run p env ;; _ <~ end_nested ;; mret r.

(* contract of a whole block called in s *)
Definition block_call_ok (p : client) (env : list Z) (s : st) : Prop :=
  s_lvl s < 10 /\
  (forall s1, begin_nested s = Ok (tt, s1) -> block_ok (s_lvl s1) (s_head s) p env s1) /\
  (* the storage is not exactly full when the block ends (see C35) *)
  (forall s1 r s2, begin_nested s = Ok (tt, s1) -> run p env s1 = Ok (r, s2) ->
     t_head (s_tape s2) <= t_size (s_tape s2)).

End BlockVocab.

Section Blocks.
Context {N : Num} {RL : RepLaws N} {C : Cfg N}.

(* g' is inside a block opened in g, with the given inner blocks open *)
Record inside (g g' : graph) (inner : list mark) : Prop := {
  in_nodes : firstn (gsize g) (g_nodes g') = g_nodes g;
  in_arrs : firstn (length (g_arrs g)) (g_arrs g') = g_arrs g;
  in_ch : forall j, (j < gsize g)%nat -> g_ch g' j = g_ch g j;
  in_nest : g_nest g' = inner ++ mkMark (gsize g) (length (g_arrs g)) (g_top g) :: g_nest g
}.

Lemma firstn_prefix {A} (l t : list A) n : (n <= length l)%nat -> firstn n (l ++ t) = firstn n l.
Proof. intros H. rewrite firstn_app. replace (n - length l)%nat with O by lia. apply app_nil_r. Qed.

Lemma firstn_len_le {A} (l : list A) n m : firstn n l = m -> length m = n -> (n <= length l)%nat.
Proof. intros H E. subst m. rewrite firstn_length in E. lia. Qed.

Lemma in_size g g' inner : inside g g' inner -> (gsize g <= gsize g')%nat.
Proof. intros I. unfold gsize. eapply firstn_len_le; [apply (in_nodes _ _ _ I)|reflexivity]. Qed.

Lemma inside_begin g g' : abegin g = Some g' -> inside g g' [].
Proof.
  unfold abegin. destruct (Nat.ltb _ _); [|discriminate]. intros H; inversion H; subst; clear H.
  constructor; cbn [g_nodes g_arrs g_ch g_nest app]; auto; unfold gsize; apply firstn_all.
Qed.

Lemma inside_adj g g' inner f : inside g g' inner -> inside g (set_gadj g' f) inner.
Proof. intros I. constructor; cbn [set_gadj g_nodes g_arrs g_ch g_nest]; apply I. Qed.

Lemma inside_grows g g1 g2 inner : inside g g1 inner -> grows g1 g2 -> inside g g2 inner.
Proof.
  intros I G. pose proof (in_size _ _ _ I) as SZ. constructor.
  - destruct (gr_nodes _ _ G) as [l ->]. rewrite firstn_prefix by exact SZ. apply I.
  - destruct (gr_arrs _ _ G) as [l ->]. rewrite firstn_prefix; [apply I|].
    eapply firstn_len_le; [apply (in_arrs _ _ _ I)|reflexivity].
  - intros j Hj. rewrite (gr_ch _ _ G) by lia. apply (in_ch _ _ _ I); auto.
  - rewrite (gr_nest _ _ G). apply I.
Qed.

Lemma marks_app nodes arrs l1 m l2 : forall n a top, marks_ok nodes arrs (l1 ++ m :: l2) n a top ->
  (mk_n m <= n)%nat /\ (mk_a m <= a)%nat.
Proof.
  induction l1 as [|x l1 IH]; intros n a top; cbn [app marks_ok]; [tauto|].
  intros (A & B & D & E & H). apply IH in H. lia.
Qed.

Lemma firstn_nest {A} (l : list A) n m : (n <= m)%nat -> firstn n (firstn m l) = firstn n l.
Proof. intros H. rewrite firstn_firstn. f_equal. lia. Qed.

Lemma inside_trunc g g' m r : gwf g' -> inside g g' (m :: r) -> inside g (atrunc m (r ++ mkMark (gsize g) (length (g_arrs g)) (g_top g) :: g_nest g) g') r.
Proof.
  intros W I. pose proof (w_nest g' W) as HM. rewrite (in_nest _ _ _ I) in HM. cbn [app marks_ok] in HM.
  destruct HM as (_ & _ & _ & _ & HM). apply marks_app in HM. cbn [mk_n mk_a] in HM.
  constructor; unfold atrunc; cbn [g_nodes g_arrs g_ch g_nest].
  - rewrite firstn_nest by lia. apply I.
  - rewrite firstn_nest by lia. apply I.
  - apply I.
  - reflexivity.
Qed.

Lemma set_gval_firstn g k d n : (n <= k)%nat -> firstn n (g_nodes (set_gval g k d)) = firstn n (g_nodes g).
Proof.
  intros H. apply nth_ext with (d := mkNode f0 (BRec [] []) 0) (d' := mkNode f0 (BRec [] []) 0).
  - rewrite !firstn_length. pose proof (set_gval_size g k d) as E. unfold gsize in E. rewrite E. auto.
  - intros i Hi. rewrite firstn_length in Hi.
    assert (NF : forall (l : list node) dd, (i < length l)%nat -> (i < n)%nat -> nth i (firstn n l) dd = nth i l dd).
    { intros l dd H1 H2. rewrite <- (firstn_skipn n l) at 2. rewrite app_nth1; auto. rewrite firstn_length. lia. }
    rewrite !NF; try lia.
    2:{ pose proof (set_gval_size g k d) as E. unfold gsize in E. lia. }
    pose proof (set_gval_nth g k d i) as E. destruct (lt_nth_error (g_nodes g) i) as [nd En].
    { pose proof (set_gval_size g k d) as E2. unfold gsize in E2. lia. }
    rewrite En in E. replace (Nat.eqb i k) with false in E by lia.
    rewrite (nth_error_nth _ _ _ E), (nth_error_nth _ _ _ En). reflexivity.
Qed.

Lemma hd_areg g env r k : handles env -> areg g (nodes_of env) r = Some k -> nth_error env r = Some (hd k).
Proof.
  intros HH. unfold areg, nodes_of. rewrite nth_error_map. destruct (nth_error env r) as [h|] eqn:E; [|discriminate].
  cbn [option_map]. destruct (Nat.ltb _ _); [|discriminate]. intros H; inversion H; subst. f_equal.
  unfold handles in HH. rewrite Forall_forall in HH. specialize (HH h (nth_error_In _ _ E)). unfold hd. lia.
Qed.

Lemma inside_step s g g' inner env c ks os g2 : Rel s g' -> inside g g' inner -> handles env ->
  cmd_ok s env c -> (c = CEnd -> inner <> []) ->
  (forall r d, c = CSet r d -> forall h, nth_error env r = Some h -> Z.of_nat (gsize g) + 1 <= h) ->
  gstep g' (nodes_of env) c = AOk (ks, os, g2) -> exists inner', inside g g2 inner'.
Proof.
  intros R I HH HO HE HS HX. destruct c; cbn [gstep astep] in HX.
  - destruct (aexec_op g' (nodes_of env) o) as [[k1 g1]| |] eqn:E; try discriminate. cbn in HX. inversion HX; subst.
    destruct HO as (_ & _ & HN & _). destruct (op_frame _ _ _ _ _ HN E) as [G _]. exists inner. eapply inside_grows; eauto.
  - destruct (areg g' (nodes_of env) r) as [k|] eqn:E; [|discriminate]. inversion HX; subst. exists inner.
    specialize (HS r d eq_refl _ (hd_areg _ _ _ _ HH E)). unfold hd in HS.
    constructor; cbn [set_gval set_gnodes g_arrs g_ch g_nest]; try apply I.
    rewrite set_gval_firstn by lia. apply I.
  - destruct (areg g' (nodes_of env) r) as [k|]; [|discriminate]. unfold agrad in HX.
    destruct (Nat.ltb _ _); [|discriminate]. destruct (asweep _ _ _) as [g3|] eqn:E; [|discriminate].
    inversion HX; subst. apply asweep_form in E. destruct E as [f ->]. exists inner. apply (inside_adj g g' inner f I).
  - destruct (areg g' (nodes_of env) r) as [k|]; [|discriminate]. unfold agrad_nested in HX.
    destruct (g_nest g') eqn:En; [discriminate|].
    destruct (Nat.ltb _ _); [|discriminate]. destruct (asweep _ _ _) as [g3|] eqn:E; [|discriminate].
    inversion HX; subst. apply asweep_form in E. destruct E as [f ->]. exists inner. apply (inside_adj g g' inner f I).
  - inversion HX; subst. exists inner. apply inside_adj; auto.
  - destruct (g_nest g'); inversion HX; subst. exists inner. apply inside_adj; auto.
  - unfold abegin in HX. destruct (Nat.ltb _ _); [|discriminate]. inversion HX; subst.
    exists (mkMark (gsize g') (length (g_arrs g')) (g_top g') :: inner).
    constructor; cbn [g_nodes g_arrs g_ch g_nest]; try apply I. rewrite (in_nest _ _ _ I). reflexivity.
  - destruct inner as [|m r]; [exfalso; apply HE; auto|]. rewrite (in_nest _ _ _ I) in HX. cbn [app] in HX.
    inversion HX; subst. exists r. apply inside_trunc; auto. apply (r_wf _ _ R).
  - destruct (areg g' (nodes_of env) r); inversion HX; subst. eauto.
  - destruct (areg g' (nodes_of env) r); inversion HX; subst. eauto.
  - destruct (areg g' (nodes_of env) a); [|discriminate]. destruct (areg g' (nodes_of env) b); inversion HX; subst. eauto.
  - destruct (areg g' (nodes_of env) a); inversion HX; subst. eauto.
  - destruct (areg g' (nodes_of env) b); inversion HX; subst. eauto.
Qed.

Lemma inside_lvl s g g' inner : Rel s g' -> inside g g' inner ->
  s_lvl s = zlen (g_nest g) + 1 + zlen inner.
Proof.
  intros R I. rewrite (r_lvl s g' R), (in_nest _ _ _ I). unfold zlen. rewrite app_length. cbn [length]. lia.
Qed.

Lemma block_run g p : practical -> forall env s g' inner r s',
  Rel s g' -> good g' -> inside g g' inner -> handles env ->
  block_ok (zlen (g_nest g) + 1) (Z.of_nat (gsize g) + 1) p env s ->
  run p env s = Ok (r, s') ->
  exists g2, Rel s' g2 /\ good g2 /\ inside g g2 [].
Proof.
  intros HP. induction p as [|c k IH]; intros env s g' inner r s' R HG I HH HO HX.
  - cbn in HX. inversion HX; subst. cbn [block_ok] in HO. exists g'. split; auto. split; auto.
    rewrite (inside_lvl _ _ _ _ R I) in HO. destruct inner; auto. unfold zlen in HO. cbn [length] in HO. lia.
  - cbn [block_ok] in HO. destruct HO as (O1 & O2 & O3 & O4). cbn [run] in HX. unfold mbind at 1 in HX.
    destruct (exec_cmd env c s) as [[[hs os] s1]| | |] eqn:E; try discriminate. cbn [bind fst snd] in HX.
    destruct (cmd_sim s g' env c HP R HG HH O1) as [[_ A]|(ks & os' & g1 & A & G1 & W)]; [congruence|].
    specialize (W True (fun _ => Logic.I)). rewrite E in W. cbn in W. destruct W as [W1 R1]. inversion W1; subst hs os'.
    destruct (inside_step s g g' inner env c ks os g1 R I HH O1) as [inner' I1]; auto.
    { intros ->. specialize (O2 eq_refl). rewrite (inside_lvl _ _ _ _ R I) in O2. destruct inner; [|discriminate].
      unfold zlen in O2. cbn in O2. lia. }
    specialize (O4 _ _ _ eq_refl).
    unfold mbind in HX. destruct (run (k os) (env ++ map hd ks) s1) as [[r2 s2]| | |] eqn:E2; try discriminate.
    cbn in HX. inversion HX; subst.
    eapply IH; [exact R1|exact G1|exact I1|exact (handles_app _ _ HH (handles_hd ks))|exact O4|exact E2].
Qed.

Lemma block_ends s p env r s3 : practical -> valid s -> handles env -> block_call_ok p env s ->
  block p env s = Ok (r, s3) ->
  exists g g3, Rel s g /\ good g /\ Rel s3 g3 /\ good g3 /\ g_nodes g3 = g_nodes g /\ g_arrs g3 = g_arrs g /\
    g_nest g3 = g_nest g /\ g_top g3 = g_top g /\ (forall j, (j < gsize g)%nat -> g_ch g3 j = g_ch g j).
Proof.
  intros HP (g & R & HG) HH (L10 & BO & FT) HX.
  assert (HL : (length (g_nest g) < 10)%nat) by (rewrite (r_lvl s g R) in L10; unfold zlen in L10; lia).
  unfold block in HX. 
  assert (EB : exists g1, abegin g = Some g1).
  { unfold abegin. replace (Nat.ltb (length (g_nest g)) 10) with true by lia. eauto. }
  destruct EB as [g1 EB]. destruct (begin_ok s g g1 R EB) as (s1 & E1 & R1).
  rewrite (mbind_ok _ _ _ _ _ E1) in HX. unfold mbind at 1 in HX.
  destruct (run p env s1) as [[r1 s2]| | |] eqn:E2; try discriminate. cbn [bind] in HX.
  pose proof (inside_begin _ _ EB) as I1.
  destruct (block_run g p HP env s1 g1 [] r1 s2 R1 (good_begin _ _ HG EB) I1 HH) as (g2 & R2 & G2 & I2); auto.
  { specialize (BO s1 E1). rewrite (r_lvl s1 g1 R1), (in_nest _ _ _ I1), (r_head s g R) in BO.
    unfold zlen in *. cbn [app length] in BO. replace (Z.of_nat (length (g_nest g)) + 1) with (Z.of_nat (S (length (g_nest g)))) by lia.
    exact BO. }
  pose proof (in_nest _ _ _ I2) as EN. cbn [app] in EN.
  destruct (end_fits s2 g2 _ _ R2 EN) as (s4 & E4 & R4).
  { rewrite <- (r_thead s2 g2 R2). apply (FT s1 r1 s2); auto. }
  rewrite (mbind_ok _ _ _ _ _ E4) in HX. cbn in HX. inversion HX; subst.
  exists g. eexists. split; [exact R|]. split; [exact HG|]. split; [exact R4|].
  split; [apply good_trunc; auto; apply (r_wf _ _ R2)|].
  unfold atrunc. cbn [g_nodes g_arrs g_nest g_top g_ch mk_n mk_a mk_top].
  split; [apply I2|]. split; [apply I2|]. split; auto. split; auto. apply I2.
Qed.

Theorem block_leaves_no_trace s p env r s3 : practical -> valid s -> handles env -> block_call_ok p env s ->
  block p env s = Ok (r, s3) ->
  valid s3 /\ s_head s3 = s_head s /\ s_lvl s3 = s_lvl s /\ t_head (s_tape s3) = t_head (s_tape s) /\
  (forall h, alive s h -> same_val s s3 h /\ same_op s s3 h) /\
  (forall i, t_head (s_tape s3) <= i -> t_mem (s_tape s3) i = w0).
Proof.
  intros HP HV HH HB HX. destruct (block_ends s p env r s3 HP HV HH HB HX)
    as (g & g3 & R & HG & R3 & G3 & EN & EA & ES & ET & EC).
  assert (SZ : gsize g3 = gsize g) by (unfold gsize; rewrite EN; auto).
  split; [exists g3; auto|].
  split; [rewrite (r_head s g R), (r_head s3 g3 R3), SZ; auto|].
  split; [rewrite (r_lvl s g R), (r_lvl s3 g3 R3), ES; auto|].
  split; [rewrite (r_thead s g R), (r_thead s3 g3 R3), ET; auto|].
  split; [|apply (r_twf s3 g3 R3)].
  intros h Hh. destruct (alive_node s g h R Hh) as (k & -> & Hk).
  assert (Hk3 : (k < gsize g3)%nat) by lia.
  split.
  - eapply node_same_val; eauto. unfold gval. rewrite EN. auto.
  - eapply node_same_op; eauto. unfold same_node. destruct (lt_nth_error _ _ Hk) as [nd E]. rewrite EN, E.
    repeat split; auto. destruct (n_body nd); cbn [zops].
    + apply map_ext. intros. unfold gloc. rewrite EN. auto.
    + unfold galoc. rewrite EA. auto.
Qed.

(* later work cannot tell that the block ran *)
Theorem block_twin s p env r s3 : practical -> valid s -> handles env -> block_call_ok p env s ->
  block p env s = Ok (r, s3) -> (forall h, alive s h -> same_adj s s3 h) ->
  @twins N C C s s3.
Proof.
  intros HP HV HH HB HX HA. destruct (block_ends s p env r s3 HP HV HH HB HX)
    as (g & g3 & R & HG & R3 & G3 & EN & EA & ES & ET & EC).
  exists g, g3. repeat (split; [assumption|]).
  constructor; auto.
  - intros j Hj. specialize (HA (hd j) (node_alive s g j R Hj)). unfold same_adj in HA.
    rewrite (rel_var_adj s g R j Hj), (rel_var_adj s3 g3 R3) in HA; [congruence|]. unfold gsize in *. rewrite EN. auto.
  - intros j nd Hn. left. apply EC. eapply nth_error_lt; eauto.
Qed.

End Blocks.
