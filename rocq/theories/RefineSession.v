(* Nested environments, assignment, observation, and whole clients refine the
   abstract machine. *)
From Verif Require Import TapeFacts.
From Coq Require Import ZifyBool ZifyNat.
From Verif Require Export RefineOps.

Section RefineSession.
Context {N : Num} {RL : RepLaws N} {C : Cfg N}.

(* ---- assignment of a value ---- *)

Lemma set_gval_size g k d : gsize (set_gval g k d) = gsize g.
Proof.
  unfold set_gval, gsize; simpl. rewrite map_length, combine_length, seq_length. unfold gsize. lia.
Qed.

Lemma set_gval_loc g k d j : gloc (set_gval g k d) j = gloc g j.
Proof.
  unfold gloc. rewrite set_gval_nth. destruct (nth_error (g_nodes g) j); auto.
  destruct (Nat.eqb j k); auto.
Qed.

Lemma set_gval_inv g k d j nd : nth_error (g_nodes (set_gval g k d)) j = Some nd ->
  exists nd0, nth_error (g_nodes g) j = Some nd0 /\ n_body nd = n_body nd0 /\ n_loc nd = n_loc nd0 /\
    n_val nd = if Nat.eqb j k then d else n_val nd0.
Proof.
  rewrite set_gval_nth. destruct (nth_error (g_nodes g) j) as [nd0|]; [|discriminate].
  intros E; inversion E; subst; clear E. exists nd0. destruct (Nat.eqb j k); auto.
Qed.

Lemma set_gval_zops g k d b : zops (set_gval g k d) b = zops g b.
Proof.
  destruct b; simpl; auto. apply map_ext. intros. apply set_gval_loc.
Qed.

Lemma split_at_ext nodes nodes' arrs m :
  (forall j nd, nth_error nodes' j = Some nd -> exists nd0, nth_error nodes j = Some nd0 /\
     n_body nd = n_body nd0 /\ n_loc nd = n_loc nd0) ->
  split_at nodes arrs m -> split_at nodes' arrs m.
Proof.
  intros H [S1 S2]. split; auto. intros j nd E. destruct (H _ _ E) as (nd0 & E0 & B & L).
  unfold nwidth. rewrite B, L. apply (S1 _ _ E0).
Qed.

Lemma marks_ok_ext nodes nodes' arrs l n a top :
  (forall j nd, nth_error nodes' j = Some nd -> exists nd0, nth_error nodes j = Some nd0 /\
     n_body nd = n_body nd0 /\ n_loc nd = n_loc nd0) ->
  marks_ok nodes arrs l n a top -> marks_ok nodes' arrs l n a top.
Proof.
  intros H. revert n a top. induction l as [|m r IH]; intros n a top; simpl; auto.
  intros (A & B & D & S & E). split; [auto|]. split; [auto|]. split; [auto|].
  split; [eapply split_at_ext; eauto|]. apply IH; auto.
Qed.

Lemma gwf_set_gval g k d : gwf g -> gwf (set_gval g k d).
Proof.
  intros [w1 w2 w3 w4 w5 w6]. constructor; auto.
  - intros j nd E. destruct (set_gval_inv _ _ _ _ _ E) as (nd0 & E0 & B & L & _).
    destruct (w2 _ _ E0) as (A1 & A2 & A3). unfold nwidth, body_ok in *. rewrite B, L. auto.
  - intros j j' nd nd' Hj E E'.
    destruct (set_gval_inv _ _ _ _ _ E) as (n0 & E0 & B & L & _).
    destruct (set_gval_inv _ _ _ _ _ E') as (n0' & E0' & B' & L' & _).
    unfold nwidth. rewrite B, L, L'. apply (w3 _ _ _ _ Hj E0 E0').
  - intros a ar E. destruct (w4 _ _ E) as (A1 & A2 & A3 & A4 & A5).
    split; auto. split; auto. split; auto. split; auto.
    destruct (a_c ar); auto. destruct A5 as [A5 A6]. split; auto.
    eapply Forall_impl; [|exact A6]. intros x Hx. cbv beta in Hx. rewrite set_gval_size, set_gval_loc. auto.
  - intros j nd a ar E E'. destruct (set_gval_inv _ _ _ _ _ E) as (n0 & E0 & B & L & _).
    unfold nwidth. rewrite B, L. apply (w5 _ _ _ _ E0 E').
  - rewrite set_gval_size. eapply marks_ok_ext; [|exact w6].
    intros j nd E. destruct (set_gval_inv _ _ _ _ _ E) as (n0 & E0 & B & L & _). eauto.
Qed.

Lemma rel_set_var s g k d : Rel s g -> (k < gsize g)%nat ->
  exists s', set_var (hd k) d s = Ok (tt, s') /\ Rel s' (set_gval g k d).
Proof.
  intros R Hk. unfold set_var, mput. rewrite (rel_vget s g R) by auto. cbn [bind v_i].
  destruct (lt_nth_error _ _ Hk) as [nd E]. rewrite (gloc_eq g _ _ E).
  destruct (w_node g (r_wf s g R) _ _ E) as (A & B & D).
  destruct (r_twf s g R) as (T1 & T2 & T3). pose proof (r_thead s g R) as HT.
  pose proof (bwidth_pos (n_body nd)). unfold nwidth in *.
  unfold set_val_at.
  destruct (set_real_at_ok (s_tape s) (n_loc nd) d) as (t' & W1 & (W2 & W3 & W4) & W5); try lia.
  rewrite W1. cbn [bind]. eexists. split; [reflexivity|].
  destruct (rec_other g k nd (n_loc nd) (n_loc nd + 2) (t_mem (s_tape s)) (t_mem t')
              (r_wf s g R) E) as [O1 O2]; auto; unfold nwidth; try lia.
  destruct R as [q1 q2 q3 q4 q5 q6 q7 q8 q9 q10 q11 q12 q13 q14].
  constructor; cbn [s_head s_n s_varis s_tape s_lvl s_nv s_nt set_tape]; auto.
  - apply gwf_set_gval; auto.
  - rewrite set_gval_size. auto.
  - rewrite set_gval_size. auto.
  - rewrite set_gval_size. intros j Hj. rewrite set_gval_loc. auto.
  - unfold twf. rewrite W2, W3. split; [auto|]. split; [auto|].
    intros j Hj. rewrite W4 by lia. apply T3; auto.
  - simpl. congruence.
  - simpl. rewrite W3. auto.
  - intros k' nd' E'. destruct (set_gval_inv _ _ _ _ _ E') as (n0 & E0 & Bd & L & V).
    rewrite set_gval_zops, Bd, L, V. cbn [g_adj set_gval set_gnodes].
    destruct (Nat.eqb_spec k' k) as [->|Hne].
    + assert (n0 = nd) by congruence. subst n0.
      destruct (q10 _ _ E) as (M1 & M2 & M3 & M4). unfold rec_at. split; [|split; [|split]].
      * exact W5.
      * eapply real_at_frame; [|exact M2]. intros j Hj. apply W4. lia.
      * eapply ints_at_frame; [|exact M3]. intros j Hj. apply W4. lia.
      * eapply reals_at_frame; [|exact M4]. intros j Hj. apply W4.
        assert (0 <= zlen (zops g (n_body nd))) by apply zlen_nonneg. lia.
    + apply (O1 k'); auto.
  - intros a ar E'. specialize (O2 a ar E' (q11 a ar E')). unfold arr_at in *.
    destruct (a_c ar); auto. rewrite (map_ext _ (gloc g)); auto. intros. apply set_gval_loc.
  - eapply nest_at_ext; [| |exact q14]; auto.
Qed.

(* ---- nested environments ---- *)

(* the tape is allocated exactly up to the last word written *)
Definition fullb (g : graph) : bool :=
  (g_top g =? g_peak g) &&
  ((g_peak g =? 1) || existsb (fun j => g_peak g - 1 =? init_tape_size * 2 ^ Z.of_nat j) (seq 0 32)).

Lemma split_at_end g : gwf g ->
  split_at (g_nodes g) (g_arrs g) (mkMark (gsize g) (length (g_arrs g)) (g_top g)).
Proof.
  intros [w1 w2 w3 w4 w5 w6]. split; simpl.
  - intros k nd E. split; intros H.
    + apply (w2 _ _ E).
    + apply nth_error_lt in E. unfold gsize in H. lia.
  - intros k ar E. split; intros H.
    + apply (w4 _ _ E).
    + apply nth_error_lt in E. lia.
Qed.

Lemma gwf_begin g g' : gwf g -> abegin g = Some g' -> gwf g'.
Proof.
  intros H. unfold abegin. destruct (Nat.ltb _ 10); [|discriminate]. intros E; inversion E; subst.
  pose proof (split_at_end g H) as SP. destruct H as [w1 w2 w3 w4 w5 w6]. constructor; auto.
  cbn [g_nodes g_arrs g_nest g_top marks_ok mk_n mk_a mk_top].
  split; [unfold gsize; simpl; lia|]. split; [lia|]. split; [lia|]. split; [exact SP|exact w6].
Qed.

Lemma begin_ok s g g' : Rel s g -> abegin g = Some g' ->
  exists s', begin_nested s = Ok (tt, s') /\ Rel s' g'.
Proof.
  intros R HB. pose proof (gwf_begin g g' (r_wf s g R) HB) as HW. unfold abegin in HB.
  destruct (Nat.ltb_spec (length (g_nest g)) 10) as [Hl|]; [|discriminate]. inversion HB; subst g'; clear HB.
  unfold begin_nested, mput, nest_get. rewrite (r_lvl s g R).
  replace ((1 <=? zlen (g_nest g) + 1) && (zlen (g_nest g) + 1 <=? max_nested_stack)) with true
    by (unfold zlen, max_nested_stack; lia).
  cbn [bind]. eexists. split; [reflexivity|].
  destruct R as [q1 q2 q3 q4 q5 q6 q7 q8 q9 q10 q11 q12 q13 q14].
  constructor; cbn [s_head s_n s_varis s_tape s_lvl s_nv s_nt g_nodes]; auto.
  - simpl. unfold zlen. simpl. lia.
  - cbn [nest_at g_nest mk_n mk_top].
    assert (EQ : zlen (mkMark (gsize g) (length (g_arrs g)) (g_top g) :: g_nest g) = zlen (g_nest g) + 1).
    { unfold zlen; simpl. lia. }
    rewrite EQ. cbn [s_nv s_nt]. unfold upd at 1 2. rewrite Z.eqb_refl.
    split; [auto|]. split; [auto|].
    assert (X : forall l, zlen l <= zlen (g_nest g) -> nest_at s l ->
      nest_at {| s_head := s_head s; s_n := s_n s; s_varis := s_varis s; s_tape := s_tape s;
        s_lvl := zlen (g_nest g) + 1; s_nv := upd (s_nv s) (zlen (g_nest g) + 1) (s_head s);
        s_nt := upd (s_nt s) (zlen (g_nest g) + 1) (t_head (s_tape s)) |} l).
    { induction l as [|m r IH]; cbn [nest_at]; auto. intros HL (A & B & D).
      cbn [s_nv s_nt]. unfold upd at 1 2.
      replace (zlen (m :: r) =? zlen (g_nest g) + 1) with false by lia.
      split; auto. split; auto. apply IH; auto. unfold zlen in *; simpl in HL. lia. }
    apply X; auto. lia.
Qed.

Lemma begin_deep s g : Rel s g -> abegin g = None -> begin_nested s = Undef OutOfBounds.
Proof.
  intros R. unfold abegin. destruct (Nat.ltb_spec (length (g_nest g)) 10); [discriminate|]. intros _.
  unfold begin_nested, mput, nest_get. rewrite (r_lvl s g R).
  replace ((1 <=? zlen (g_nest g) + 1) && (zlen (g_nest g) + 1 <=? max_nested_stack)) with false
    by (unfold zlen, max_nested_stack; lia).
  reflexivity.
Qed.

Lemma firstn_nth {A} (l : list A) n k x : nth_error (firstn n l) k = Some x ->
  nth_error l k = Some x /\ (k < n)%nat.
Proof.
  revert n k; induction l as [|y l IH]; intros [|n] [|k]; simpl; try discriminate.
  - intros H. split; [exact H|lia].
  - intros H. apply IH in H. destruct H as [H1 H2]. split; [exact H1|lia].
Qed.

Lemma nth_firstn {A} (l : list A) n k : (k < n)%nat -> nth_error (firstn n l) k = nth_error l k.
Proof.
  revert n k; induction l as [|y l IH]; intros [|n] [|k] H; simpl; try lia; auto. apply IH. lia.
Qed.

Lemma split_at_sub nodes arrs n a m : split_at nodes arrs m ->
  split_at (firstn n nodes) (firstn a arrs) m.
Proof.
  intros [S1 S2]. split.
  - intros k nd E. apply firstn_nth in E. apply S1. apply E.
  - intros k ar E. apply firstn_nth in E. apply S2. apply E.
Qed.

Lemma marks_ok_sub nodes arrs l n a n' a' top : marks_ok nodes arrs l n a top ->
  marks_ok (firstn n' nodes) (firstn a' arrs) l n a top.
Proof.
  revert n a top; induction l as [|m r IH]; intros n a top; cbn [marks_ok]; auto.
  intros (A & B & D & S & E). split; auto. split; auto. split; auto. split; [apply split_at_sub; auto|].
  apply IH; auto.
Qed.

Lemma trunc_loc m r g j : (j < mk_n m)%nat -> gloc (atrunc m r g) j = gloc g j.
Proof. intros H. unfold gloc; simpl. rewrite nth_firstn by auto. reflexivity. Qed.
Lemma trunc_aloc m r g j : (j < mk_a m)%nat -> galoc (atrunc m r g) j = galoc g j.
Proof. intros H. unfold galoc; simpl. rewrite nth_firstn by auto. reflexivity. Qed.
Lemma trunc_size m r g : (mk_n m <= gsize g)%nat -> gsize (atrunc m r g) = mk_n m.
Proof. intros H. unfold gsize; simpl. rewrite firstn_length. unfold gsize in H. lia. Qed.

Section Trunc.
Variables (g : graph) (m : mark) (r : list mark).
Hypothesis HW : gwf g.
Hypothesis HN : g_nest g = m :: r.

Lemma trunc_facts : (mk_n m <= gsize g)%nat /\ (mk_a m <= length (g_arrs g))%nat /\
  1 <= mk_top m <= g_top g /\ split_at (g_nodes g) (g_arrs g) m /\
  marks_ok (g_nodes g) (g_arrs g) r (mk_n m) (mk_a m) (mk_top m).
Proof. pose proof (w_nest g HW) as H. rewrite HN in H. exact H. Qed.

(* what a surviving record or array refers to survives *)
Lemma trunc_arr_live a ar : nth_error (g_arrs g) a = Some ar -> a_loc ar < mk_top m -> (a < mk_a m)%nat.
Proof.
  intros E H. destruct trunc_facts as (_ & _ & _ & [_ S2] & _).
  destruct (Nat.lt_ge_cases a (mk_a m)) as [|L]; auto. apply (S2 _ _ E) in L. lia.
Qed.
Lemma trunc_node_live k nd : nth_error (g_nodes g) k = Some nd -> n_loc nd < mk_top m -> (k < mk_n m)%nat.
Proof.
  intros E H. destruct trunc_facts as (_ & _ & _ & [S1 _] & _).
  destruct (Nat.lt_ge_cases k (mk_n m)) as [|L]; auto. apply (S1 _ _ E) in L. lia.
Qed.

Lemma trunc_body k nd : nth_error (g_nodes g) k = Some nd -> (k < mk_n m)%nat ->
  body_ok (atrunc m r g) k nd /\ zops (atrunc m r g) (n_body nd) = zops g (n_body nd).
Proof.
  intros E Hk. destruct (w_node g HW _ _ E) as (A1 & A2 & A3).
  destruct trunc_facts as (_ & _ & _ & [S1 S2] & _). destruct (S1 _ _ E) as [S1a _]. specialize (S1a Hk).
  pose proof (bwidth_pos (n_body nd)).
  unfold body_ok, nwidth in *. destruct (n_body nd) as [ops ds|i j ia ib] eqn:Eb.
  - split; auto. simpl. apply map_ext_in. intros x Hx. rewrite Forall_forall in A3.
    apply trunc_loc. specialize (A3 _ Hx). lia.
  - destruct A3 as (B1 & B2 & (ra & Ea & La) & (rb & Eb' & Lb)).
    pose proof (alen_pos ra). pose proof (alen_pos rb).
    assert (Ha : (ia < mk_a m)%nat) by (eapply trunc_arr_live; [exact Ea|lia]).
    assert (Hb : (ib < mk_a m)%nat) by (eapply trunc_arr_live; [exact Eb'|lia]).
    split.
    + split; auto. split; auto. split.
      * exists ra. simpl. rewrite nth_firstn by auto. auto.
      * exists rb. simpl. rewrite nth_firstn by auto. auto.
    + simpl. rewrite !trunc_aloc by auto. reflexivity.
Qed.

Lemma trunc_arr a ar : nth_error (g_arrs g) a = Some ar -> (a < mk_a m)%nat ->
  arr_ok (atrunc m r g) ar /\
  (forall ids, a_c ar = AVar ids -> map (gloc (atrunc m r g)) ids = map (gloc g) ids).
Proof.
  intros E Ha. destruct (w_arr g HW _ _ E) as (A1 & A2 & A3 & A4 & A5).
  destruct trunc_facts as (T1 & _ & _ & [S1 S2] & _). destruct (S2 _ _ E) as [S2a _]. specialize (S2a Ha).
  pose proof (alen_pos ar).
  assert (X : forall j, (j < gsize g)%nat /\ gloc g j < a_loc ar -> (j < mk_n m)%nat).
  { intros j [H1 H2]. destruct (lt_nth_error _ _ H1) as [nd Ed]. rewrite (gloc_eq g _ _ Ed) in H2.
    eapply trunc_node_live; [exact Ed|lia]. }
  split.
  - split; auto. split; auto. destruct (a_c ar); auto. destruct A5 as [A5 A6]. split; auto.
    eapply Forall_impl; [|exact A6]. intros j Hj. specialize (X _ Hj). rewrite trunc_size by auto.
    rewrite trunc_loc by auto. split; auto. apply Hj.
  - intros ids EC. rewrite EC in A5. destruct A5 as [_ A6]. rewrite Forall_forall in A6.
    apply map_ext_in. intros x Hx. apply trunc_loc. auto.
Qed.

Lemma gwf_trunc : gwf (atrunc m r g).
Proof.
  destruct trunc_facts as (T1 & T2 & T3 & T4 & T5).
  assert (HW' := HW). destruct HW' as [w1 w2 w3 w4 w5 w6]. constructor.
  - simpl. lia.
  - intros k nd E. apply firstn_nth in E. destruct E as [E Hk].
    destruct (w2 _ _ E) as (A1 & A2 & A3). split; auto. split.
    + apply (proj1 T4 _ _ E). auto.
    + apply trunc_body; auto.
  - intros k k' nd nd' Hk E E'. apply firstn_nth in E, E'. eapply w3; [exact Hk|apply E|apply E'].
  - intros a ar E. apply firstn_nth in E. destruct E as [E Ha].
    destruct (w4 _ _ E) as (A1 & A2 & A3). split; auto. split.
    + apply (proj2 T4 _ _ E). auto.
    + eapply trunc_arr; eauto.
  - intros k nd a ar E E'. apply firstn_nth in E, E'. eapply w5; [apply E|apply E'].
  - rewrite trunc_size by auto. simpl. rewrite firstn_length.
    replace (Nat.min (mk_a m) (length (g_arrs g))) with (mk_a m) by lia.
    apply marks_ok_sub. exact T5.
Qed.
End Trunc.

Lemma wipe_ok n hi t : 1 <= hi - Z.of_nat n + 1 -> hi <= t_size t ->
  exists t', foldM (fun t i => tput t i w0) (zdown hi n) t = Ok t' /\
    t_head t' = t_head t /\ t_size t' = t_size t /\
    (forall j, t_mem t' j = if (hi - Z.of_nat n + 1 <=? j) && (j <=? hi) then w0 else t_mem t j).
Proof.
  revert hi t; induction n as [|n IH]; intros hi t H1 H2.
  - exists t. simpl. repeat split; auto. intros j.
    replace ((hi - Z.of_nat 0 + 1 <=? j) && (j <=? hi)) with false by lia. reflexivity.
  - rewrite zdown_S. cbn [foldM]. rewrite tput_ok by lia. cbn [bind].
    destruct (IH (hi - 1) {| t_head := t_head t; t_size := t_size t; t_mem := upd (t_mem t) hi w0 |})
      as (t' & E & A & B & D); [lia|simpl; lia|].
    exists t'. split; [exact E|]. split; [exact A|]. split; [exact B|].
    intros j. rewrite D. cbn [t_mem]. unfold upd.
    destruct (Z.eqb_spec j hi) as [->|Hne].
    + replace ((hi - 1 - Z.of_nat n + 1 <=? hi) && (hi <=? hi - 1)) with false by lia.
      replace ((hi - Z.of_nat (S n) + 1 <=? hi) && (hi <=? hi)) with true by lia. reflexivity.
    + replace ((hi - 1 - Z.of_nat n + 1 <=? j) && (j <=? hi - 1))
        with ((hi - Z.of_nat (S n) + 1 <=? j) && (j <=? hi)) by lia. reflexivity.
Qed.

Lemma not_full s g : cfg_ok C -> Rel s g -> fullb g = false -> g_top g <= t_size (s_tape s).
Proof.
  intros [HC1 HC2] R HF. pose proof (r_size s g R) as HS. pose proof (r_wf s g R) as HW.
  destruct (w_top g HW) as [W1 W2]. destruct (r_twf s g R) as (T1 & T2 & T3).
  unfold fullb in HF. destruct (Z.eqb_spec (g_top g) (g_peak g)) as [E|E].
  2:{ destruct HS as [[S1 S2]|(j & S1 & S2 & S3)]; lia. }
  cbn [andb] in HF. apply orb_false_iff in HF. destruct HF as [F1 F2].
  destruct HS as [[S1 S2]|(j & S1 & S2 & S3)]; [lia|].
  destruct (Z.eq_dec (t_size (s_tape s)) (g_peak g - 1)) as [Eq|]; [|lia]. exfalso.
  assert (Hj : (j < 32)%nat).
  { destruct (Nat.lt_ge_cases j 32) as [|Hge]; auto. exfalso.
    assert (2 ^ 32 <= 2 ^ Z.of_nat j) by (apply Z.pow_le_mono_r; lia).
    assert (1 <= init_tape_size) by (unfold init_tape_size, min_rec_size in *; lia).
    unfold max_int in *. nia. }
  assert (X : existsb (fun j => g_peak g - 1 =? init_tape_size * 2 ^ Z.of_nat j) (seq 0 32) = true).
  { apply existsb_exists. exists j. split; [apply in_seq; lia|]. lia. }
  congruence.
Qed.

Lemma full_size s g : cfg_ok C -> Rel s g -> fullb g = true -> 1 < g_peak g ->
  t_size (s_tape s) = g_top g - 1.
Proof.
  intros [HC1 HC2] R HF HP. pose proof (r_size s g R) as HS. unfold fullb in HF.
  apply andb_prop in HF. destruct HF as [F1 F2]. assert (E : g_top g = g_peak g) by lia.
  assert (I1 : 1 <= init_tape_size) by (unfold init_tape_size, min_rec_size in *; lia).
  apply orb_prop in F2. destruct F2 as [F2|F2]; [lia|].
  apply existsb_exists in F2. destruct F2 as (j' & _ & Ej).
  destruct HS as [[S1 S2]|(j & S1 & S2 & S3)]; [lia|].
  assert (Hj : (j = j')%nat).
  { destruct (Nat.lt_trichotomy j j') as [Hj|[Hj|Hj]]; auto; exfalso.
    - assert (2 ^ Z.of_nat j < 2 ^ Z.of_nat j') by (apply Z.pow_lt_mono_r; lia). nia.
    - assert (2 ^ (Z.of_nat j' + 1) <= 2 ^ Z.of_nat j) by (apply Z.pow_le_mono_r; lia).
      rewrite Z.pow_add_r in H by lia. change (2 ^ 1) with 2 in H. destruct S2 as [S2|S2]; [lia|]. nia. }
  subst j'. lia.
Qed.

Lemma end_fits s g m r : Rel s g -> g_nest g = m :: r -> g_top g <= t_size (s_tape s) ->
  exists s', end_nested s = Ok (tt, s') /\ Rel s' (atrunc m r g).
Proof.
  intros R HN HT.
  destruct (trunc_facts g m r (r_wf s g R) HN) as (F1 & F2 & F3 & F4 & F5).
  pose proof (gwf_trunc g m r (r_wf s g R) HN) as HW'.
  unfold end_nested, mput, nest_get. rewrite (r_lvl s g R).
  pose proof (r_nest s g R) as HNS. pose proof (r_lvl10 s g R) as H10. rewrite HN in HNS, H10.
  rewrite HN. set (L := zlen (m :: r)) in *.
  assert (HL : 1 <= L <= 10) by (unfold L, zlen; simpl in H10 |- *; lia).
  replace (0 <? L) with true by lia.
  replace ((1 <=? L) && (L <=? max_nested_stack)) with true by (unfold max_nested_stack; lia).
  cbn [bind]. cbn [nest_at] in HNS. fold L in HNS. destruct HNS as (N1 & N2 & N3).
  rewrite N1, N2, (r_thead s g R). unfold down_to.
  destruct (wipe_ok (Z.to_nat (g_top g - mk_top m + 1)) (g_top g) (s_tape s))
    as (t' & E & W1 & W2 & W3); try lia.
  rewrite E. cbn [bind]. eexists. split; [reflexivity|].
  assert (W4 : forall j, t_mem t' j = if (mk_top m <=? j) && (j <=? g_top g) then w0 else t_mem (s_tape s) j).
  { intros j. rewrite W3. replace (g_top g - Z.of_nat (Z.to_nat (g_top g - mk_top m + 1)) + 1) with (mk_top m) by lia.
    reflexivity. }
  clear W3. assert (R0 := R).
  destruct R as [q1 q2 q3 q4 q5 q6 q7 q8 q9 q10 q11 q12 q13 q14].
  constructor; cbn [s_head s_n s_varis s_tape s_lvl s_nv s_nt]; auto.
  - rewrite trunc_size by auto. reflexivity.
  - rewrite trunc_size by auto. lia.
  - rewrite trunc_size by auto. intros k Hk. rewrite trunc_loc by auto. apply q4. lia.
  - destruct q7 as (T1 & T2 & T3). unfold twf, set_head; simpl. rewrite W2. split; [lia|]. split; [lia|].
    intros j Hj. rewrite W4. destruct (Z.leb_spec (mk_top m) j), (Z.leb_spec j (g_top g)); cbn [andb]; auto; try lia.
    apply T3. lia.
  - simpl. rewrite W2. exact q9.
  - intros k nd Ek. apply firstn_nth in Ek. destruct Ek as [Ek Hk].
    destruct (trunc_body g m r q1 HN k nd Ek Hk) as [_ Z1]. rewrite Z1.
    eapply rec_at_frame; [|apply (q10 _ _ Ek)].
    intros j Hj. simpl. rewrite W4. rewrite <- bwidth_zops in Hj.
    pose proof (proj1 (proj1 F4 _ _ Ek) Hk). unfold nwidth in *.
    replace ((mk_top m <=? j) && (j <=? g_top g)) with false by lia. reflexivity.
  - intros a ar Ea. apply firstn_nth in Ea. destruct Ea as [Ea Ha].
    destruct (trunc_arr g m r q1 HN a ar Ea Ha) as [_ Z1].
    pose proof (proj1 (proj2 F4 _ _ Ea) Ha) as Z2.
    specialize (q11 _ _ Ea). unfold arr_at in *. simpl t_mem. destruct q11 as [P1 P2].
    assert (FR : forall j, a_loc ar <= j < a_loc ar + alen ar -> t_mem t' j = t_mem (s_tape s) j).
    { intros j Hj. rewrite W4. replace ((mk_top m <=? j) && (j <=? g_top g)) with false by lia. reflexivity. }
    pose proof (alen_pos ar). split.
    + eapply ints_at_frame; [|exact P1]. intros j Hj. apply FR. 
      change (zlen [Z.of_nat (a_m ar); Z.of_nat (a_n ar)]) with 2 in Hj. lia.
    + unfold alen in *. destruct (a_c ar) as [ids|ds].
      * rewrite (Z1 _ eq_refl). eapply ints_at_frame; [|exact P2]. intros j Hj. apply FR.
        unfold zlen in *. rewrite map_length in Hj. lia.
      * eapply reals_at_frame; [|exact P2]. intros j Hj. apply FR. lia.
  - simpl. unfold L, zlen. simpl. lia.
  - simpl. simpl in H10. lia.
  - cbn [g_nest atrunc].
    assert (X : forall l, zlen l < L -> nest_at s l ->
      nest_at {| s_head := Z.of_nat (mk_n m) + 1; s_n := s_n s; s_varis := s_varis s;
        s_tape := set_head t' (mk_top m); s_lvl := L - 1; s_nv := upd (s_nv s) L 0;
        s_nt := upd (s_nt s) L 0 |} l).
    { induction l as [|x l IH]; cbn [nest_at]; auto. intros HX (A & B & D).
      cbn [s_nv s_nt]. unfold upd at 1 2. replace (zlen (x :: l) =? L) with false by lia.
      split; auto. split; auto. apply IH; auto. unfold zlen in *; simpl in HX. lia. }
    apply X; auto. unfold L, zlen; simpl. lia.
Qed.

Lemma end_ok s g m r : cfg_ok C -> Rel s g -> g_nest g = m :: r -> fullb g = false ->
  exists s', end_nested s = Ok (tt, s') /\ Rel s' (atrunc m r g).
Proof. intros HC R HN HF. apply end_fits; auto. apply not_full; auto. Qed.

Lemma end_full s g m r : Rel s g -> g_nest g = m :: r -> t_size (s_tape s) = g_top g - 1 ->
  end_nested s = Undef OutOfBounds.
Proof.
  intros R HN HT. destruct (trunc_facts g m r (r_wf s g R) HN) as (_ & _ & F3 & _).
  unfold end_nested, mput, nest_get. rewrite (r_lvl s g R).
  pose proof (r_nest s g R) as HNS. pose proof (r_lvl10 s g R) as H10. rewrite HN in HNS, H10.
  rewrite HN. set (L := zlen (m :: r)) in *.
  assert (HL : 1 <= L <= 10) by (unfold L, zlen; simpl in H10 |- *; lia).
  replace (0 <? L) with true by lia.
  replace ((1 <=? L) && (L <=? max_nested_stack)) with true by (unfold max_nested_stack; lia).
  cbn [bind]. cbn [nest_at] in HNS. fold L in HNS. destruct HNS as (N1 & N2 & N3).
  rewrite N1, N2, (r_thead s g R). unfold down_to.
  replace (Z.to_nat (g_top g - mk_top m + 1)) with (S (Z.to_nat (g_top g - mk_top m))) by lia.
  rewrite zdown_S. cbn [foldM]. unfold tput.
  replace ((1 <=? g_top g) && (g_top g <=? t_size (s_tape s))) with false by lia. reflexivity.
Qed.

Lemma end_unmatched s g : Rel s g -> g_nest g = [] -> end_nested s = Ok (tt, s).
Proof.
  intros R HN. unfold end_nested, mput. rewrite (r_lvl s g R), HN. reflexivity.
Qed.

Lemma zero_nested_ok s g m r : Rel s g -> g_nest g = m :: r ->
  exists s', set_zero_nested_adj s = Ok (tt, s') /\ Rel s' (azero_from (mk_n m) g).
Proof.
  intros R HN. destruct (trunc_facts g m r (r_wf s g R) HN) as (F1 & _).
  unfold set_zero_nested_adj, mput, nest_get. rewrite (r_lvl s g R).
  pose proof (r_nest s g R) as HNS. pose proof (r_lvl10 s g R) as H10. rewrite HN in HNS, H10.
  rewrite HN. set (L := zlen (m :: r)) in *.
  assert (HL : 1 <= L <= 10) by (unfold L, zlen; simpl in H10 |- *; lia).
  replace ((1 <=? L) && (L <=? max_nested_stack)) with true by (unfold max_nested_stack; lia).
  cbn [bind]. cbn [nest_at] in HNS. fold L in HNS. destruct HNS as (N1 & N2 & N3).
  rewrite N1, (r_head s g R). replace (Z.of_nat (gsize g) + 1 - 1) with (Z.of_nat (gsize g)) by lia.
  change (Z.of_nat (mk_n m) + 1) with (hd (mk_n m)). rewrite down_to_eq.
  destruct (zero_ok (gsize g - mk_n m) (mk_n m) s g R) as (s' & E & R'); [lia|].
  rewrite E. cbn [bind]. eexists. split; [reflexivity|].
  replace (mk_n m + (gsize g - mk_n m))%nat with (gsize g) in R' by lia. exact R'.
Qed.

Lemma zero_nested_outside s g : Rel s g -> g_nest g = [] -> set_zero_nested_adj s = Undef OutOfBounds.
Proof.
  intros R HN. unfold set_zero_nested_adj, mput, nest_get. rewrite (r_lvl s g R), HN. reflexivity.
Qed.

Definition agrad_nested (k : nat) (g : graph) : option graph :=
  match g_nest g with
  | [] => None
  | m :: _ => if Nat.ltb k (gsize g) then asweep (mk_n m) (gsize g - mk_n m) (a_seed g k) else None
  end.

Lemma grad_nested_ok s g k g' : Rel s g -> agrad_nested k g = Some g' ->
  exists s', grad_nested (hd k) s = Ok (tt, s') /\ Rel s' g'.
Proof.
  intros R. unfold agrad_nested. destruct (g_nest g) as [|m r] eqn:HN; [discriminate|].
  destruct (Nat.ltb_spec k (gsize g)) as [Hk|]; [|discriminate]. intros Hs.
  destruct (trunc_facts g m r (r_wf s g R) HN) as (F1 & _).
  unfold grad_nested, mput. destruct (rel_set_var_adj s g k f1 R Hk) as (s1 & E1 & R1). rewrite E1. cbn [bind].
  unfold curr_nested_vari_head, nest_get. rewrite (r_lvl _ _ R1).
  change (g_nest (set_gadj g (nupd (g_adj g) k f1))) with (g_nest g).
  pose proof (r_nest _ _ R1) as HNS. pose proof (r_lvl10 _ _ R1) as H10.
  change (g_nest (set_gadj g (nupd (g_adj g) k f1))) with (g_nest g) in HNS, H10.
  rewrite HN in HNS, H10. rewrite HN. set (L := zlen (m :: r)) in *.
  assert (HL : 1 <= L <= 10) by (unfold L, zlen; simpl in H10 |- *; lia).
  replace (0 <? L) with true by lia.
  replace ((1 <=? L) && (L <=? max_nested_stack)) with true by (unfold max_nested_stack; lia).
  cbn [bind]. cbn [nest_at] in HNS. fold L in HNS. destruct HNS as (N1 & N2 & N3).
  rewrite N1, (r_head _ _ R1).
  change (gsize (set_gadj g (nupd (g_adj g) k f1))) with (gsize g).
  replace (Z.of_nat (gsize g) + 1 - 1) with (Z.of_nat (gsize g)) by lia.
  change (Z.of_nat (mk_n m) + 1) with (hd (mk_n m)). rewrite down_to_eq.
  destruct (sweep_ok (gsize g - mk_n m) (mk_n m) s1 _ g' R1) as (s2 & E2 & R2); auto.
  { change (gsize (set_gadj g (nupd (g_adj g) k f1))) with (gsize g). lia. }
  rewrite E2. cbn [bind]. eauto.
Qed.

(* ---- one call of a client ---- *)

Definition aquiet (r : option graph) : ares (list nat * list obs * graph) :=
  match r with Some g => AOk ([], [], g) | None => ABad end.

Definition astep (g : graph) (env : list nat) (c : cmd) : ares (list nat * list obs * graph) :=
  match c with
  | COp o => abind (aexec_op g env o) (fun p => AOk (fst p, [], snd p))
  | CSet a d => match areg g env a with Some k => AOk ([], [], set_gval g k d) | None => ABad end
  | CGrad a => match areg g env a with Some k => aquiet (agrad k g) | None => ABad end
  | CGradNested a => match areg g env a with Some k => aquiet (agrad_nested k g) | None => ABad end
  | CZeroAll => AOk ([], [], azero_from 0 g)
  | CZeroNested => match g_nest g with m :: _ => AOk ([], [], azero_from (mk_n m) g) | [] => ABad end
  | CBegin => aquiet (abegin g)
  | CEnd => match g_nest g with
            | [] => AOk ([], [], g)
            | m :: r => if fullb g then ABad else AOk ([], [], atrunc m r g)
            end
  | CVal a => match areg g env a with Some k => AOk ([], [OF (gval g k)], g) | None => ABad end
  | CAdj a => match areg g env a with Some k => AOk ([], [OF (g_adj g k)], g) | None => ABad end
  | CRelVV q a b => match areg g env a, areg g env b with
                    | Some k1, Some k2 => AOk ([], [OB (frel q (gval g k1) (gval g k2))], g)
                    | _, _ => ABad end
  | CRelVD q a d => match areg g env a with
                    | Some k => AOk ([], [OB (frel q (gval g k) d)], g) | None => ABad end
  | CRelDV q d b => match areg g env b with
                    | Some k => AOk ([], [OB (frel q (gval g k) d)], g) | None => ABad end
  end.

Definition refines (r : res ((list Z * list obs) * st)) (a : ares (list nat * list obs * graph)) : Prop :=
  match a with
  | AOk (ks, os, g') => forall ov : Prop, excused ov g' ->
      wp ov r (fun p => fst p = (map hd ks, os) /\ Rel (snd p) g')
  | AStop => r = ErrStop
  | ABad => True
  end.

Lemma refines_quiet m s g' : (exists s', m s = Ok (tt, s') /\ Rel s' g') ->
  refines (quiet m s) (AOk ([], [], g')).
Proof.
  intros (s' & E & R) ov Hov. unfold quiet. rewrite (mbind_ok _ _ _ _ _ E). simpl. auto.
Qed.

Lemma refines_obs s g os : Rel s g -> refines (mret ([], os) s) (AOk ([], os, g)).
Proof. intros R ov Hov. simpl. auto. Qed.

Theorem step_refines s g env c : cfg_ok C -> Rel s g ->
  refines (exec_cmd (map hd env) c s) (astep g env c).
Proof.
  intros HC R. destruct c; cbn [exec_cmd astep].
  - pose proof (exec_op_ok HC s g env o R) as H. unfold performsL in H.
    destruct (aexec_op g env o) as [[ks g']| |]; cbn [abind fst snd refines].
    + intros ov Hov. apply wp_mbind. eapply wp_mono; [apply (H ov Hov)|auto|].
      intros [hs s'] [E1 R1]. cbn [fst snd] in *. simpl. subst. auto.
    + unfold mbind. rewrite H. reflexivity.
    + exact I.
  - destruct (areg g env r) as [k|] eqn:E; [|exact I]. destruct (areg_ok _ _ _ _ s E) as [A1 A2].
    rewrite (mbind_ok _ _ _ _ _ A1). apply refines_quiet. apply rel_set_var; auto.
  - destruct (areg g env r) as [k|] eqn:E; [|exact I]. destruct (areg_ok _ _ _ _ s E) as [A1 A2].
    rewrite (mbind_ok _ _ _ _ _ A1). destruct (agrad k g) eqn:E2; [|exact I]. apply refines_quiet.
    eapply grad_ok; eauto.
  - destruct (areg g env r) as [k|] eqn:E; [|exact I]. destruct (areg_ok _ _ _ _ s E) as [A1 A2].
    rewrite (mbind_ok _ _ _ _ _ A1). destruct (agrad_nested k g) eqn:E2; [|exact I]. apply refines_quiet.
    eapply grad_nested_ok; eauto.
  - apply refines_quiet. apply zero_all_ok; auto.
  - destruct (g_nest g) as [|m l] eqn:E; [exact I|]. apply refines_quiet. eapply zero_nested_ok; eauto.
  - destruct (abegin g) eqn:E; [|exact I]. apply refines_quiet. eapply begin_ok; eauto.
  - destruct (g_nest g) as [|m l] eqn:E.
    + apply refines_quiet. exists s. split; [eapply end_unmatched; eauto|auto].
    + destruct (fullb g) eqn:EF; [exact I|]. apply refines_quiet. eapply end_ok; eauto.
  - destruct (areg g env r) as [k|] eqn:E; [|exact I]. destruct (areg_ok _ _ _ _ s E) as [A1 A2].
    rewrite (mbind_ok _ _ _ _ _ A1), (mbind_ok _ _ _ _ _ (rel_vval s g k R A2)). apply refines_obs; auto.
  - destruct (areg g env r) as [k|] eqn:E; [|exact I]. destruct (areg_ok _ _ _ _ s E) as [A1 A2].
    rewrite (mbind_ok _ _ _ _ _ A1), (mbind_ok _ _ _ _ _ (rel_vadj s g k R A2)). apply refines_obs; auto.
  - destruct (areg g env a) as [k1|] eqn:E1; [|exact I]. destruct (areg g env b) as [k2|] eqn:E2; [|exact I].
    destruct (areg_ok _ _ _ _ s E1) as [A1 A2]. destruct (areg_ok _ _ _ _ s E2) as [B1 B2].
    rewrite (mbind_ok _ _ _ _ _ A1), (mbind_ok _ _ _ _ _ B1).
    rewrite (mbind_ok _ _ s (frel q (gval g k1) (gval g k2)) s); [apply refines_obs; auto|].
    unfold rel_vv. rewrite (mbind_ok _ _ _ _ _ (rel_vval s g k1 R A2)), (mbind_ok _ _ _ _ _ (rel_vval s g k2 R B2)).
    reflexivity.
  - destruct (areg g env a) as [k1|] eqn:E1; [|exact I].
    destruct (areg_ok _ _ _ _ s E1) as [A1 A2].
    rewrite (mbind_ok _ _ _ _ _ A1).
    rewrite (mbind_ok _ _ s (frel q (gval g k1) d) s); [apply refines_obs; auto|].
    unfold rel_vd. rewrite (mbind_ok _ _ _ _ _ (rel_vval s g k1 R A2)).
    reflexivity.
  - destruct (areg g env b) as [k1|] eqn:E1; [|exact I].
    destruct (areg_ok _ _ _ _ s E1) as [A1 A2].
    rewrite (mbind_ok _ _ _ _ _ A1).
    rewrite (mbind_ok _ _ s (frel q (gval g k1) d) s); [apply refines_obs; auto|].
    unfold rel_dv. rewrite (mbind_ok _ _ _ _ _ (rel_vval s g k1 R A2)).
    reflexivity.
Qed.

(* ---- clients ---- *)

Fixpoint arun (p : client) (env : list nat) (g : graph) : ares (list nat * list obs * graph) :=
  match p with
  | Done => AOk (env, [], g)
  | Do c k =>
      abind (astep g env c) (fun r =>
      abind (arun (k (snd (fst r))) (env ++ fst (fst r)) (snd r)) (fun r2 =>
      AOk (fst (fst r2), snd (fst r) ++ snd (fst r2), snd r2)))
  end.


Lemma aexec_op_peak g env o ks g' : aexec_op g env o = AOk (ks, g') -> g_peak g <= g_peak g'.
Proof.
  assert (MAT : forall ch m k n ca cb av bv, amat ch m k n ca cb av bv g = AOk (ks, g') -> g_peak g <= g_peak g').
  { intros until bv. unfold amat. destruct (_ && _ && _); [|discriminate]. intros H; inversion H; subst.
    etransitivity; [|apply mat_nodes_peak]. simpl. lia. }
  assert (ACT : forall a, abind (do_act g a) (fun p => AOk ([fst p], snd p)) = AOk (ks, g') -> g_peak g <= g_peak g').
  { intros [v ops ds ch|k [c|]| |]; simpl; intros H; inversion H; subst; simpl; lia. }
  destruct o; try apply ACT; cbn [aexec_op].
  - destruct (aregs g env a); [|discriminate]. destruct (aregs g env b); [|discriminate]. apply MAT.
  - destruct (aregs g env a); [|discriminate]. apply MAT.
  - destruct (aregs g env b); [|discriminate]. apply MAT.
Qed.

Lemma astep_peak g env c ks os g' : astep g env c = AOk (ks, os, g') -> g_peak g <= g_peak g'.
Proof.
  destruct c; cbn [astep].
  - destruct (aexec_op g env o) as [[k1 g1]| |] eqn:E; cbn [abind]; try discriminate.
    intros H; inversion H; subst. eapply aexec_op_peak; eauto.
  - destruct (areg g env r); [|discriminate]. intros H; inversion H; subst. simpl. lia.
  - destruct (areg g env r) as [k|]; [|discriminate]. unfold agrad. destruct (Nat.ltb k (gsize g)); [|discriminate].
    destruct (asweep 0 (gsize g) (a_seed g k)) eqn:E; [|discriminate]. intros H; inversion H; subst.
    apply asweep_nodes in E. destruct E as (_ & _ & _ & _ & _ & E). rewrite E. simpl. lia.
  - destruct (areg g env r) as [k|]; [|discriminate]. unfold agrad_nested. destruct (g_nest g) as [|m l]; [discriminate|].
    destruct (Nat.ltb k (gsize g)); [|discriminate].
    destruct (asweep (mk_n m) (gsize g - mk_n m) (a_seed g k)) eqn:E; [|discriminate]. intros H; inversion H; subst.
    apply asweep_nodes in E. destruct E as (_ & _ & _ & _ & _ & E). rewrite E. simpl. lia.
  - intros H; inversion H; subst. simpl. lia.
  - destruct (g_nest g); [discriminate|]. intros H; inversion H; subst. simpl. lia.
  - unfold abegin. destruct (Nat.ltb _ 10); [|discriminate]. intros H; inversion H; subst. simpl. lia.
  - destruct (g_nest g); [intros H; inversion H; subst; lia|]. destruct (fullb g); [discriminate|].
    intros H; inversion H; subst. simpl. lia.
  - destruct (areg g env r); [|discriminate]. intros H; inversion H; subst. lia.
  - destruct (areg g env r); [|discriminate]. intros H; inversion H; subst. lia.
  - destruct (areg g env a); [|discriminate]. destruct (areg g env b); [|discriminate]. intros H; inversion H; subst. lia.
  - destruct (areg g env a); [|discriminate]. intros H; inversion H; subst. lia.
  - destruct (areg g env b); [|discriminate]. intros H; inversion H; subst. lia.
Qed.

Lemma arun_peak p env g ks os g' : arun p env g = AOk (ks, os, g') -> g_peak g <= g_peak g'.
Proof.
  revert env g ks os g'. induction p as [|c k IH]; intros env g ks os g'; cbn [arun].
  - intros H; inversion H; subst. lia.
  - destruct (astep g env c) as [[[k1 o1] g1]| |] eqn:E1; cbn [abind]; try discriminate.
    destruct (arun (k (snd (fst (k1, o1, g1)))) (env ++ fst (fst (k1, o1, g1))) (snd (k1, o1, g1)))
      as [[[k2 o2] g2]| |] eqn:E2; cbn [abind]; try discriminate.
    intros H; inversion H; subst. apply astep_peak in E1. apply IH in E2. cbn [fst snd] in *. lia.
Qed.

(* Overflow of the storage size is the only other outcome of an accepted client. *)
Theorem run_refines p env s g : cfg_ok C -> Rel s g ->
  match arun p env g with
  | AOk (ks, os, g') => forall ov : Prop, excused ov g' ->
      wp ov (run p (map hd env) s) (fun r => fst r = (map hd ks, os) /\ Rel (snd r) g')
  | AStop => run p (map hd env) s = ErrStop \/ run p (map hd env) s = Undef IntOverflow
  | ABad => True
  end.
Proof.
  intros HC. revert env s g. induction p as [|c k IH]; intros env s g R; cbn [arun run].
  - intros ov Hov. simpl. auto.
  - pose proof (step_refines s g env c HC R) as ST. unfold refines in ST.
    destruct (astep g env c) as [[[k1 o1] g1]| |] eqn:E1; cbn [abind fst snd]; [| |exact I].
    + destruct (arun (k o1) (env ++ k1) g1) as [[[k2 o2] g2]| |] eqn:E2; cbn [abind fst snd]; [| |exact I].
      * intros ov Hov. apply wp_mbind. eapply wp_mono; [apply (ST ov)|auto|].
        { unfold excused in *. intros. apply Hov. apply arun_peak in E2. lia. }
        intros [r s1] [Er R1]. cbn [fst snd] in *. subst r. cbn [fst snd].
        rewrite <- map_app. apply wp_mbind.
        specialize (IH o1 (env ++ k1)%list s1 g1 R1). rewrite E2 in IH.
        eapply wp_mono; [apply (IH ov Hov)|auto|].
        intros [r s2] [Er R2]. cbn [fst snd] in *. subst r. simpl. auto.
      * specialize (ST True (fun _ => I)).
        unfold mbind at 1 3. destruct (exec_cmd (map hd env) c s) as [[r s1]| |[]|]; simpl in ST;
          try (exfalso; exact ST); [|right; reflexivity].
        destruct ST as [Er R1]. subst r. cbn [bind fst snd]. rewrite <- map_app.
        specialize (IH o1 (env ++ k1)%list s1 g1 R1). rewrite E2 in IH.
        unfold mbind at 1 2. destruct IH as [IH|IH]; rewrite IH; cbn [bind]; auto.
    + left. unfold mbind at 1. rewrite ST. reflexivity.
Qed.

Lemma rel_init : Rel st_init g_init.
Proof.
  constructor; simpl; auto; try lia; try (intros; lia); try (intros [|]; discriminate).
  - constructor; simpl; auto; try lia; intros [|]; discriminate.
  - change (gsize g_init) with O. unfold max_int. lia.
  - intros k Hk. change (gsize g_init) with O in Hk. lia.
  - unfold twf; simpl. unfold max_int. split; [lia|]. split; [lia|auto].
  - left. auto.
Qed.

Theorem run_ok p ks os g' : cfg_ok C -> arun p [] g_init = AOk (ks, os, g') -> g_peak g' <= cap ->
  exists s', run p [] st_init = Ok ((map hd ks, os), s') /\ Rel s' g'.
Proof.
  intros HC E HP. pose proof (run_refines p [] st_init g_init HC rel_init) as H. rewrite E in H.
  specialize (H False). cbn [map] in H.
  destruct (run p [] st_init) as [[r s']| |[]|]; simpl in H; try (exfalso; apply H; unfold excused; intros; lia).
  destruct H as [H1 H2]; [unfold excused; intros; lia|]. subst r. eauto.
Qed.

End RefineSession.
