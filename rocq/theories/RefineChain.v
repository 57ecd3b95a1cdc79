(* One chain step, the reverse sweeps and adjoint resets refine the abstract
   graph steps. *)
From Verif Require Import TapeFacts.
From Verif Require Export Refine.
From Coq Require Import ZifyBool ZifyNat.

Lemma combine_firstn_r {A B} (l : list A) (d : list B) :
  combine l (firstn (length l) d) = combine l d.
Proof.
  revert d; induction l as [|x l IH]; intros [|y d]; simpl; auto. f_equal. auto.
Qed.

Lemma combine_map_l {A B D} (f : A -> B) (l : list A) (d : list D) :
  combine (map f l) d = map (fun p => (f (fst p), snd p)) (combine l d).
Proof. revert d; induction l as [|x l IH]; intros [|y d]; simpl; auto. f_equal. auto. Qed.

Lemma combine_app {A B} (l1 l2 : list A) (d1 d2 : list B) : length l1 = length d1 ->
  combine (l1 ++ l2) (d1 ++ d2) = combine l1 d1 ++ combine l2 d2.
Proof.
  revert d1; induction l1 as [|x l IH]; intros [|y d]; simpl; auto; try discriminate.
  intros H. inversion H. f_equal. auto.
Qed.

Lemma Forall_map_fst_combine {A B} (P : A -> Prop) (l : list A) (d : list B) :
  Forall P l -> Forall P (map fst (combine l d)).
Proof. intros H. revert d. induction H; intros [|y d]; simpl; auto. Qed.

Section RefineChain.
Context {N : Num} {RL : RepLaws N} {C : Cfg N}.

Lemma ints_at_nth m i l x z : ints_at m i l -> nth_error l x = Some z -> m (i + Z.of_nat x) = w_of_int z.
Proof.
  revert i x; induction l as [|y l IH]; intros i [|x]; simpl; try discriminate.
  - intros [H _] E. inversion E; subst. replace (i + Z.of_nat 0) with i by lia. auto.
  - intros [_ H] E. replace (i + Z.of_nat (S x)) with (i + 1 + Z.of_nat x) by lia. auto.
Qed.

Lemma reals_at_nth m i l x z : reals_at m i l -> nth_error l x = Some z -> real_at m (i + 2 * Z.of_nat x) z.
Proof.
  revert i x; induction l as [|y l IH]; intros i [|x]; simpl; try discriminate.
  - intros [H _] E. inversion E; subst. replace (i + 2 * Z.of_nat 0) with i by lia. auto.
  - intros [_ H] E. replace (i + 2 * Z.of_nat (S x)) with (i + 2 + 2 * Z.of_nat x) by lia. auto.
Qed.

(* ---- reading stored matrices ---- *)

Section Arr.
Variables (s : st) (g : graph) (a : nat) (ar : arr).
Hypothesis R : Rel s g.
Hypothesis E : nth_error (g_arrs g) a = Some ar.
Local Notation t := (s_tape s).
Local Notation loc := (a_loc ar).

Lemma arr_bounds : 1 <= loc /\ loc + alen ar <= t_size t + 1.
Proof.
  destruct (w_arr g (r_wf s g R) _ _ E) as (A & B & _).
  destruct (r_twf s g R) as (T1 & T2 & T3). pose proof (r_thead s g R). lia.
Qed.

Lemma arr_nrow : ait_nrow t loc = Ok (Z.of_nat (a_m ar)).
Proof.
  pose proof arr_bounds. pose proof (alen_pos ar).
  destruct (w_arr g (r_wf s g R) _ _ E) as (_ & _ & A1 & A2 & _).
  destruct (r_arr s g R _ _ E) as [(B1 & B2 & _) _].
  unfold ait_nrow. apply tget_int_ok; auto; [lia|]. unfold is_int32, min_int; lia.
Qed.

Lemma arr_ncol : ait_ncol t loc = Ok (Z.of_nat (a_n ar)).
Proof.
  pose proof arr_bounds. pose proof (alen_pos ar).
  destruct (w_arr g (r_wf s g R) _ _ E) as (_ & _ & A1 & A2 & _).
  destruct (r_arr s g R _ _ E) as [(B1 & B2 & _) _].
  unfold ait_ncol. apply tget_int_ok; auto; [lia|]. unfold is_int32, min_int; lia.
Qed.

Lemma arr_var_elem ids x : a_c ar = AVar ids -> (x < length ids)%nat ->
  tget_int t (loc + 2 + Z.of_nat x) = Ok (gloc g (nth x ids O)).
Proof.
  intros Ec Hx. pose proof arr_bounds as HB.
  destruct (w_arr g (r_wf s g R) _ _ E) as (_ & _ & A1 & A2 & A3).
  destruct (r_arr s g R _ _ E) as [_ B]. rewrite Ec in *. destruct A3 as [A3 A4].
  unfold alen in HB. rewrite Ec in HB. unfold zlen in HB.
  apply tget_int_ok; auto.
  - lia.
  - eapply ints_at_nth; eauto. rewrite nth_error_map, (nth_error_nth' ids O) by auto. reflexivity.
  - eapply loc_int; eauto. rewrite Forall_forall in A4. apply A4. apply nth_In; auto.
Qed.

Lemma arr_dat_elem ds x : a_c ar = ADat ds -> (x < length ds)%nat ->
  get_real_at t (loc + 2 + 2 * Z.of_nat x) = Ok (nth x ds f0).
Proof.
  intros Ec Hx. pose proof arr_bounds as HB.
  destruct (r_arr s g R _ _ E) as [_ B]. rewrite Ec in *.
  unfold alen in HB. rewrite Ec in HB. unfold zlen in HB.
  apply get_real_at_ok; try lia.
  eapply reals_at_nth; eauto. apply nth_error_nth'; auto.
Qed.

Lemma section_ok first n stride : 0 < stride ->
  forall last, last - first + stride = stride * Z.of_nat n + (last - first + stride - stride * Z.of_nat n) ->
  0 <= last - first + stride - stride * Z.of_nat n < stride ->
  section_idx first last stride = Ok (map (fun k => first + stride * Z.of_nat k) (seq 0 n)).
Proof.
  intros Hs last _ H. unfold section_idx. replace (stride =? 0) with false by lia.
  f_equal. f_equal. f_equal.
  set (q := last - first + stride) in *.
  rewrite Z.quot_div_nonneg by nia.
  assert (q / stride = Z.of_nat n) as ->; [|lia].
  symmetry. apply (Z.div_unique q stride (Z.of_nat n) (q - stride * Z.of_nat n)); lia.
Qed.

Lemma mapM_map {A B D} (f : A -> B) (h : B -> res D) l : mapM h (map f l) = mapM (fun x => h (f x)) l.
Proof. induction l as [|x l IH]; simpl; auto. rewrite IH. reflexivity. Qed.

Lemma conformZ_ok n l : length l = n -> conformZ n l = Ok l.
Proof. intros. unfold conformZ. rewrite (proj2 (Nat.eqb_eq _ _)); auto. Qed.
Lemma conform_ok n l : length l = n -> conform n l = Ok l.
Proof. intros. unfold conform. rewrite (proj2 (Nat.eqb_eq _ _)); auto. Qed.

Lemma ait_row_ok ids i : a_c ar = AVar ids -> (i < a_m ar)%nat ->
  ait_row t loc (Z.of_nat i + 1) = Ok (map (gloc g) (mrow O (a_m ar) (a_n ar) i ids)).
Proof.
  intros Ec Hi. unfold ait_row. rewrite arr_nrow, arr_ncol. cbn [bind].
  destruct (w_arr g (r_wf s g R) _ _ E) as (_ & _ & _ & _ & A3). rewrite Ec in A3. destruct A3 as [A3 _].
  rewrite (section_ok _ (a_n ar)) by nia. cbn [bind].
  rewrite mapM_map. rewrite (mapM_ok _ _ (fun j => gloc g (nth (i + j * a_m ar) ids O))).
  - cbn [bind]. rewrite Nat2Z.id, conformZ_ok by (rewrite map_length, seq_length; auto).
    unfold mrow. rewrite map_map. reflexivity.
  - intros j Hj. apply in_seq in Hj.
    replace (loc + 1 + (Z.of_nat i + 1) + Z.of_nat (a_m ar) * Z.of_nat j)
      with (loc + 2 + Z.of_nat (i + j * a_m ar)) by lia.
    apply arr_var_elem; auto. rewrite A3. nia.
Qed.

Lemma ait_col_ok ids j : a_c ar = AVar ids -> (j < a_n ar)%nat ->
  ait_col t loc (Z.of_nat j + 1) = Ok (map (gloc g) (mcol O (a_m ar) j ids)).
Proof.
  intros Ec Hj. unfold ait_col. rewrite arr_nrow. cbn [bind].
  destruct (w_arr g (r_wf s g R) _ _ E) as (_ & _ & _ & _ & A3). rewrite Ec in A3. destruct A3 as [A3 _].
  rewrite (section_ok _ (a_m ar)) by nia. cbn [bind].
  rewrite mapM_map. rewrite (mapM_ok _ _ (fun i => gloc g (nth (i + j * a_m ar) ids O))).
  - cbn [bind]. rewrite Nat2Z.id, conformZ_ok by (rewrite map_length, seq_length; auto).
    unfold mcol. rewrite map_map. reflexivity.
  - intros i Hi. apply in_seq in Hi.
    replace (loc + 1 + (Z.of_nat j + 1 - 1) * Z.of_nat (a_m ar) + 1 + 1 * Z.of_nat i)
      with (loc + 2 + Z.of_nat (i + j * a_m ar)) by lia.
    apply arr_var_elem; auto. rewrite A3. nia.
Qed.

Lemma zseq_map i n : zseq i n = map (fun k => i + Z.of_nat k) (seq 0 n).
Proof.
  revert i; induction n as [|n IH]; intros i; simpl; auto.
  f_equal; [lia|]. rewrite IH, <- seq_shift, map_map. apply map_ext. intros; lia.
Qed.

Lemma zseq2_map i n : zseq2 i n = map (fun k => i + 2 * Z.of_nat k) (seq 0 n).
Proof.
  revert i; induction n as [|n IH]; intros i; simpl; auto.
  f_equal; [lia|]. rewrite IH, <- seq_shift, map_map. apply map_ext. intros; lia.
Qed.

Lemma ait_data_row_ok ds i : a_c ar = ADat ds -> (i < a_m ar)%nat ->
  ait_data_row t loc (Z.of_nat i + 1) = Ok (mrow f0 (a_m ar) (a_n ar) i ds).
Proof.
  intros Ec Hi. unfold ait_data_row. rewrite arr_nrow, arr_ncol. cbn [bind].
  destruct (w_arr g (r_wf s g R) _ _ E) as (_ & _ & _ & _ & A3). rewrite Ec in A3.
  rewrite Nat2Z.id, zseq_map, mapM_map.
  rewrite (mapM_ok _ _ (fun j => nth (i + j * a_m ar) ds f0)); auto.
  intros j Hj. apply in_seq in Hj.
  replace (loc + 2 + 2 * (1 + Z.of_nat j - 1) * Z.of_nat (a_m ar) + 2 * (Z.of_nat i + 1 - 1))
    with (loc + 2 + 2 * Z.of_nat (i + j * a_m ar)) by lia.
  apply arr_dat_elem; auto. rewrite A3. nia.
Qed.

Lemma ait_data_col_ok ds j : a_c ar = ADat ds -> (j < a_n ar)%nat ->
  ait_data_col t loc (Z.of_nat j + 1) = Ok (mcol f0 (a_m ar) j ds).
Proof.
  intros Ec Hj. unfold ait_data_col. rewrite arr_nrow. cbn [bind].
  destruct (w_arr g (r_wf s g R) _ _ E) as (_ & _ & _ & _ & A3). rewrite Ec in A3.
  unfold get_real_array_at. rewrite Nat2Z.id, zseq2_map, mapM_map.
  rewrite (mapM_ok _ _ (fun i => nth (i + j * a_m ar) ds f0)); auto.
  intros i Hi. apply in_seq in Hi.
  replace (loc + 2 + (Z.of_nat j + 1 - 1) * Z.of_nat (a_m ar) * 2 + 2 * Z.of_nat i)
    with (loc + 2 + 2 * Z.of_nat (i + j * a_m ar)) by lia.
  apply arr_dat_elem; auto. rewrite A3. nia.
Qed.
End Arr.

(* ---- operand lists ---- *)

Section Chain.
Variables (s : st) (g : graph) (k : nat) (nd : node).
Hypothesis R : Rel s g.
Hypothesis E : nth_error (g_nodes g) k = Some nd.
Local Notation t := (s_tape s).

(* the outcome of a chain step with updates l *)
Definition stepped (r : res tape) (l : list (nat * F)) : Prop :=
  exists t', r = Ok t' /\ Rel (set_tape s t') (set_gadj g (apply_effect l (g_adj g))).

Lemma live_lt ks : Forall (fun j => (j < k)%nat) ks -> live g ks.
Proof.
  intros H. eapply Forall_impl; [|exact H]. intros j Hj. cbv beta in Hj.
  apply nth_error_lt in E. unfold gsize. lia.
Qed.

Lemma stepped_nil : stepped (Ok t) [].
Proof. exists t. split; auto. destruct s, g; exact R. Qed.

Lemma body_live ops ds : n_body nd = BRec ops ds -> live g ops.
Proof.
  intros Hb. destruct (w_node g (r_wf s g R) _ _ E) as (_ & _ & D). unfold body_ok in D. rewrite Hb in D.
  apply live_lt; auto.
Qed.

Lemma fold_adj_ok ks d : live g ks ->
  stepped (foldM add_adj (combine (map (gloc g) ks) d) t) (combine ks d).
Proof.
  intros Hl. rewrite combine_map_l. apply rel_add_adjs; auto.
  apply Forall_map_fst_combine; auto.
Qed.

Lemma set_by_index_ok ks d : live g ks -> (length ks <= length d)%nat ->
  stepped (set_operand_adj_by_index t (map (gloc g) ks) d) (combine ks d).
Proof.
  intros Hl Hlen. unfold set_operand_adj_by_index. rewrite map_length.
  rewrite (proj2 (Nat.leb_le _ _) Hlen). apply fold_adj_ok; auto.
Qed.

Lemma dot_vv_ok r c :
  live g r -> live g c -> ~ In k r -> length r = length c ->
  stepped (chain_dot_product_vv t (gloc g k) (map (gloc g) r) (map (gloc g) c))
    (combine r (map (fun x => fmul (g_adj g k) (gval g x)) c) ++
     combine c (map (fun x => fmul (g_adj g k) (gval g x)) r)).
Proof.
  intros Hr Hc Hk Hlen. pose proof (nth_error_lt _ _ _ E) as Lk. unfold chain_dot_product_vv.
  rewrite (rel_adj_at s g R) by exact Lk. cbn [bind].
  rewrite (rel_maploc g _ (gval g)); auto; [|apply rel_val_at; auto]. cbn [bind].
  rewrite conform_ok by (rewrite !map_length; auto). cbn [bind]. rewrite map_map.
  destruct (set_by_index_ok r (map (fun x => fmul (g_adj g k) (gval g x)) c) Hr) as (t1 & E1 & R1).
  { rewrite map_length. lia. }
  rewrite E1. cbn [bind].
  set (l1 := combine r _) in *. set (g1 := set_gadj g _) in R1.
  change t1 with (s_tape (set_tape s t1)).
  change (gloc g) with (gloc g1).
  rewrite (rel_adj_at _ _ R1) by exact Lk. cbn [bind].
  rewrite (rel_maploc g1 _ (gval g1)); auto; [|apply rel_val_at; auto]. cbn [bind]. rewrite map_map.
  assert (A : g_adj g1 k = g_adj g k).
  { simpl. unfold l1. clear -Hk. unfold apply_effect. generalize (map (fun x => fmul (g_adj g k) (gval g x)) c).
    generalize (g_adj g). induction r as [|x r IH]; intros f [|d l]; simpl; auto.
    rewrite IH by (intros H; apply Hk; right; auto). unfold addto, nupd; simpl.
    destruct (Nat.eqb_spec k x); auto. subst. exfalso. apply Hk. left; auto. }
  rewrite A. change (gval g1) with (gval g).
  unfold set_operand_adj_by_index. rewrite !map_length.
  rewrite (proj2 (Nat.leb_le _ _)) by lia.
  rewrite combine_map_l.
  destruct (rel_add_adjs (set_tape s t1) g1 (combine c (map (fun x => fmul (g_adj g k) (gval g x)) r)) R1)
    as (t2 & E2 & R2).
  { apply Forall_map_fst_combine. exact Hc. }
  exists t2. split; [exact E2|].
  unfold apply_effect in *. rewrite fold_left_app. exact R2.
Qed.

Lemma dot_vd_ok r d : live g r -> (length r <= length d)%nat ->
  stepped (chain_dot_product_vd t (gloc g k) (map (gloc g) r) d)
          (combine r (map (fmul (g_adj g k)) d)).
Proof.
  intros Hr Hlen. pose proof (nth_error_lt _ _ _ E) as Lk. unfold chain_dot_product_vd.
  rewrite (rel_adj_at s g R) by exact Lk. cbn [bind].
  apply set_by_index_ok; auto. rewrite map_length. auto.
Qed.

Section Rec.
Variables (ops : list nat) (ds : list F).
Hypothesis Hb : n_body nd = BRec ops ds.

Lemma loc_nd : gloc g k = n_loc nd.
Proof. apply gloc_eq; auto. Qed.

Lemma c_val : val_at t (gloc g k) = Ok (n_val nd).
Proof. rewrite loc_nd. eapply rec_val. apply (rel_rec s g R k nd E). Qed.
Lemma c_adj : adj_at t (gloc g k) = Ok (g_adj g k).
Proof. rewrite loc_nd. eapply rec_adj. apply (rel_rec s g R k nd E). Qed.
Lemma c_nop : n_operand t (gloc g k) = Ok (zlen ops).
Proof.
  rewrite loc_nd. pose proof (rel_rec s g R k nd E) as H. apply rec_n_operand in H.
  rewrite Hb in H. simpl in H. unfold zlen in H. rewrite map_length in H. exact H.
Qed.
Lemma c_idx : operand_index t (gloc g k) = Ok (map (gloc g) ops).
Proof.
  rewrite loc_nd. pose proof (rel_rec s g R k nd E) as H. apply rec_operand_index in H.
  rewrite Hb in H. exact H.
Qed.
Lemma c_dat : data_operand t (gloc g k) = Ok ds.
Proof.
  rewrite loc_nd. pose proof (rel_rec s g R k nd E) as H. apply rec_data_operand in H.
  rewrite Hb in H. exact H.
Qed.
Lemma c_opv : operand_val t (gloc g k) = Ok (map (gval g) ops).
Proof.
  unfold operand_val. rewrite c_idx. cbn [bind]. apply rel_maploc.
  - apply rel_val_at; auto.
  - eapply body_live; eauto.
Qed.

Lemma soa_ok d : (length ops <= length d)%nat ->
  stepped (set_operand_adj_all t (gloc g k) d) (combine ops d).
Proof.
  intros Hlen. unfold set_operand_adj_all. rewrite c_nop. cbn [bind].
  unfold explicit_dummy, zlen. rewrite Nat2Z.id, (proj2 (Nat.leb_le _ _) Hlen). cbn [bind].
  rewrite c_idx. cbn [bind]. rewrite <- (combine_firstn_r ops d). apply fold_adj_ok.
  eapply body_live; eauto.
Qed.

Lemma chain1_ok e x : ops = [x] ->
  stepped (chain1 e t (gloc g k)) (combine ops [e (n_val nd) (g_adj g k) (gval g x)]).
Proof.
  intros Ho. unfold chain1. rewrite c_opv. cbn [bind]. rewrite conform_ok by (rewrite Ho; reflexivity).
  cbn [bind]. rewrite c_val, c_adj. cbn [bind]. replace (at1 (map (gval g) ops)) with (gval g x) by (rewrite Ho; reflexivity).
  apply soa_ok. rewrite Ho; simpl; lia.
Qed.

Lemma chain1v_ok e : (length ops <= 1)%nat ->
  stepped (chain1v e t (gloc g k)) (combine ops [e (n_val nd) (g_adj g k)]).
Proof.
  intros Ho. unfold chain1v. rewrite c_val, c_adj. cbn [bind]. apply soa_ok. simpl; lia.
Qed.

(* a stale chain on a record without operands *)
Lemma leaf_ok ch : ops = [] -> ds = [] -> leaf_safe ch = true ->
  stepped (run_chain ch (gloc g k) t) [].
Proof.
  intros Ho Hd Hs. change (@nil (nat * F)) with (combine (@nil nat) (@nil F)).
  assert (S : forall d, stepped (set_operand_adj_all t (gloc g k) d) []).
  { intros d. pose proof (soa_ok d) as H. rewrite Ho in H. simpl in H. apply H. lia. }
  assert (V : operand_val t (gloc g k) = Ok []) by (rewrite c_opv, Ho; reflexivity).
  assert (D : data_operand t (gloc g k) = Ok []) by (rewrite c_dat, Hd; reflexivity).
  assert (I : operand_index t (gloc g k) = Ok []) by (rewrite c_idx, Ho; reflexivity).
  assert (NO : n_operand t (gloc g k) = Ok 0) by (rewrite c_nop, Ho; reflexivity).
  assert (X : forall n, (match junk with None => False | Some _ => True end \/ n = O) -> exists l, conform n [] = Ok l).
  { intros n [HJ| ->]; unfold conform; [|simpl; eauto].
    destruct (Nat.eqb (length (@nil F)) n); [eauto|].
    revert HJ. destruct junk; [eauto|intros []]. }
  assert (J : sizeless ch = true \/ match junk with None => False | Some _ => True end).
  { revert Hs. unfold leaf_safe. destruct junk; auto. }
  assert (P : forall ch', is_mat ch' = true -> leaf_safe ch' = true -> False).
  { intros ch' M. unfold leaf_safe. destruct junk; destruct ch'; simpl in M; try discriminate; simpl; discriminate. }
  pose proof c_val as CV. pose proof c_adj as CA.
  destruct ch; simpl in J; try (exfalso; eapply P; [|exact Hs]; reflexivity);
    cbn [run_chain]; unfold chain1, chain1v, chain_dot_product_vd;
    try (destruct J as [J|J]; [discriminate J|]);
    rewrite ?V, ?D, ?I, ?NO; cbn [bind map];
    try (destruct (X 1%nat (or_introl J)) as [l1 E1]; rewrite E1; cbn [bind]);
    try (destruct (X 2%nat (or_introl J)) as [l2 E2]; rewrite E2; cbn [bind]);
    rewrite ?V, ?D, ?I, ?NO, ?CV, ?CA; cbn [bind map];
    try (destruct (X 1%nat (or_introl J)) as [l3 E3]; rewrite E3; cbn [bind]);
    rewrite ?CV, ?CA; cbn [bind];
    try match goal with |- stepped (if ?b then _ else _) _ => destruct b end;
    try apply S; try apply stepped_nil;
    change (Z.to_nat 0) with O;
    try (rewrite conform_ok by reflexivity; cbn [bind]; rewrite ?CV, ?CA; cbn [bind]; apply S).
  - (* dot_product of no operands *)
    change (Z.to_nat (0 ÷ 2)) with O. cbn [firstn skipn].
    unfold chain_dot_product_vv. rewrite CA. cbn [bind mapM]. rewrite conform_ok by reflexivity.
    cbn [bind set_operand_adj_by_index length Nat.leb combine foldM map]. rewrite CA. cbn [bind].
    apply stepped_nil.
Qed.
End Rec.

Lemma adj_k_not_in ks : Forall (fun j => (j < k)%nat) ks -> ~ In k ks.
Proof. intros H Hi. rewrite Forall_forall in H. specialize (H _ Hi). lia. Qed.

Lemma step_ok l : effect g k = Some l ->
  stepped (run_chain (g_ch g k) (gloc g k) t) l.
Proof.
  unfold effect. rewrite E. destruct (n_body nd) as [ops ds|i j ia ib] eqn:Hb.
  - destruct (contrib _ _ _ _ _) as [c|] eqn:Ec; [|discriminate]. cbn [option_map].
    intros H; inversion H; subst l; clear H.
    destruct (w_node g (r_wf s g R) _ _ E) as (_ & _ & D). unfold body_ok in D. rewrite Hb in D.
    pose proof (c_val) as CV. pose proof c_adj as CA.
    pose proof (c_opv ops ds Hb) as CO. pose proof (c_dat ops ds Hb) as CD.
    pose proof (c_idx ops ds Hb) as CI. pose proof (c_nop ops ds Hb) as CN.
    destruct (is_nil (map (gval g) ops) && is_nil ds) eqn:EL.
    { assert (ops = [] /\ ds = []) as [Ho Hd].
      { destruct ops; simpl in EL; [|discriminate]. destruct ds; simpl in EL; [auto|discriminate]. }
      assert (stepped (run_chain (g_ch g k) (gloc g k) t) []) as Hst.
      { destruct (leaf_safe (g_ch g k)) eqn:EF.
        - eapply leaf_ok; eauto.
        - unfold contrib in Ec. rewrite EL, EF in Ec. destruct (g_ch g k); try discriminate Ec.
          apply stepped_nil. }
      rewrite Ho at 1. simpl combine. exact Hst. }
    unfold contrib in Ec. rewrite EL in Ec. clear EL.
    destruct (g_ch g k) eqn:ECh; cbn [run_chain];
      try (inversion Ec; subst c; destruct ops; apply stepped_nil);
      (* fixed arity *)
      try (destruct ops as [|x1 ops]; cbn [map] in Ec; [discriminate Ec|];
           first [ destruct ops as [|x2 ops]; cbn [map] in Ec; [|discriminate Ec]
                 | destruct ops as [|x2 ops]; cbn [map] in Ec; [discriminate Ec|];
                   destruct ops as [|x3 ops]; cbn [map] in Ec; [|discriminate Ec] ]);
      try (destruct ds as [|d1 [|d2 ds]]; [discriminate Ec| |discriminate Ec]);
      try (inversion Ec; subst c; clear Ec);
      try refine (chain1_ok _ _ Hb _ x1 eq_refl);
      try (apply (chain1v_ok _ _ Hb); simpl; lia);
      rewrite ?CO, ?CD, ?CN; cbn [bind];
      rewrite ?conform_ok by reflexivity; cbn [bind];
      rewrite ?CO, ?CD, ?CN, ?CV, ?CA; cbn [bind];
      rewrite ?conform_ok by reflexivity; cbn [bind];
      rewrite ?CV, ?CA; cbn [bind];
      try (apply (soa_ok _ _ Hb); simpl; lia).
    + change (at1 (map (gval g) [x1; x2])) with (gval g x1). destruct (fne (gval g x1) f0);
        [apply (soa_ok _ _ Hb); simpl; lia|apply stepped_nil].
    + change (at1 (map (gval g) [x1])) with (gval g x1). destruct (fne (gval g x1) f0);
        [apply (soa_ok _ _ Hb); simpl; lia|apply stepped_nil].
    + change (at1 [d1]) with d1. destruct (fne d1 f0);
        [apply (soa_ok _ _ Hb); simpl; lia|apply stepped_nil].
    + rewrite conform_ok by (unfold zlen; rewrite Nat2Z.id, map_length; auto). cbn [bind].
      apply (soa_ok _ _ Hb). rewrite !map_length; lia.
    + destruct (is_nan_d (n_val nd)); [apply (soa_ok _ _ Hb); simpl; lia|apply stepped_nil].
    + assert (ES : forall y : F, repeat y (Z.to_nat (zlen ops)) = map (fun _ => y) (map (gval g) ops)).
      { intros y. unfold zlen. rewrite Nat2Z.id. clear. induction ops; simpl; f_equal; auto. }
      rewrite ES. apply (soa_ok _ _ Hb). rewrite !map_length; lia.
    + rewrite conform_ok by (unfold zlen; rewrite Nat2Z.id, map_length; auto). cbn [bind].
      apply (soa_ok _ _ Hb). rewrite !map_length; lia.
    + rewrite conform_ok by (unfold zlen; rewrite Nat2Z.id, map_length; auto). cbn [bind].
      apply (soa_ok _ _ Hb). rewrite !map_length; lia.
    + (* dot_product, two variable arrays *)
      rewrite CI. cbn [bind].
      set (n := Nat.div2 (length (map (gval g) ops))) in *.
      destruct (Nat.eqb_spec (length (map (gval g) ops)) (2 * n)) as [En|En]; [|discriminate Ec].
      rewrite map_length in En. inversion Ec; subst c; clear Ec.
      assert (Z.to_nat (zlen ops ÷ 2) = n) as ->.
      { unfold zlen. rewrite En. rewrite Z.quot_div_nonneg by lia. 
        replace (Z.of_nat (2 * n)) with (Z.of_nat n * 2) by lia. rewrite Z.div_mul by lia. lia. }
      rewrite skipn_map, !firstn_map, skipn_map.
      assert (ES : firstn n (skipn n ops) = skipn n ops).
      { apply firstn_all2. rewrite skipn_length. lia. }
      rewrite ES, !map_map.
      pose proof (body_live _ _ Hb) as HL. unfold live in HL.
      rewrite <- (firstn_skipn n ops) in HL, D.
      apply Forall_app in HL. destruct HL as [HL1 HL2].
      apply Forall_app in D. destruct D as [D1 D2].
      rewrite <- (firstn_skipn n ops) at 3.
      rewrite combine_app by (rewrite map_length, firstn_length, skipn_length; lia).
      apply dot_vv_ok; auto.
      * apply adj_k_not_in; auto.
      * rewrite firstn_length, skipn_length; lia.
    + rewrite CI. cbn [bind].
      destruct (Nat.eqb_spec (length (map (gval g) ops)) (length ds)) as [En|En]; [|discriminate Ec].
      inversion Ec; subst c. rewrite map_length in En.
      rewrite ?CD. cbn [bind]. apply dot_vd_ok; [eapply body_live; eauto|lia].
    + destruct (Nat.eqb_spec (length (map (gval g) ops)) (length ds)) as [En|En]; [|discriminate Ec].
      inversion Ec; subst c. rewrite map_length in En.
      rewrite conform_ok by (unfold zlen; rewrite Nat2Z.id, map_length; auto). cbn [bind].
      apply (soa_ok _ _ Hb). rewrite map_length; lia.
  - (* entry of a matrix product *)
    destruct (w_node g (r_wf s g R) _ _ E) as (L0 & L1 & D). unfold body_ok in D. rewrite Hb in D.
    destruct D as (_ & _ & (ra & D1 & D2) & (rb & D3 & D4)). rewrite D1, D3.
    assert (LT : forall ar a x, nth_error (g_arrs g) a = Some ar -> a_loc ar + alen ar <= n_loc nd ->
       match a_c ar with AVar l => In x l | ADat _ => False end -> (x < k)%nat).
    { intros ar a x Ea La Hx. destruct (w_arr g (r_wf s g R) _ _ Ea) as (_ & _ & _ & _ & A5).
      destruct (a_c ar); [|destruct Hx]. destruct A5 as [_ A5]. rewrite Forall_forall in A5.
      destruct (A5 x Hx) as [A6 A7]. destruct (Nat.lt_ge_cases x k) as [|Hge]; auto. exfalso.
      destruct (lt_nth_error _ _ A6) as [nx Ex]. rewrite (gloc_eq g _ _ Ex) in A7.
      pose proof (alen_pos ar). destruct (Nat.eq_dec x k) as [->|Hne].
      - assert (nx = nd) by congruence. subst. lia.
      - pose proof (w_order g (r_wf s g R) k x nd nx ltac:(lia) E Ex).
        pose proof (bwidth_pos (n_body nd)). unfold nwidth in *. lia. }
    pose proof (rel_rec s g R k nd E) as HR. rewrite Hb in HR. simpl in HR.
    rewrite <- loc_nd in HR.
    assert (MI : mat_info t (gloc g k) = Ok [Z.of_nat i + 1; Z.of_nat j + 1; a_loc ra; a_loc rb]).
    { unfold mat_info. apply rec_operand_index in HR. rewrite HR. cbn [bind].
      unfold galoc. rewrite D1, D3. apply conformZ_ok. reflexivity. }
    destruct (g_ch g k) eqn:ECh; try discriminate.
    + intros H; inversion H; subst l. apply stepped_nil.
    + destruct ra as [m kk [la|da] l1], rb as [kk' n [lb|db] l2]; try discriminate.
      destruct (Nat.ltb_spec i m), (Nat.ltb_spec j n), (Nat.eqb_spec kk kk'); try discriminate.
      cbn [andb]. intros Hl; inversion Hl; subst l kk'; clear Hl.
      cbn [run_chain]. rewrite MI. cbn [bind zat nth].
      rewrite (ait_row_ok s g ia _ R D1 la i eq_refl) by auto. cbn [bind a_m a_n].
      rewrite (ait_col_ok s g ib _ R D3 lb j eq_refl) by auto. cbn [bind a_m a_n].
      destruct (w_arr g (r_wf s g R) _ _ D1) as (_ & _ & _ & _ & A5). simpl in A5. destruct A5 as [A5 _].
      destruct (w_arr g (r_wf s g R) _ _ D3) as (_ & _ & _ & _ & B5). simpl in B5. destruct B5 as [B5 _].
      assert (HA : Forall (fun x => (x < k)%nat) (mrow O m kk i la)).
      { unfold mrow. apply Forall_map, Forall_forall. intros x Hx. apply in_seq in Hx.
        eapply (LT _ _ _ D1); [auto|]. simpl. apply nth_In. rewrite A5. nia. }
      assert (HB : Forall (fun x => (x < k)%nat) (mcol O kk j lb)).
      { unfold mcol. apply Forall_map, Forall_forall. intros x Hx. apply in_seq in Hx.
        eapply (LT _ _ _ D3); [auto|]. simpl. apply nth_In. rewrite B5. nia. }
      apply dot_vv_ok.
      * apply live_lt; auto.
      * apply live_lt; auto.
      * apply adj_k_not_in; auto.
      * unfold mrow, mcol. rewrite !map_length, !seq_length. auto.
    + destruct ra as [m kk [la|da] l1], rb as [kk' n [lb|db] l2]; try discriminate.
      destruct (Nat.ltb_spec i m), (Nat.ltb_spec j n), (Nat.eqb_spec kk kk'); try discriminate.
      cbn [andb]. intros Hl; inversion Hl; subst l kk'; clear Hl.
      cbn [run_chain]. rewrite MI. cbn [bind zat nth].
      rewrite (ait_row_ok s g ia _ R D1 la i eq_refl) by auto. cbn [bind a_m a_n].
      rewrite (ait_data_col_ok s g ib _ R D3 db j eq_refl) by auto. cbn [bind a_m a_n].
      destruct (w_arr g (r_wf s g R) _ _ D1) as (_ & _ & _ & _ & A5). simpl in A5. destruct A5 as [A5 _].
      apply dot_vd_ok.
      * apply live_lt. unfold mrow. apply Forall_map, Forall_forall. intros x Hx. apply in_seq in Hx.
        eapply (LT _ _ _ D1); [auto|]. simpl. apply nth_In. rewrite A5. nia.
      * unfold mrow, mcol. rewrite !map_length, !seq_length. auto.
    + destruct ra as [m kk [la|da] l1], rb as [kk' n [lb|db] l2]; try discriminate.
      destruct (Nat.ltb_spec i m), (Nat.ltb_spec j n), (Nat.eqb_spec kk kk'); try discriminate.
      cbn [andb]. intros Hl; inversion Hl; subst l kk'; clear Hl.
      cbn [run_chain]. rewrite MI. cbn [bind zat nth].
      rewrite (ait_data_row_ok s g ia _ R D1 da i eq_refl) by auto. cbn [bind a_m a_n].
      rewrite (ait_col_ok s g ib _ R D3 lb j eq_refl) by auto. cbn [bind a_m a_n].
      destruct (w_arr g (r_wf s g R) _ _ D3) as (_ & _ & _ & _ & B5). simpl in B5. destruct B5 as [B5 _].
      apply dot_vd_ok.
      * apply live_lt. unfold mcol. apply Forall_map, Forall_forall. intros x Hx. apply in_seq in Hx.
        eapply (LT _ _ _ D3); [auto|]. simpl. apply nth_In. rewrite B5. nia.
      * unfold mrow, mcol. rewrite !map_length, !seq_length. auto.
Qed.
End Chain.

(* ---- sweeps ---- *)

Lemma rel_chain_at s g k l : Rel s g -> (k < gsize g)%nat -> effect g k = Some l ->
  exists s', chain_at s (hd k) = Ok s' /\ Rel s' (set_gadj g (apply_effect l (g_adj g))).
Proof.
  intros R Hk He. unfold chain_at. rewrite (rel_vget s g R) by auto. cbn [bind v_chain v_i].
  destruct (lt_nth_error _ _ Hk) as [nd E].
  destruct (step_ok s g k nd R E l He) as (t' & E' & R'). rewrite E'. cbn [bind]. eauto.
Qed.

Lemma zdown_S hi n : zdown hi (S n) = hi :: zdown (hi - 1) n.
Proof. reflexivity. Qed.

Lemma sweep_ok n lo s g g' : Rel s g -> (lo + n <= gsize g)%nat -> asweep lo n g = Some g' ->
  exists s', foldM chain_at (zdown (hd lo + Z.of_nat n - 1) n) s = Ok s' /\ Rel s' g'.
Proof.
  revert s g. induction n as [|n IH]; intros s g R Hn Hs.
  - simpl in *. inversion Hs; subst. eauto.
  - cbn [asweep] in Hs. destruct (effect g (lo + n)) as [l|] eqn:He; [|discriminate].
    rewrite zdown_S. cbn [foldM].
    replace (hd lo + Z.of_nat (S n) - 1) with (hd (lo + n)) by (unfold hd; lia).
    destruct (rel_chain_at s g (lo + n) l R ltac:(lia) He) as (s1 & E1 & R1). rewrite E1. cbn [bind].
    destruct (IH _ _ R1) as (s2 & E2 & R2); auto.
    + unfold gsize in *; simpl. lia.
    + exists s2. split; [|exact R2].
      replace (hd (lo + n) - 1) with (hd lo + Z.of_nat n - 1) by (unfold hd; lia). exact E2.
Qed.

Lemma down_to_eq g lo : down_to (Z.of_nat (gsize g)) (hd lo) =
  zdown (hd lo + Z.of_nat (gsize g - lo) - 1) (gsize g - lo).
Proof.
  unfold down_to, hd. destruct (Nat.le_gt_cases lo (gsize g)).
  - f_equal; lia.
  - replace (gsize g - lo)%nat with O by lia.
    replace (Z.to_nat (Z.of_nat (gsize g) - (Z.of_nat lo + 1) + 1)) with O by lia. reflexivity.
Qed.

Lemma asweep_nodes lo n g g' : asweep lo n g = Some g' ->
  g_nodes g' = g_nodes g /\ g_arrs g' = g_arrs g /\ g_ch g' = g_ch g /\ g_nest g' = g_nest g /\
  g_top g' = g_top g /\ g_peak g' = g_peak g.
Proof.
  revert g; induction n as [|n IH]; intros g H.
  - inversion H; subst; auto 10.
  - cbn [asweep] in H. destruct (effect g (lo + n)); [|discriminate]. apply IH in H. exact H.
Qed.

Theorem grad_ok s g k g' : Rel s g -> agrad k g = Some g' ->
  exists s', grad (hd k) s = Ok (tt, s') /\ Rel s' g'.
Proof.
  intros R. unfold agrad. destruct (Nat.ltb_spec k (gsize g)) as [Hk|]; [|discriminate]. intros Hs.
  unfold grad, mput. destruct (rel_set_var_adj s g k f1 R Hk) as (s1 & E1 & R1). rewrite E1. cbn [bind].
  rewrite (r_head _ _ R1).
  change (gsize (set_gadj g (nupd (g_adj g) k f1))) with (gsize g).
  replace (Z.of_nat (gsize g) + 1 - 1) with (Z.of_nat (gsize g)) by lia.
  change 1 with (hd 0). rewrite down_to_eq, Nat.sub_0_r.
  destruct (sweep_ok (gsize g) 0 s1 _ g' R1) as (s2 & E2 & R2); auto.
  rewrite E2. cbn [bind]. eauto.
Qed.

Lemma zero_ok n lo s g : Rel s g -> (lo + n <= gsize g)%nat ->
  exists s', foldM (fun s i => set_var_adj i f0 s) (zdown (hd lo + Z.of_nat n - 1) n) s = Ok s' /\
    Rel s' (set_gadj g (fun j => if Nat.leb lo j && Nat.ltb j (lo + n) then f0 else g_adj g j)).
Proof.
  revert s g. induction n as [|n IH]; intros s g R Hn.
  - exists s. split; auto. 
    destruct R as [q1 q2 q3 q4 q5 q6 q7 q8 q9 q10 q11 q12 q13 q14]. constructor; auto.
    + apply gwf_set_gadj; auto.
    + intros k nd E. simpl. replace (Nat.leb lo k && Nat.ltb k (lo + 0))%bool with false by lia.
      apply q10. auto.
  - rewrite zdown_S. cbn [foldM].
    replace (hd lo + Z.of_nat (S n) - 1) with (hd (lo + n)) by (unfold hd; lia).
    destruct (rel_set_var_adj s g (lo + n) f0 R ltac:(lia)) as (s1 & E1 & R1). rewrite E1. cbn [bind].
    destruct (IH _ _ R1) as (s2 & E2 & R2).
    + unfold gsize in *; simpl. lia.
    + exists s2. split.
      * replace (hd (lo + n) - 1) with (hd lo + Z.of_nat n - 1) by (unfold hd; lia). exact E2.
      * destruct R2 as [q1 q2 q3 q4 q5 q6 q7 q8 q9 q10 q11 q12 q13 q14]. constructor; auto.
        -- apply gwf_set_gadj. apply (r_wf _ _ R).
        -- intros k nd E. specialize (q10 k nd E). simpl in *. unfold nupd in q10.
           destruct (Nat.leb_spec lo k), (Nat.ltb_spec k (lo + n)), (Nat.ltb_spec k (lo + S n)),
             (Nat.eqb_spec k (lo + n)); simpl in *; try lia; exact q10.
Qed.

Theorem zero_all_ok s g : Rel s g ->
  exists s', set_zero_all_adj s = Ok (tt, s') /\ Rel s' (azero_from 0 g).
Proof.
  intros R. unfold set_zero_all_adj, mput. rewrite (r_head s g R).
  replace (Z.of_nat (gsize g) + 1 - 1) with (Z.of_nat (gsize g)) by lia.
  change 1 with (hd 0). rewrite down_to_eq, Nat.sub_0_r.
  destruct (zero_ok (gsize g) 0 s g R) as (s' & E & R'); auto. rewrite E. cbn [bind]. eauto.
Qed.

End RefineChain.
