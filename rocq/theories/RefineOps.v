(* Every library call refines the abstract machine, hence every client does. *)
From Verif Require Import TapeFacts.
From Coq Require Import ZifyBool ZifyNat.
From Verif Require Export Session RefineChain.

Section RefineOps.
Context {N : Num} {RL : RepLaws N} {C : Cfg N}.

Lemma wp_mbind {A B} (ov : Prop) (m : M A) (f : A -> M B) s Q :
  wp ov (m s) (fun p => wp ov (f (fst p) (snd p)) Q) -> wp ov (mbind m f s) Q.
Proof.
  intros H. unfold mbind. apply wp_bind. eapply wp_mono; [exact H|auto|]. intros [a s']. auto.
Qed.

Lemma mbind_ok {A B} (m : M A) (f : A -> M B) s a s' :
  m s = Ok (a, s') -> mbind m f s = f a s'.
Proof. unfold mbind. intros ->. reflexivity. Qed.

Lemma mbind2_ok {A B D} (m : M A) (f : A -> M B) (h : B -> M D) s a s' :
  m s = Ok (a, s') -> mbind (mbind m f) h s = mbind (f a) h s'.
Proof. unfold mbind. intros ->. reflexivity. Qed.

(* ---- reads ---- *)

Lemma rel_vval s g k : Rel s g -> (k < gsize g)%nat -> vval (hd k) s = Ok (gval g k, s).
Proof. intros R H. unfold vval, mget. rewrite (rel_var_val s g R) by auto. reflexivity. Qed.
Lemma rel_vadj s g k : Rel s g -> (k < gsize g)%nat -> vadj (hd k) s = Ok (g_adj g k, s).
Proof. intros R H. unfold vadj, mget. rewrite (rel_var_adj s g R) by auto. reflexivity. Qed.
Lemma rel_vvals s g ks : Rel s g -> live g ks -> vvals (map hd ks) s = Ok (map (gval g) ks, s).
Proof.
  intros R H. unfold vvals, mget. rewrite (rel_map g _ (gval g)); auto. apply rel_var_val; auto.
Qed.
Lemma rel_vadjs s g ks : Rel s g -> live g ks -> vadjs (map hd ks) s = Ok (map (g_adj g) ks, s).
Proof.
  intros R H. unfold vadjs, mget. rewrite (rel_map g _ (g_adj g)); auto. apply rel_var_adj; auto.
Qed.
Lemma rel_vis s g ks : Rel s g -> live g ks ->
  mget (fun s => mapM (vi_index s) (map hd ks)) s = Ok (map (gloc g) ks, s).
Proof.
  intros R H. unfold mget. rewrite (rel_map g _ (gloc g)); auto. apply rel_vi_index; auto.
Qed.

(* ---- new records ---- *)

(* the overflow excuse of a step that ends in g' *)
Definition excused (ov : Prop) (g' : graph) : Prop := cap < g_peak g' -> ov.

Lemma pushes_val ov s g v ch :
  cfg_ok C -> Rel s g -> excused ov (a_new g v (BRec [] []) ch) ->
  pushes ov (fun t => push_val t v) (s_tape s) v (zops g (BRec [] [])) (bdata (BRec [] [])).
Proof.
  intros HC R Hov. unfold pushes. simpl. change (rec_len [] []) with 6.
  apply push_val_ok; auto.
  - apply (r_twf s g R).
  - rewrite (r_thead s g R). unfold excused in Hov; simpl in Hov. unfold zlen in Hov; simpl in Hov.
    intros. apply Hov. lia.
Qed.

Lemma pushes_op ov s g v b ch :
  cfg_ok C -> Rel s g -> bdata b = [] -> excused ov (a_new g v b ch) ->
  pushes ov (fun t => push_val_op t v (zops g b)) (s_tape s) v (zops g b) (bdata b).
Proof.
  intros HC R Hb Hov. unfold pushes. rewrite Hb.
  apply push_val_op_ok; auto.
  - apply (r_twf s g R).
  - rewrite (r_thead s g R), <- Hb, <- bwidth_zops. unfold excused in Hov; simpl in Hov.
    intros. apply Hov. lia.
Qed.

Lemma pushes_op_dop ov s g v b ch :
  cfg_ok C -> Rel s g -> excused ov (a_new g v b ch) ->
  pushes ov (fun t => push_val_op_dop t v (zops g b) (bdata b)) (s_tape s) v (zops g b) (bdata b).
Proof.
  intros HC R Hov. unfold pushes.
  apply push_val_op_dop_ok; auto.
  - apply (r_twf s g R).
  - rewrite (r_thead s g R), <- bwidth_zops. unfold excused in Hov; simpl in Hov.
    intros. apply Hov. lia.
Qed.

Definition yields (ov : Prop) (r : res (Z * st)) (k : nat) (g : graph) : Prop :=
  wp ov r (fun p => fst p = hd k /\ Rel (snd p) g).

Section WithCfg.
Hypothesis HC : cfg_ok C.

Lemma new_vari_val_ok ov s g v : Rel s g -> excused ov (a_new g v (BRec [] []) None) ->
  yields ov (new_vari_val v s) (gsize g) (a_new g v (BRec [] []) None).
Proof.
  intros R Hov. unfold new_vari_val. apply rel_new_vari; auto.
  - simpl. constructor.
  - eapply pushes_val; eauto.
Qed.

Lemma new_var_val_eq v : new_var_val v = new_vari_val v.
Proof. unfold new_var_val. reflexivity. Qed.

Lemma new_var_val_ok ov s g v : Rel s g -> excused ov (a_new g v (BRec [] []) None) ->
  yields ov (new_var_val v s) (gsize g) (a_new g v (BRec [] []) None).
Proof. rewrite new_var_val_eq. apply new_vari_val_ok. Qed.

Lemma new_var_eq s : new_var s = bind (alloc_vari_stack_1 s) (fun s1 => new_vari_val f0 s1).
Proof. unfold new_var, new_vari. reflexivity. Qed.

Lemma new_var_ok ov s g : Rel s g -> excused ov (a_new g f0 (BRec [] []) None) ->
  yields ov (new_var s) (gsize g) (a_new g f0 (BRec [] []) None).
Proof.
  intros R Hov. rewrite new_var_eq.
  destruct (alloc_vari_ok s g HC R) as (s1 & E1 & R1 & _). rewrite E1. cbn [bind].
  exact (new_vari_val_ok ov s1 g f0 R1 Hov).
Qed.

Lemma set_chain_new ov g v b s ch :
  wp ov (new_vari_with b s) (fun p => fst p = hd (gsize g) /\ Rel (snd p) (a_new g v ch None)) ->
  forall c, yields ov (mbind (new_vari_with b) (fun s0 => mbind (set_chain s0 c) (fun _ => mret s0)) s)
     (gsize g) (a_new g v ch (Some c)).
Proof.
  intros H c. unfold yields. apply wp_mbind. eapply wp_mono; [exact H|auto|].
  intros [h s1] [Hh R1]. cbn [fst snd] in *. subst h.
  destruct (rel_set_chain s1 _ (gsize g) c R1) as (s2 & E2 & R2).
  { unfold gsize; simpl. rewrite app_length; simpl. lia. }
  rewrite (mbind_ok _ _ _ _ _ E2). simpl. split; [auto|]. exact R2.
Qed.

Lemma record_op_ok ov s g v ops ch : Rel s g -> live g ops ->
  excused ov (a_new g v (BRec ops []) (Some ch)) ->
  yields ov (record_op v (map hd ops) ch s) (gsize g) (a_new g v (BRec ops []) (Some ch)).
Proof.
  intros R Hl Hov. unfold record_op, new_var_val_op.
  rewrite (mbind2_ok _ _ _ _ _ _ (rel_vis s g ops R Hl)).
  unfold new_vari_val_op. apply set_chain_new. apply rel_new_vari; auto.
  eapply (pushes_op ov s g v (BRec ops [])); eauto.
Qed.

Lemma record_op_d_ok ov s g v ops ds ch : Rel s g -> live g ops ->
  excused ov (a_new g v (BRec ops ds) (Some ch)) ->
  yields ov (record_op_d v (map hd ops) ds ch s) (gsize g) (a_new g v (BRec ops ds) (Some ch)).
Proof.
  intros R Hl Hov. unfold record_op_d, new_var_val_op_dop.
  rewrite (mbind2_ok _ _ _ _ _ _ (rel_vis s g ops R Hl)).
  unfold new_vari_val_op_dop. apply set_chain_new. apply rel_new_vari; auto.
  eapply (pushes_op_dop ov s g v (BRec ops ds)); eauto.
Qed.

Lemma alias_ok ov s g k ch : Rel s g -> (k < gsize g)%nat ->
  yields ov (alias_op (hd k) ch s) k (set_gch g (nupd (g_ch g) k ch)).
Proof.
  intros R Hk. destruct (rel_set_chain s g k ch R Hk) as (s2 & E2 & R2).
  unfold yields, alias_op. rewrite (mbind_ok _ _ _ _ _ E2). simpl. auto.
Qed.

(* m performs the action *)
Definition performs (m : M Z) (s : st) (g : graph) (a : act) : Prop :=
  match do_act g a with
  | AOk (k, g') => forall ov : Prop, excused ov g' -> yields ov (m s) k g'
  | AStop => m s = ErrStop
  | ABad => True
  end.

Lemma perf_ret s g k : Rel s g -> performs (mret (hd k)) s g (AAlias k None).
Proof. intros R ov _. simpl. split; auto. Qed.
Lemma perf_alias s g k ch : Rel s g -> (k < gsize g)%nat ->
  performs (alias_op (hd k) ch) s g (AAlias k (Some ch)).
Proof. intros R Hk ov _. apply alias_ok; auto. Qed.
Lemma perf_rec s g v ops ch : Rel s g -> live g ops ->
  performs (record_op v (map hd ops) ch) s g (ANew v ops [] (Some ch)).
Proof. intros R Hl ov Hov. apply record_op_ok; auto. Qed.
Lemma perf_rec_d s g v ops ds ch : Rel s g -> live g ops ->
  performs (record_op_d v (map hd ops) ds ch) s g (ANew v ops ds (Some ch)).
Proof. intros R Hl ov Hov. apply record_op_d_ok; auto. Qed.
Lemma perf_vval s g k (f : F -> M Z) a : Rel s g -> (k < gsize g)%nat ->
  performs (f (gval g k)) s g a -> performs (mbind (vval (hd k)) f) s g a.
Proof.
  intros R Hk. unfold performs. rewrite (mbind_ok _ _ _ _ _ (rel_vval s g k R Hk)). auto.
Qed.
Lemma perf_vvals s g ks (f : list F -> M Z) a : Rel s g -> live g ks ->
  performs (f (map (gval g) ks)) s g a -> performs (mbind (vvals (map hd ks)) f) s g a.
Proof.
  intros R Hk. unfold performs. rewrite (mbind_ok _ _ _ _ _ (rel_vvals s g ks R Hk)). auto.
Qed.

Lemma live1 g k : (k < gsize g)%nat -> live g [k].
Proof. intros. repeat constructor; auto. Qed.
Lemma live2 g k1 k2 : (k1 < gsize g)%nat -> (k2 < gsize g)%nat -> live g [k1; k2].
Proof. intros. repeat constructor; auto. Qed.

Lemma un_op_ok f ch s g k : Rel s g -> (k < gsize g)%nat ->
  performs (un_op f ch (hd k)) s g (anew1 f ch g k).
Proof.
  intros R Hk. unfold un_op. apply perf_vval; auto.
  apply (perf_rec s g (f (gval g k)) [k] ch R). apply live1; auto.
Qed.

Lemma abs_ok s g k : Rel s g -> (k < gsize g)%nat ->
  performs (abs_v (hd k)) s g (act_abs g k None).
Proof.
  intros R Hk. unfold abs_v, act_abs. apply perf_vval; auto.
  destruct (fgt (gval g k) f0); [apply perf_ret; auto|].
  destruct (flt (gval g k) f0).
  { unfold neg. apply perf_vval; auto. apply (perf_rec s g _ [k] ChSubDV R). apply live1; auto. }
  destruct (feq (gval g k) f0).
  { intros ov Hov. apply new_var_ok; auto. }
  apply (perf_rec s g _ [k] ChAbs R). apply live1; auto.
Qed.

Theorem un_ok u s g k : Rel s g -> (k < gsize g)%nat ->
  performs (un_v u (hd k)) s g (act_un u g k).
Proof.
  intros R Hk. destruct u; cbn [un_v act_un]; try (apply un_op_ok; auto; fail).
  - unfold acosh_v. apply perf_vval; auto. destruct (is_nan_d (gval g k)); [apply perf_ret; auto|].
    destruct (fle (gval g k) f1); [reflexivity|].
    apply (perf_rec s g _ [k] _ R). apply live1; auto.
  - unfold atanh_v. apply perf_vval; auto. destruct (is_nan_d (gval g k)); [apply perf_ret; auto|].
    destruct (fle (gval g k) (fneg f1) || fge (gval g k) f1); [reflexivity|].
    apply (perf_rec s g _ [k] _ R). apply live1; auto.
  - apply perf_ret; auto.
  - apply abs_ok; auto.
Qed.

Theorem vv_ok b s g k1 k2 : Rel s g -> (k1 < gsize g)%nat -> (k2 < gsize g)%nat ->
  performs (bin_vv b (hd k1) (hd k2)) s g (act_vv b g k1 k2).
Proof.
  intros R H1 H2. destruct b; cbn [bin_vv act_vv];
    unfold add_vv, sub_vv, mul_vv, div_vv, pow_vv, hypot_vv;
    apply perf_vval; auto; apply perf_vval; auto;
    apply (perf_rec s g _ [k1; k2] _ R); apply live2; auto.
Qed.

Lemma hypot0_ok s g k : Rel s g -> (k < gsize g)%nat ->
  performs (mbind (abs_v (hd k)) (fun s0 => alias_op s0 ChHypot)) s g (act_abs g k (Some ChHypot)).
Proof.
  intros R Hk. pose proof (abs_ok s g k R Hk) as H. unfold performs, act_abs in *.
  destruct (fgt (gval g k) f0).
  { cbn [do_act] in *. intros ov Hov. unfold yields in *. apply wp_mbind.
    eapply wp_mono; [apply (H ov); intros X; apply Hov; exact X|auto|].
    intros [h s'] [Hh R']. cbn [fst snd] in *. subst h. apply alias_ok; auto. }
  destruct (flt (gval g k) f0); [|destruct (feq (gval g k) f0)].
  all: cbn [do_act] in *; intros ov Hov; unfold yields in *; apply wp_mbind;
       (eapply wp_mono; [apply (H ov); intros X; apply Hov; exact X|auto|]);
       intros [h s'] [Hh R']; cbn [fst snd] in *; subst h;
       match type of R' with Rel _ (a_new ?gg ?v ?b ?c) =>
         pose proof (alias_ok ov s' _ (gsize g) ChHypot R') as A end;
       (eapply wp_mono; [apply A|auto|]);
       [unfold gsize; simpl; rewrite app_length; simpl; lia|].
  all: intros [h2 s2] [Hh2 R2]; cbn [fst snd] in *; split; auto.
  all: destruct R2 as [q1 q2 q3 q4 q5 q6 q7 q8 q9 q10 q11 q12 q13 q14]; constructor; auto.
  all: try (apply gwf_new; [apply (r_wf s g R)|simpl; try (apply live1; auto); constructor]).
  all: simpl in *; unfold nupd in *; intros j Hj; first [specialize (q5 j Hj)|specialize (q6 j Hj)];
       destruct (Nat.eqb j (gsize g)); auto.
Qed.

Theorem vd_ok b s g k d : Rel s g -> (k < gsize g)%nat ->
  performs (bin_vd b (hd k) d) s g (act_vd b g k d).
Proof.
  intros R H1. destruct b; cbn [bin_vd act_vd];
    unfold add_vd, sub_vd, mul_vd, div_vd, pow_vd, hypot_vd.
  1-2: destruct (fne d f0); [apply perf_vval; auto; apply (perf_rec s g _ [k] _ R); apply live1; auto
                            |apply perf_alias; auto].
  1-2: destruct (fne d f1); [apply perf_vval; auto; apply (perf_rec_d s g _ [k] _ _ R); apply live1; auto
                            |apply perf_alias; auto].
  - destruct (feq d fhalf); [apply un_op_ok; auto|].
    destruct (feq d f1); [apply perf_ret; auto|].
    destruct (feq d f2); [apply un_op_ok; auto|].
    destruct (feq d (fneg f2)); [apply un_op_ok; auto|].
    destruct (feq d (fneg f1)); [apply un_op_ok; auto|].
    destruct (feq d (fneg fhalf)); [apply un_op_ok; auto|].
    apply perf_vval; auto; apply (perf_rec_d s g _ [k] _ _ R); apply live1; auto.
  - destruct (fne d f0); [apply perf_vval; auto; apply (perf_rec s g _ [k] _ R); apply live1; auto|].
    apply hypot0_ok; auto.
Qed.

Theorem dv_ok b s g k d : Rel s g -> (k < gsize g)%nat ->
  performs (bin_dv b d (hd k)) s g (act_dv b g d k).
Proof.
  intros R H1. destruct b; cbn [bin_dv act_dv];
    unfold add_dv, sub_dv, mul_dv, div_dv, pow_dv, hypot_dv.
  - destruct (fne d f0); [apply perf_vval; auto; apply (perf_rec s g _ [k] _ R); apply live1; auto
                         |apply perf_alias; auto].
  - apply perf_vval; auto; apply (perf_rec s g _ [k] _ R); apply live1; auto.
  - destruct (fne d f1); [apply perf_vval; auto; apply (perf_rec_d s g _ [k] _ _ R); apply live1; auto
                         |apply perf_alias; auto].
  - apply perf_vval; auto; apply (perf_rec_d s g _ [k] _ _ R); apply live1; auto.
  - apply perf_vval; auto; apply (perf_rec_d s g _ [k] _ _ R); apply live1; auto.
  - destruct (fne d f0); [apply perf_vval; auto; apply (perf_rec s g _ [k] _ R); apply live1; auto
                         |apply perf_alias; auto].
Qed.

(* ---- registers ---- *)

Lemma areg_ok g env r k s : areg g env r = Some k ->
  reg (map hd env) r s = Ok (hd k, s) /\ (k < gsize g)%nat.
Proof.
  unfold areg, reg. rewrite nth_error_map. destruct (nth_error env r) as [k'|]; [|discriminate].
  destruct (Nat.ltb_spec k' (gsize g)); [|discriminate]. intros E; inversion E; subst. simpl. auto.
Qed.

Lemma aregs_ok g env l ks s : aregs g env l = Some ks ->
  regs (map hd env) l s = Ok (map hd ks, s) /\ live g ks.
Proof.
  revert ks; induction l as [|r l IH]; intros ks; simpl.
  - intros E; inversion E; subst. split; [reflexivity|constructor].
  - destruct (areg g env r) as [k|] eqn:Er; [|discriminate].
    destruct (aregs g env l) as [ks'|] eqn:Es; [|discriminate].
    intros E; inversion E; subst. destruct (areg_ok _ _ _ _ s Er) as [A1 A2].
    destruct (IH _ eq_refl) as [B1 B2]. split; [|constructor; auto].
    unfold regs in *. cbn [mmap]. rewrite (mbind_ok _ _ _ _ _ A1), (mbind_ok _ _ _ _ _ B1). reflexivity.
Qed.

(* ---- matrix products ---- *)

Lemma push_arr_var ov s g m n ids : Rel s g -> newarr_ok g m n (AVar ids) ->
  excused ov (a_arr g m n (AVar ids)) ->
  wp ov (mtape (fun t => ait_push_var_2d t (Z.of_nat m) (Z.of_nat n) (map (gloc g) ids)) s)
     (fun p => fst p = g_top g /\ Rel (snd p) (a_arr g m n (AVar ids))).
Proof.
  intros R Hok Hov. pose proof (r_wf s g R) as HW. pose proof (gwf_arr g m n _ HW Hok) as HW'.
  unfold mtape, ait_push_var_2d.
  assert (LEN : zlen (Z.of_nat m :: Z.of_nat n :: map (gloc g) ids) = 2 + zlen ids).
  { unfold zlen; simpl. rewrite map_length. lia. }
  apply wp_bind. eapply wp_mono; [apply (push_int_array_ok _ _ ov HC (r_twf s g R))|auto|].
  { rewrite LEN, (r_thead s g R). intros. apply Hov. simpl. unfold alen; simpl. lia. }
  intros [id t] (P1 & P2 & P3). cbn [fst snd wp] in *. rewrite LEN in *.
  split; [rewrite P1; apply (r_thead s g R)|].
  rewrite (r_thead s g R) in P3. destruct P2 as (Q1 & Q2 & Q3 & Q4 & Q5).
  pose proof (rec_old g [] [mkArr m n (AVar ids) (g_top g)] (t_mem (s_tape s)) (t_mem t) HW) as [O1 O2].
  { intros j Hj. apply Q4. rewrite (r_thead s g R). exact Hj. }
  destruct R as [q1 q2 q3 q4 q5 q6 q7 q8 q9 q10 q11 q12 q13 q14].
  constructor; cbn [s_head s_n s_varis s_tape s_lvl s_nv s_nt set_tape]; auto.
  - rewrite Q2, q8. simpl. reflexivity.
  - simpl. unfold alen; simpl. rewrite <- q8. apply Q5; auto. pose proof (w_top g HW). lia.
  - intros k nd E. specialize (O1 k nd (n_val nd) (g_adj g k) E (q10 _ _ E)).
    rewrite app_nil_r in O1. exact O1.
  - intros a ar E. cbn [a_arr push_top g_arrs] in E.
    destruct (Nat.lt_ge_cases a (length (g_arrs g))) as [L|L].
    + rewrite nth_error_app1 in E by exact L. specialize (O2 a ar E (q11 _ _ E)).
      rewrite app_nil_r in O2. exact O2.
    + rewrite nth_error_app2 in E by exact L.
      destruct (a - length (g_arrs g))%nat as [|[|z]] eqn:Ez; simpl in E; inversion E. subst ar.
      unfold arr_at; simpl. simpl in P3. destruct P3 as (P3 & P4 & P5).
      split; [auto|]. replace (g_top g + 2) with (g_top g + 1 + 1) by lia. exact P5.
  - eapply nest_at_ext; [| |exact q14]; auto.
Qed.

Lemma push_arr_dat ov s g m n ds : Rel s g -> newarr_ok g m n (ADat ds) ->
  excused ov (a_arr g m n (ADat ds)) ->
  wp ov (mtape (fun t => ait_push_data_2d t (Z.of_nat m) (Z.of_nat n) ds) s)
     (fun p => fst p = g_top g /\ Rel (snd p) (a_arr g m n (ADat ds))).
Proof.
  intros R Hok Hov. pose proof (r_wf s g R) as HW. pose proof (gwf_arr g m n _ HW Hok) as HW'.
  unfold mtape, ait_push_data_2d.
  apply wp_bind, wp_bind.
  pose proof (zlen_nonneg ds) as Hz.
  eapply wp_mono; [apply (push_int_array_ok _ _ ov HC (r_twf s g R))|auto|].
  { change (zlen [Z.of_nat m; Z.of_nat n]) with 2. rewrite (r_thead s g R). intros. apply Hov. simpl.
    unfold alen; simpl. lia. }
  intros [id t1] (A1 & A2 & A3). cbn [fst snd] in *. change (zlen [Z.of_nat m; Z.of_nat n]) with 2 in A2.
  assert (A2' := A2). destruct A2' as (B1 & B2 & B3 & B4 & B5).
  apply wp_bind.
  eapply wp_mono; [apply (push_real_array_ok _ ds ov HC B1)|auto|].
  { rewrite B2, (r_thead s g R). intros. apply Hov. simpl. unfold alen; simpl. lia. }
  intros [id2 t] (P1 & P2 & P3). cbn [fst snd wp] in *.
  split; [rewrite A1; apply (r_thead s g R)|].
  pose proof (pushed_trans _ _ _ 2 (2 * zlen ds) ltac:(lia) ltac:(lia) A2 P2) as PT.
  destruct P2 as (_ & _ & _ & P4 & _).
  destruct PT as (Q1 & Q2 & Q3 & Q4 & Q5).
  rewrite (r_thead s g R) in *.
  pose proof (rec_old g [] [mkArr m n (ADat ds) (g_top g)] (t_mem (s_tape s)) (t_mem t) HW) as [O1 O2].
  { intros j Hj. apply Q4. exact Hj. }
  destruct R as [q1 q2 q3 q4 q5 q6 q7 q8 q9 q10 q11 q12 q13 q14].
  constructor; cbn [s_head s_n s_varis s_tape s_lvl s_nv s_nt set_tape]; auto.
  - simpl. unfold alen; simpl. apply Q5; auto. pose proof (w_top g HW). lia.
  - intros k nd E. specialize (O1 k nd (n_val nd) (g_adj g k) E (q10 _ _ E)).
    rewrite app_nil_r in O1. exact O1.
  - intros a ar E. cbn [a_arr push_top g_arrs] in E.
    destruct (Nat.lt_ge_cases a (length (g_arrs g))) as [L|L].
    + rewrite nth_error_app1 in E by exact L. specialize (O2 a ar E (q11 _ _ E)).
      rewrite app_nil_r in O2. exact O2.
    + rewrite nth_error_app2 in E by exact L.
      destruct (a - length (g_arrs g))%nat as [|[|z]] eqn:Ez; simpl in E; inversion E. subst ar.
      unfold arr_at; cbn [a_loc a_m a_n a_c]. split.
      * eapply ints_at_frame; [|exact A3]. intros j Hj. apply P4.
        pose proof (w_top g HW). change (zlen [Z.of_nat m; Z.of_nat n]) with 2 in Hj. lia.
      * rewrite <- B2. exact P3.
  - eapply nest_at_ext; [| |exact q14]; auto.
Qed.

Lemma mat_nodes_cons ch ia ib q ps g : mat_nodes ch ia ib (q :: ps) g =
  mat_nodes ch ia ib ps (a_new g (snd q) (BMat (fst (fst q)) (snd (fst q)) ia ib) (Some ch)).
Proof. reflexivity. Qed.

Lemma mat_nodes_peak ch ia ib ps g : g_peak g <= g_peak (mat_nodes ch ia ib ps g).
Proof.
  revert g; induction ps as [|q ps IH]; intros g; [simpl; lia|].
  rewrite mat_nodes_cons. etransitivity; [|apply IH]. simpl. lia.
Qed.

Lemma opid_eq d ids : new_var_val_opid d ids = new_vari_with (fun t => push_val_op t d ids).
Proof. unfold new_var_val_opid, new_vari_val_op. reflexivity. Qed.

Lemma mmap_cons {A B} (f : A -> M B) x l s :
  mmap f (x :: l) s = mbind (f x) (fun y => mbind (mmap f l) (fun ys => mret (y :: ys))) s.
Proof. reflexivity. Qed.

Lemma mat_one_ok ov ch ia ib i j v s g :
  Rel s g -> (ia < length (g_arrs g))%nat -> (ib < length (g_arrs g))%nat ->
  Z.of_nat i + 1 <= max_int -> Z.of_nat j + 1 <= max_int ->
  excused ov (a_new g v (BMat i j ia ib) (Some ch)) ->
  yields ov (mbind (new_var_val_opid v [Z.of_nat i + 1; Z.of_nat j + 1; galoc g ia; galoc g ib])
          (fun s => mbind (set_chain s ch) (fun _ => mret s)) s)
     (gsize g) (a_new g v (BMat i j ia ib) (Some ch)).
Proof.
  intros R Ha Hb Hi Hj Hov. rewrite opid_eq. apply set_chain_new.
  apply (rel_new_vari ov _ s g v (BMat i j ia ib) HC R).
  - simpl. auto.
  - apply (pushes_op ov s g v (BMat i j ia ib) (Some ch) HC R eq_refl Hov).
Qed.

Lemma mat_results_ok ov ch ia ib la lb ps (f : (nat * nat) * F -> M Z) s g :
  (forall q s g ov, Rel s g -> (ia < length (g_arrs g))%nat -> (ib < length (g_arrs g))%nat ->
     Z.of_nat (fst (fst q)) + 1 <= max_int -> Z.of_nat (snd (fst q)) + 1 <= max_int ->
     galoc g ia = la -> galoc g ib = lb ->
     excused ov (a_new g (snd q) (BMat (fst (fst q)) (snd (fst q)) ia ib) (Some ch)) ->
     yields ov (f q s) (gsize g) (a_new g (snd q) (BMat (fst (fst q)) (snd (fst q)) ia ib) (Some ch))) ->
  galoc g ia = la -> galoc g ib = lb ->
  Rel s g -> (ia < length (g_arrs g))%nat -> (ib < length (g_arrs g))%nat ->
  Forall (fun q : (nat * nat) * F => Z.of_nat (fst (fst q)) + 1 <= max_int /\
                    Z.of_nat (snd (fst q)) + 1 <= max_int) ps ->
  excused ov (mat_nodes ch ia ib ps g) ->
  wp ov (mmap f ps s)
     (fun p => fst p = map hd (seq (gsize g) (length ps)) /\ Rel (snd p) (mat_nodes ch ia ib ps g)).
Proof.
  intros Hf1. revert s g; induction ps as [|q ps IH]; intros s g Ea Eb R Ha Hb Hf Hov.
  - simpl. auto.
  - inversion Hf as [|? ? [F1 F2] F3]; subst. rewrite mat_nodes_cons in *.
    set (b := BMat (fst (fst q)) (snd (fst q)) ia ib) in *.
    set (g1 := a_new g (snd q) b (Some ch)) in *.
    rewrite mmap_cons. apply wp_mbind.
    assert (Hov1 : excused ov g1).
    { unfold excused in *. intros. apply Hov. pose proof (mat_nodes_peak ch ia ib ps g1). lia. }
    pose proof (Hf1 q s g ov R Ha Hb F1 F2 eq_refl eq_refl Hov1) as SC. fold b in SC. fold g1 in SC.
    unfold yields in SC. eapply wp_mono; [exact SC|auto|].
    intros [h s1] [Hh R1]. cbn [fst snd] in *. apply wp_mbind.
    eapply wp_mono; [apply (IH s1 g1); auto|auto|].
    intros [hs s2] [Hs R2]. cbn [fst snd wp] in *. simpl. split; [|exact R2].
    rewrite Hh, Hs. f_equal. f_equal. f_equal. unfold g1, gsize; simpl. rewrite app_length; simpl. lia.
Qed.

Lemma mpairs_bound m n : Forall (fun p => (fst p < m)%nat /\ (snd p < n)%nat) (mpairs m n).
Proof.
  unfold mpairs. apply Forall_forall. intros p Hp. apply in_flat_map in Hp.
  destruct Hp as (j & Hj & Hp). apply in_map_iff in Hp. destruct Hp as (i & <- & Hi).
  apply in_seq in Hi, Hj. simpl. lia.
Qed.

Lemma combine_Forall_fst {A B} (P : A -> Prop) (l : list A) (d : list B) :
  Forall P l -> Forall (fun q => P (fst q)) (combine l d).
Proof. intros H. revert d. induction H; intros [|y d]; simpl; auto. Qed.

Lemma mat_pairs_int m n (vals : list F) : dim_ok m = true -> dim_ok n = true ->
  Forall (fun q : (nat * nat) * F => Z.of_nat (fst (fst q)) + 1 <= max_int /\
                    Z.of_nat (snd (fst q)) + 1 <= max_int) (combine (mpairs m n) vals).
Proof.
  unfold dim_ok. intros Hm Hn.
  apply (combine_Forall_fst (fun p : nat * nat => Z.of_nat (fst p) + 1 <= max_int /\ Z.of_nat (snd p) + 1 <= max_int)).
  eapply Forall_impl; [|apply mpairs_bound]. intros [i j]; simpl. lia.
Qed.

Lemma galoc_new g m n c i : (i < length (g_arrs g))%nat -> galoc (a_arr g m n c) i = galoc g i.
Proof. intros. unfold galoc; simpl. rewrite nth_error_app1; auto. Qed.
Lemma galoc_last g m n c : galoc (a_arr g m n c) (length (g_arrs g)) = g_top g.
Proof. unfold galoc; simpl. rewrite nth_error_app2, Nat.sub_diag by auto. reflexivity. Qed.

Lemma a_arr_peak g m n c : g_peak g <= g_peak (a_arr g m n c).
Proof. simpl. lia. Qed.

(* both arrays pushed; the entries follow *)
Lemma mat_tail ov ch m k n ca cb vals s g :
  let g2 := a_arr (a_arr g m k ca) k n cb in
  Rel s g2 -> dims_ok m k n = true ->
  excused ov (mat_nodes ch (length (g_arrs g)) (S (length (g_arrs g))) (combine (mpairs m n) vals) g2) ->
  wp ov (mat_results ch m n (g_top g) (g_top (a_arr g m k ca)) vals s)
    (fun p => fst p = map hd (seq (gsize g) (length (combine (mpairs m n) vals))) /\
       Rel (snd p) (mat_nodes ch (length (g_arrs g)) (S (length (g_arrs g))) (combine (mpairs m n) vals) g2)).
Proof.
  intros g2 R Hd Hov. unfold mat_results.
  assert (L1 : length (g_arrs (a_arr g m k ca)) = S (length (g_arrs g))) by (simpl; rewrite app_length; simpl; lia).
  assert (L2 : length (g_arrs g2) = S (S (length (g_arrs g)))).
  { unfold g2. simpl. rewrite !app_length; simpl. lia. }
  assert (A : galoc g2 (length (g_arrs g)) = g_top g).
  { unfold g2. rewrite galoc_new by lia. apply galoc_last. }
  assert (B : galoc g2 (S (length (g_arrs g))) = g_top (a_arr g m k ca)).
  { unfold g2. rewrite <- L1. apply galoc_last. }
  rewrite <- A, <- B. change (gsize g) with (gsize g2).
  apply (mat_results_ok ov ch _ _ (galoc g2 (length (g_arrs g))) (galoc g2 (S (length (g_arrs g))))); auto; try lia.
  { intros q s1 g1 ov1 R1 Ha Hb Hi Hj Ea Eb Hov1. rewrite <- Ea, <- Eb. apply mat_one_ok; auto. }
  unfold dims_ok in Hd. apply mat_pairs_int; lia.
Qed.

Lemma live_grow g m n c ks : live g ks -> live (a_arr g m n c) ks.
Proof. auto. Qed.

Lemma shaped_ok {A} (l : list A) n s : length l = n -> shaped l n s = Ok (tt, s).
Proof. intros <-. unfold shaped. rewrite Nat.eqb_refl. reflexivity. Qed.

(* calls with a list of results *)
Definition performsL (m : M (list Z)) (s : st) (r : ares (list nat * graph)) : Prop :=
  match r with
  | AOk (ks, g') => forall ov : Prop, excused ov g' ->
      wp ov (m s) (fun p => fst p = map hd ks /\ Rel (snd p) g')
  | AStop => m s = ErrStop
  | ABad => True
  end.

Lemma perfL_bind {A} (m : M A) (f : A -> M (list Z)) s a r :
  m s = Ok (a, s) -> performsL (f a) s r -> performsL (mbind m f) s r.
Proof. intros E. unfold performsL. rewrite (mbind_ok _ _ _ _ _ E). auto. Qed.

Lemma mat_vv_ok s g m k n ka kb : Rel s g -> live g ka -> live g kb ->
  performsL (mat_mul_vv m k n (map hd ka) (map hd kb)) s
    (amat ChMatVV m k n (AVar ka) (AVar kb) (map (gval g) ka) (map (gval g) kb) g).
Proof.
  intros R La Lb. unfold amat. rewrite !map_length.
  destruct (Nat.eqb_spec (length ka) (m * k)) as [Ha|]; [|exact I].
  destruct (Nat.eqb_spec (length kb) (k * n)) as [Hb|]; [|exact I].
  destruct (dims_ok m k n) eqn:Hd; [|exact I]. cbn [andb].
  intros ov Hov. unfold mat_mul_vv.
  assert (Hd' := Hd). unfold dims_ok, dim_ok in Hd'.
  rewrite (mbind_ok _ _ _ _ _ (shaped_ok _ _ s ltac:(rewrite map_length; exact Ha))).
  rewrite (mbind_ok _ _ _ _ _ (shaped_ok _ _ s ltac:(rewrite map_length; exact Hb))).
  rewrite (mbind_ok _ _ _ _ _ (rel_vis s g ka R La)).
  set (g1 := a_arr g m k (AVar ka)) in *. set (g2 := a_arr g1 k n (AVar kb)) in *.
  match type of Hov with excused _ (mat_nodes _ _ _ ?ps _) => set (P := ps) in * end.
  pose proof (mat_nodes_peak ChMatVV (length (g_arrs g)) (S (length (g_arrs g))) P g2) as PK.
  pose proof (a_arr_peak g1 k n (AVar kb)) as PK2. fold g2 in PK2.
  apply wp_mbind. eapply wp_mono; [apply (push_arr_var ov s g m k ka R)|auto|].
  { split; [lia|]. split; [lia|]. auto. }
  { fold g1. unfold excused in *. intros. apply Hov. lia. }
  intros [la s1] [E1 R1]. cbn [fst snd] in *. fold g1 in R1. subst la.
  rewrite (mbind_ok _ _ _ _ _ (rel_vis s1 g1 kb R1 Lb)).
  change (gloc g) with (gloc g1).
  apply wp_mbind. eapply wp_mono; [apply (push_arr_var ov s1 g1 k n kb R1)|auto|].
  { split; [lia|]. split; [lia|]. auto. }
  { fold g2. unfold excused in *. intros. apply Hov. lia. }
  intros [lb s2] [E2 R2]. cbn [fst snd] in *. fold g2 in R2. subst lb.
  rewrite (mbind_ok _ _ _ _ _ (rel_vvals s2 g2 ka R2 La)).
  rewrite (mbind_ok _ _ _ _ _ (rel_vvals s2 g2 kb R2 Lb)).
  change (gval g2) with (gval g).
  apply (mat_tail ov ChMatVV m k n (AVar ka) (AVar kb) _ s2 g R2 Hd Hov).
Qed.

Lemma mat_vd_ok s g m k n ka b : Rel s g -> live g ka ->
  performsL (mat_mul_vd m k n (map hd ka) b) s
    (amat ChMatVD m k n (AVar ka) (ADat b) (map (gval g) ka) b g).
Proof.
  intros R La. unfold amat. rewrite !map_length.
  destruct (Nat.eqb_spec (length ka) (m * k)) as [Ha|]; [|exact I].
  destruct (Nat.eqb_spec (length b) (k * n)) as [Hb|]; [|exact I].
  destruct (dims_ok m k n) eqn:Hd; [|exact I]. cbn [andb].
  intros ov Hov. unfold mat_mul_vd.
  assert (Hd' := Hd). unfold dims_ok, dim_ok in Hd'.
  rewrite (mbind_ok _ _ _ _ _ (shaped_ok _ _ s ltac:(rewrite map_length; exact Ha))).
  rewrite (mbind_ok _ _ _ _ _ (shaped_ok _ _ s Hb)).
  rewrite (mbind_ok _ _ _ _ _ (rel_vis s g ka R La)).
  set (g1 := a_arr g m k (AVar ka)) in *. set (g2 := a_arr g1 k n (ADat b)) in *.
  match type of Hov with excused _ (mat_nodes _ _ _ ?ps _) => set (P := ps) in * end.
  pose proof (mat_nodes_peak ChMatVD (length (g_arrs g)) (S (length (g_arrs g))) P g2) as PK.
  pose proof (a_arr_peak g1 k n (ADat b)) as PK2. fold g2 in PK2.
  apply wp_mbind. eapply wp_mono; [apply (push_arr_var ov s g m k ka R)|auto|].
  { split; [lia|]. split; [lia|]. auto. }
  { fold g1. unfold excused in *. intros. apply Hov. lia. }
  intros [la s1] [E1 R1]. cbn [fst snd] in *. fold g1 in R1. subst la.
  apply wp_mbind. eapply wp_mono; [apply (push_arr_dat ov s1 g1 k n b R1)|auto|].
  { split; [lia|]. split; [lia|]. auto. }
  { fold g2. unfold excused in *. intros. apply Hov. lia. }
  intros [lb s2] [E2 R2]. cbn [fst snd] in *. fold g2 in R2. subst lb.
  rewrite (mbind_ok _ _ _ _ _ (rel_vvals s2 g2 ka R2 La)).
  change (gval g2) with (gval g).
  apply (mat_tail ov ChMatVD m k n (AVar ka) (ADat b) _ s2 g R2 Hd Hov).
Qed.

Lemma mat_dv_ok s g m k n a kb : Rel s g -> live g kb ->
  performsL (mat_mul_dv m k n a (map hd kb)) s
    (amat ChMatDV m k n (ADat a) (AVar kb) a (map (gval g) kb) g).
Proof.
  intros R Lb. unfold amat. rewrite !map_length.
  destruct (Nat.eqb_spec (length a) (m * k)) as [Ha|]; [|exact I].
  destruct (Nat.eqb_spec (length kb) (k * n)) as [Hb|]; [|exact I].
  destruct (dims_ok m k n) eqn:Hd; [|exact I]. cbn [andb].
  intros ov Hov. unfold mat_mul_dv.
  assert (Hd' := Hd). unfold dims_ok, dim_ok in Hd'.
  rewrite (mbind_ok _ _ _ _ _ (shaped_ok _ _ s Ha)).
  rewrite (mbind_ok _ _ _ _ _ (shaped_ok _ _ s ltac:(rewrite map_length; exact Hb))).
  set (g1 := a_arr g m k (ADat a)) in *. set (g2 := a_arr g1 k n (AVar kb)) in *.
  match type of Hov with excused _ (mat_nodes _ _ _ ?ps _) => set (P := ps) in * end.
  pose proof (mat_nodes_peak ChMatDV (length (g_arrs g)) (S (length (g_arrs g))) P g2) as PK.
  pose proof (a_arr_peak g1 k n (AVar kb)) as PK2. fold g2 in PK2.
  apply wp_mbind. eapply wp_mono; [apply (push_arr_dat ov s g m k a R)|auto|].
  { split; [lia|]. split; [lia|]. auto. }
  { fold g1. unfold excused in *. intros. apply Hov. lia. }
  intros [la s1] [E1 R1]. cbn [fst snd] in *. fold g1 in R1. subst la.
  rewrite (mbind_ok _ _ _ _ _ (rel_vis s1 g1 kb R1 Lb)).
  change (gloc g) with (gloc g1).
  apply wp_mbind. eapply wp_mono; [apply (push_arr_var ov s1 g1 k n kb R1)|auto|].
  { split; [lia|]. split; [lia|]. auto. }
  { fold g2. unfold excused in *. intros. apply Hov. lia. }
  intros [lb s2] [E2 R2]. cbn [fst snd] in *. fold g2 in R2. subst lb.
  rewrite (mbind_ok _ _ _ _ _ (rel_vvals s2 g2 kb R2 Lb)).
  change (gval g2) with (gval g).
  apply (mat_tail ov ChMatDV m k n (ADat a) (AVar kb) _ s2 g R2 Hd Hov).
Qed.

(* ---- one call ---- *)

Lemma perf_one m s g a : performs m s g a ->
  performsL (one m) s (abind (do_act g a) (fun p => AOk ([fst p], snd p))).
Proof.
  unfold performs, performsL, one. destruct (do_act g a) as [[k g']| |]; cbn [abind fst snd]; auto.
  - intros H ov Hov. apply wp_mbind. eapply wp_mono; [apply (H ov Hov)|auto|].
    intros [h s'] [Hh R]. cbn [fst snd] in *. subst. simpl. auto.
  - unfold mbind. intros ->. reflexivity.
Qed.

Theorem exec_op_ok s g env o : Rel s g -> performsL (exec_op (map hd env) o) s (aexec_op g env o).
Proof.
  intros R. destruct o; cbn [exec_op aexec_op act_op].
  - apply perf_one. intros ov Hov. apply new_var_val_ok; auto.
  - apply perf_one. intros ov Hov. apply new_var_ok; auto.
  - destruct (areg g env a) as [k|] eqn:E; [|exact I].
    destruct (areg_ok _ _ _ _ s E) as [A1 A2]. eapply perfL_bind; [exact A1|].
    apply perf_one, un_ok; auto.
  - destruct (areg g env x) as [k1|] eqn:E1; [|exact I]. destruct (areg g env y) as [k2|] eqn:E2; [|exact I].
    destruct (areg_ok _ _ _ _ s E1) as [A1 A2]. destruct (areg_ok _ _ _ _ s E2) as [B1 B2].
    eapply perfL_bind; [exact A1|]. eapply perfL_bind; [exact B1|]. apply perf_one, vv_ok; auto.
  - destruct (areg g env x) as [k|] eqn:E; [|exact I].
    destruct (areg_ok _ _ _ _ s E) as [A1 A2]. eapply perfL_bind; [exact A1|].
    apply perf_one, vd_ok; auto.
  - destruct (areg g env y) as [k|] eqn:E; [|exact I].
    destruct (areg_ok _ _ _ _ s E) as [A1 A2]. eapply perfL_bind; [exact A1|].
    apply perf_one, dv_ok; auto.
  - destruct (aregs g env l) as [ks|] eqn:E; [|exact I].
    destruct (aregs_ok _ _ _ _ s E) as [A1 A2]. eapply perfL_bind; [exact A1|].
    apply perf_one. unfold sum_v. apply perf_vvals; auto. apply perf_rec; auto.
  - destruct (aregs g env l) as [ks|] eqn:E; [|exact I].
    destruct (aregs_ok _ _ _ _ s E) as [A1 A2]. eapply perfL_bind; [exact A1|].
    apply perf_one. unfold norm2_v. apply perf_vvals; auto. apply perf_rec; auto.
  - destruct (aregs g env l) as [ks|] eqn:E; [|exact I].
    destruct (aregs_ok _ _ _ _ s E) as [A1 A2]. eapply perfL_bind; [exact A1|].
    apply perf_one. unfold log_sum_exp_v. apply perf_vvals; auto. apply perf_rec; auto.
  - destruct (aregs g env l1) as [k1|] eqn:E1; [|exact I]. destruct (aregs g env l2) as [k2|] eqn:E2; [|exact I].
    destruct (aregs_ok _ _ _ _ s E1) as [A1 A2]. destruct (aregs_ok _ _ _ _ s E2) as [B1 B2].
    eapply perfL_bind; [exact A1|]. eapply perfL_bind; [exact B1|].
    destruct (Nat.eqb_spec (length k1) (length k2)) as [EL|]; [|exact I].
    apply perf_one. unfold dot_prod_vv. unfold performs.
    rewrite (mbind_ok _ _ s tt s) by (unfold same_size; rewrite !map_length, EL, Nat.eqb_refl; reflexivity).
    rewrite <- map_app.
    apply perf_vvals; auto. apply perf_vvals; auto. apply perf_rec; auto. apply Forall_app; auto.
  - destruct (aregs g env l) as [ks|] eqn:E; [|exact I].
    destruct (aregs_ok _ _ _ _ s E) as [A1 A2]. eapply perfL_bind; [exact A1|].
    destruct (Nat.eqb_spec (length ks) (length d)) as [EL|]; [|exact I].
    apply perf_one. unfold dot_prod_vd. unfold performs.
    rewrite (mbind_ok _ _ s tt s) by (unfold same_size; rewrite !map_length, EL, Nat.eqb_refl; reflexivity).
    apply perf_vvals; auto. apply perf_rec_d; auto.
  - destruct (aregs g env l) as [ks|] eqn:E; [|exact I].
    destruct (aregs_ok _ _ _ _ s E) as [A1 A2]. eapply perfL_bind; [exact A1|].
    destruct (Nat.eqb_spec (length d) (length ks)) as [EL|]; [|exact I].
    apply perf_one. unfold dot_prod_dv. unfold performs.
    rewrite (mbind_ok _ _ s tt s) by (unfold same_size; rewrite !map_length, EL, Nat.eqb_refl; reflexivity).
    apply perf_vvals; auto. apply perf_rec_d; auto.
  - destruct (aregs g env a) as [ka|] eqn:E1; [|exact I]. destruct (aregs g env b) as [kb|] eqn:E2; [|exact I].
    destruct (aregs_ok _ _ _ _ s E1) as [A1 A2]. destruct (aregs_ok _ _ _ _ s E2) as [B1 B2].
    eapply perfL_bind; [exact A1|]. eapply perfL_bind; [exact B1|]. apply mat_vv_ok; auto.
  - destruct (aregs g env a) as [ka|] eqn:E1; [|exact I].
    destruct (aregs_ok _ _ _ _ s E1) as [A1 A2].
    eapply perfL_bind; [exact A1|]. apply mat_vd_ok; auto.
  - destruct (aregs g env b) as [kb|] eqn:E1; [|exact I].
    destruct (aregs_ok _ _ _ _ s E1) as [A1 A2].
    eapply perfL_bind; [exact A1|]. apply mat_dv_ok; auto.
  - destruct (aregs g env l) as [ks|] eqn:E; [|exact I].
    destruct (aregs_ok _ _ _ _ s E) as [A1 A2]. eapply perfL_bind; [exact A1|].
    eapply perfL_bind; [apply rel_vvals; eauto|].
    destruct (Nat.eqb_spec (length (p (map (gval g) ks))) (length ks)) as [EL|]; [|exact I].
    apply perf_one. unfold var_with_partials, performs.
    rewrite (mbind_ok _ _ s (p (map (gval g) ks)) s).
    + apply perf_rec_d; auto.
    + unfold mlift, explicit_dummy. rewrite map_length, EL, Nat.leb_refl. cbn [bind].
      rewrite firstn_all2 by lia. reflexivity.
Qed.

End WithCfg.
End RefineOps.
