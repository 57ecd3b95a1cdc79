(* Proofs of the claims about nested blocks, comparisons, aliases and tests of
   special values. *)
From Coq Require Import ZifyBool ZifyNat.
From Flocq Require Import IEEE754.BinarySingleNaN IEEE754.Binary IEEE754.Bits Core.
From Verif Require Import TapeFacts.
From Verif Require Export RelSpec Claims_storage.

Section Claims.
Context {N : Num} {RL : RepLaws N} {C : Cfg N}.

(* ---- C33 ---- *)
Lemma block_call env s p r s3 : practical -> reachable env s -> block_call_ok p env s ->
  block p env s = Ok (r, s3) ->
  s_head s3 = s_head s /\ s_lvl s3 = s_lvl s /\ t_head (s_tape s3) = t_head (s_tape s) /\
  (forall h, alive s h -> same_val s s3 h /\ same_op s s3 h) /\
  (forall i, t_head (s_tape s3) <= i -> t_mem (s_tape s3) i = w0).
Proof.
  intros HP HR HB HX. destruct (reach_valid env s HP HR) as [HV HH].
  apply (block_leaves_no_trace s p env r s3 HP HV HH HB HX).
Qed.

(* ---- C41 ---- *)
Lemma after_block env s p r s3 q : practical -> reachable env s -> block_call_ok p env s ->
  block p env s = Ok (r, s3) -> (forall h, alive s h -> same_adj s s3 h) ->
  client_ok q env s -> client_ok q env s3 ->
  same_outcome (run q env s) (run q env s3).
Proof.
  intros HP HR HB HX HA K1 K2. destruct (reach_valid env s HP HR) as [HV HH]. apply (agree_same C C).
  apply (@twin_run N RL C C q HP HP env s s3 (block_twin s p env r s3 HP HV HH HB HX HA) HH K1 K2).
Qed.

(* ---- C16, operands that are independent variables ---- *)

(* a real constant that leaves its operand unchanged, at register r *)
Definition adds_nothing (o : op) (r : nat) : Prop :=
  (exists d, feq d f0 = true /\ (o = OVD BAdd r d \/ o = ODV BAdd d r \/ o = OVD BSub r d)) \/
  (exists d, feq d f1 = true /\ (o = OVD BMul r d \/ o = ODV BMul d r \/ o = OVD BDiv r d)).

Lemma adds_nothing_alias o r env h s : adds_nothing o r -> nth_error env r = Some h ->
  exists ch, is_mat ch = false /\ exec_op env o s = one (alias_op h ch) s.
Proof.
  intros H E.
  destruct H as [(d & Hd & [-> | [-> | ->]])|(d & Hd & [-> | [-> | ->]])]; cbn [exec_op bin_vd bin_dv];
  rewrite (mbind_ok _ _ s h s) by (unfold reg; rewrite E; reflexivity);
  unfold add_vd, add_dv, sub_vd, mul_vd, mul_dv, div_vd, fne; rewrite Hd; cbn [negb];
  eexists; (split; [|reflexivity]); reflexivity.
Qed.

Lemma leaf_neutral env s o r h : practical -> reachable env s -> adds_nothing o r ->
  nth_error env r = Some h -> alive s h -> var_operands s h = Ok [] -> var_data s h = Ok [] ->
  exists s', exec_op env o s = Ok ([h], s') /\
    forall q, client_ok q (env ++ [h]) s -> client_ok q (env ++ [h]) s' ->
      same_outcome (run q (env ++ [h]) s) (run q (env ++ [h]) s').
Proof.
  intros HP HR HA E Hh HO HD. destruct (reach_valid env s HP HR) as [(g & R & HG) HH].
  destruct (adds_nothing_alias o r env h s HA E) as (ch & Hch & HX).
  destruct (alive_node s g h R Hh) as (k & -> & Hk).
  pose proof (alias_ok True s g k ch R Hk) as Y. unfold yields in Y. apply wp_elim in Y.
  assert (YN : alias_op (hd k) ch s <> Undef IntOverflow).
  { pose proof (alias_ok False s g k ch R Hk) as Y2. unfold yields in Y2. apply wp_elim in Y2.
    intros Q. rewrite Q in Y2. exact Y2. }
  destruct (alias_op (hd k) ch s) as [[h' s']| |[]|] eqn:EA; try tauto.
  cbn [fst snd] in Y. destruct Y as [-> R'].
  exists s'. split.
  { rewrite HX. unfold one. rewrite (mbind_ok _ _ _ _ _ EA). reflexivity. }
  destruct (lt_nth_error _ _ Hk) as [nd En].
  assert (HB : n_body nd = BRec [] []).
  { rewrite (rel_var_operands s g k nd R En) in HO. rewrite (rel_var_data s g k nd R En) in HD.
    destruct (n_body nd) as [ops ds|i j ia ib]; cbn in HO, HD; try discriminate.
    destruct ops; [|discriminate]. congruence. }
  intros q K1 K2. apply (agree_same C C). apply twin_run; auto.
  - exists g, (set_gch g (nupd (g_ch g) k ch)). split; auto. split; auto. split; auto. split.
    + destruct HG as [A B D]. constructor; cbn [set_gch g_nest].
      * intros j Hj. specialize (A j Hj). unfold fits in *. cbn [set_gch g_nodes g_arrs g_ch].
        destruct (Nat.eq_dec j k) as [->|Hne].
        -- rewrite En in *. rewrite HB. unfold nupd. rewrite Nat.eqb_refl. unfold cshape.
           destruct ch; simpl in *; auto; discriminate.
        -- unfold nupd. replace (Nat.eqb j k) with false by lia. exact A.
      * intros j Hj. cbn [set_gch g_ch]. unfold nupd. destruct (Nat.eqb j k); auto.
      * intros m Hm j Hj. cbn [set_gch g_ch]. unfold nupd. destruct (Nat.eqb j k); eauto.
    + constructor; cbn [set_gch g_nodes g_arrs g_nest g_top g_adj g_ch]; auto.
      intros j nd' Hn. unfold nupd. destruct (Nat.eqb_spec j k) as [->|Hne]; [right|left; auto].
      congruence.
  - apply handles_app; auto. apply (handles_hd [k]).
Qed.

(* ---- C34 ---- *)
Lemma begin_upto_ten env s : practical -> reachable env s -> s_lvl s < 10 ->
  exists s', begin_nested s = Ok (tt, s') /\ s_lvl s' = s_lvl s + 1 /\ s_head s' = s_head s /\
    t_head (s_tape s') = t_head (s_tape s) /\ forall h, alive s h -> untouched s s' h.
Proof.
  intros HP HR HL. destruct (reach_valid env s HP HR) as [(g & R & HG) HH].
  unfold begin_nested, mput, nest_get.
  assert (0 <= s_lvl s) by (rewrite (r_lvl s g R); apply zlen_nonneg).
  replace ((1 <=? s_lvl s + 1) && (s_lvl s + 1 <=? max_nested_stack)) with true by (unfold max_nested_stack; lia).
  cbn [bind]. eexists. split; [reflexivity|]. cbn [s_lvl s_head s_tape]. repeat split; auto; apply H0.
Qed.

Lemma begin_at_ten s : s_lvl s = 10 -> begin_nested s = Undef OutOfBounds.
Proof. intros H. unfold begin_nested, mput, nest_get. rewrite H. reflexivity. Qed.

Lemma lvl_range env s : practical -> reachable env s -> 0 <= s_lvl s <= 10.
Proof.
  intros HP HR. destruct (reach_valid env s HP HR) as [(g & R & HG) HH].
  rewrite (r_lvl s g R). pose proof (r_lvl10 s g R). unfold zlen in *. lia.
Qed.

(* ---- C35 ---- *)
Lemma end_iff env s : practical -> reachable env s -> 1 <= s_lvl s ->
  (t_head (s_tape s) <= t_size (s_tape s) -> exists s', end_nested s = Ok (tt, s')) /\
  (t_size (s_tape s) < t_head (s_tape s) -> end_nested s = Undef OutOfBounds).
Proof.
  intros HP HR HL. destruct (reach_valid env s HP HR) as [(g & R & HG) HH].
  rewrite (r_lvl s g R) in HL. destruct (g_nest g) as [|m r] eqn:EN; [unfold zlen in HL; simpl in HL; lia|].
  split; intros HS.
  - destruct (end_fits s g m r R EN) as (s' & E & _); eauto. rewrite <- (r_thead s g R). exact HS.
  - apply (end_full s g m r R EN). rewrite <- (r_thead s g R).
    destruct (r_twf s g R) as (T1 & _). lia.
Qed.

(* ---- C36 ---- *)
Lemma end_outside s : s_lvl s = 0 -> end_nested s = Ok (tt, s).
Proof. intros H. unfold end_nested, mput. rewrite H. reflexivity. Qed.

Lemma zero_outside s : s_lvl s = 0 -> set_zero_nested_adj s = Undef OutOfBounds.
Proof. intros H. unfold set_zero_nested_adj, mput, nest_get. rewrite H. reflexivity. Qed.

Lemma foldM_zero_oob n : forall hi s, hi = Z.of_nat n -> 
  (exists s', foldM chain_at (zdown hi (S n)) s = Ok s') -> False.
Proof.
  induction n as [|n IH]; intros hi s Hn [s' H]; cbn [zdown foldM] in H.
  - subst hi. unfold chain_at, vget in H. simpl in H. discriminate.
  - destruct (chain_at s hi) as [s1| | |]; cbn [bind] in H; try discriminate.
    apply (IH (hi - 1) s1); [lia|]. exists s'. exact H.
Qed.

(* outside every block the sweep of grad_nested runs down to slot 0 *)
Lemma grad_nested_outside s h s' : s_lvl s = 0 -> 1 <= s_head s -> grad_nested h s <> Ok (tt, s').
Proof.
  intros HL Hh H. unfold grad_nested, mput in H.
  destruct (set_var_adj h f1 s) as [s1| | |] eqn:E; cbn [bind] in H; try discriminate.
  assert (E2 : s_lvl s1 = 0 /\ s_head s1 = s_head s).
  { unfold set_var_adj in E. destruct (vget s h); cbn [bind] in E; try discriminate.
    destruct (set_adj_at _ _ _); cbn [bind] in E; try discriminate. inversion E; subst. auto. }
  destruct E2 as [E2 E3]. unfold curr_nested_vari_head in H. rewrite E2 in H.
  change (0 <? 0) with false in H. cbn [bind] in H. unfold down_to in H.
  replace (Z.to_nat (s_head s1 - 1 - 0 + 1)) with (S (Z.to_nat (s_head s1 - 1))) in H by lia.
  destruct (foldM chain_at _ s1) as [s2| | |] eqn:EF; cbn [bind] in H; try discriminate.
  apply (foldM_zero_oob (Z.to_nat (s_head s1 - 1)) (s_head s1 - 1) s1); [lia|]. exists s2. exact EF.
Qed.

Lemma grad_nested_outside_oob env s h : practical -> reachable env s -> s_lvl s = 0 -> alive s h ->
  grad_nested h s = Undef OutOfBounds.
Proof.
  intros HP HR HL Hh. destruct (reach_valid env s HP HR) as [(g & R & HG) _].
  destruct (alive_node s g h R Hh) as (k & -> & Hk).
  unfold grad_nested, mput. destruct (rel_set_var_adj s g k f1 R Hk) as (s1 & E1 & R1). rewrite E1. cbn [bind].
  unfold curr_nested_vari_head. rewrite (r_lvl _ _ R1). cbn [g_nest set_gadj].
  rewrite <- (r_lvl s g R), HL. change (0 <? 0) with false. cbn [bind].
  assert (HD : down_to (s_head s1 - 1) 0 = down_to (s_head s1 - 1) 1 ++ [0]).
  { unfold down_to. rewrite (r_head _ _ R1). cbn [set_gadj]. unfold gsize. cbn [set_gadj g_nodes].
    replace (Z.of_nat (length (g_nodes g)) + 1 - 1) with (Z.of_nat (length (g_nodes g))) by lia.
    generalize (length (g_nodes g)). intros n.
    replace (Z.to_nat (Z.of_nat n - 0 + 1)) with (S n) by lia.
    replace (Z.to_nat (Z.of_nat n - 1 + 1)) with n by lia.
    induction n as [|n IH]; [reflexivity|].
    cbn [zdown app]. f_equal. replace (Z.of_nat (S n) - 1) with (Z.of_nat n) by lia. exact IH. }
  rewrite HD. rewrite foldM_app.
  destruct (agrad_total (proj2 HP) g k HG Hk) as (g' & E & G').
  destruct (grad_ok s g k g' R E) as (s' & E' & R').
  unfold grad, mput in E'. rewrite E1 in E'. cbn [bind] in E'.
  destruct (foldM chain_at (down_to (s_head s1 - 1) 1) s1) as [s2| | |]; cbn [bind] in E'; try discriminate.
  cbn [bind foldM]. reflexivity.
Qed.

(* ---- C25 ---- *)
Lemma compare_call env s : practical -> reachable env s ->
  (forall q a b, alive s a -> alive s b -> exists x y,
     var_val s a = Ok x /\ var_val s b = Ok y /\ rel_vv q a b s = Ok (written q x y, s)) /\
  (forall q a d, alive s a -> exists x, var_val s a = Ok x /\ rel_vd q a d s = Ok (written q x d, s)) /\
  (forall q d b, alive s b -> exists y, var_val s b = Ok y /\ rel_dv q d b s = Ok (written q y d, s)).
Proof.
  intros HP HR. destruct (reach_valid env s HP HR) as [(g & R & HG) _].
  assert (V : forall h, alive s h -> exists x, var_val s h = Ok x).
  { intros h Hh. destruct (alive_node s g h R Hh) as (k & -> & Hk). rewrite (rel_var_val s g R) by auto. eauto. }
  split; [|split].
  - intros q a b Ha Hb. destruct (V a Ha) as [x Ex], (V b Hb) as [y Ey]. exists x, y.
    split; auto. split; auto. unfold rel_vv, mbind, vval, mget. rewrite Ex. cbn [bind]. rewrite Ey. destruct q; reflexivity.
  - intros q a d Ha. destruct (V a Ha) as [x Ex]. exists x. split; auto.
    unfold rel_vd, mbind, vval, mget. rewrite Ex. destruct q; reflexivity.
  - intros q d b Hb. destruct (V b Hb) as [x Ex]. exists x. split; auto.
    unfold rel_dv, mbind, vval, mget. rewrite Ex. destruct q; reflexivity.
Qed.

Lemma compare_two env s : practical -> reachable env s ->
  (forall q a b, alive s a -> alive s b -> exists x y,
     var_val s a = Ok x /\ var_val s b = Ok y /\ rel_vv q a b s = Ok (written q x y, s)) /\
  (forall q a d, alive s a -> exists x, var_val s a = Ok x /\ rel_vd q a d s = Ok (written q x d, s)).
Proof. intros HP HR. destruct (compare_call env s HP HR) as (A & B & _). auto. Qed.

(* ---- C07 ---- *)
Lemma reach_prog_value env0 p s env vs env' s' : practical -> reachable env0 s -> Forall (alive s) env ->
  prog_ok p -> forallb direct p = true -> (existsb is_matmul p = true -> s_lvl s = 0) ->
  mapM (var_val s) env = Ok vs -> exec p env s = Ok (env', s') ->
  exists vs', mapM (var_val s') env' = Ok vs' /\ plain_prog p vs = Some vs'.
Proof. intros HP HR. destruct (reach_valid env0 s HP HR) as [HV _]. apply prog_value; auto. Qed.

(* ---- C43 ---- *)
Lemma alias_call env s r h x : practical -> reachable env s -> nth_error env r = Some h -> alive s h ->
  var_val s h = Ok x ->
  exec_op env (OUn UPos r) s = Ok ([h], s) /\
  (feq f1 fhalf = false -> feq f1 f1 = true -> exec_op env (OVD BPow r f1) s = Ok ([h], s)) /\
  (fgt x f0 = true -> exec_op env (OUn UAbs r) s = Ok ([h], s)).
Proof.
  intros HP HR E Hh EV. cbn [exec_op un_v bin_vd]. unfold reg. rewrite E.
  split; [reflexivity|]. split.
  - intros H1 H2. unfold pow_vd. rewrite H1, H2. reflexivity.
  - intros H. unfold abs_v, one, mbind, mret, vval, mget. cbn [bind]. rewrite EV. cbn [bind].
    rewrite H. reflexivity.
Qed.

(* ---- C27 ---- *)
Lemma fresh_record s g v ks ch : practical -> Rel s g -> live g ks ->
  match record_op v (map hd ks) ch s with
  | Ok (h, s') => h = s_head s /\ alive s' h /\ var_val s' h = Ok v
  | Undef IntOverflow => True
  | _ => False
  end.
Proof.
  intros HP R Hl.
  assert (Y : yields True (record_op v (map hd ks) ch s) (gsize g) (a_new g v (BRec ks []) (Some ch))).
  { apply record_op_ok; [exact (proj1 HP)|exact R|exact Hl|]. intros _. exact Logic.I. }
  unfold yields in Y. apply wp_elim in Y.
  destruct (record_op v (map hd ks) ch s) as [[h s']| |[]|]; auto.
  cbn [fst snd] in Y. destruct Y as [-> R'].
  assert (K : (gsize g < gsize (a_new g v (BRec ks []) (Some ch)))%nat).
  { rewrite new_size. lia. }
  split; [|split].
  - rewrite (r_head s g R). unfold hd, gsize. lia.
  - eapply node_alive; eauto.
  - rewrite (rel_var_val _ _ R') by exact K. rewrite gval_new, Nat.eqb_refl. reflexivity.
Qed.

Lemma stops_call u (test : F -> bool) (f : F -> F) ch env s r h (x : F) :
  (forall v s, un_v u v s = (x <~ vval v ;; if is_nan_d x then mret v else if test x then mlift ErrStop
                 else record_op (f x) [v] ch) s) ->
  practical -> reachable env s -> nth_error env r = Some h -> alive s h -> var_val s h = Ok x ->
  (feq x x = false -> exec_op env (OUn u r) s = Ok ([h], s)) /\
  (feq x x = true -> test x = true -> exec_op env (OUn u r) s = ErrStop) /\
  (feq x x = true -> test x = false ->
     match exec_op env (OUn u r) s with
     | Ok ([h'], s') => ~ alive s h' /\ alive s' h' /\ var_val s' h' = Ok (f x)
     | Undef IntOverflow => True
     | _ => False
     end).
Proof.
  intros HU HP HR E Hh EV. destruct (reach_valid env s HP HR) as [(g & R & HG) HH].
  assert (HX : exec_op env (OUn u r) s =
     if is_nan_d x then Ok ([h], s) else if test x then ErrStop else one (record_op (f x) [h] ch) s).
  { cbn [exec_op]. rewrite (mbind_ok _ _ s h s) by (unfold reg; rewrite E; reflexivity).
    unfold one at 1. unfold mbind at 1. rewrite HU.
    rewrite (mbind_ok _ _ s x s) by (unfold vval, mget; rewrite EV; reflexivity).
    destruct (is_nan_d x); [reflexivity|]. destruct (test x); reflexivity. }
  rewrite HX. unfold is_nan_d, fne. split; [|split].
  - intros ->. reflexivity.
  - intros -> ->. reflexivity.
  - intros -> ->. cbn [negb].
    destruct (alive_node s g h R Hh) as (k & -> & Hk).
    pose proof (fresh_record s g (f x) [k] ch HP R (live1 g k Hk)) as W. cbn [map] in W.
    unfold one, mbind. destruct (record_op (f x) [hd k] ch s) as [[h' s']| |[]|]; cbn [bind mret]; auto.
    destruct W as (-> & W2 & W3). split; [|auto]. unfold alive. lia.
Qed.

Lemma acosh_call env s r h x : practical -> reachable env s -> nth_error env r = Some h -> alive s h ->
  var_val s h = Ok x ->
  (feq x x = false -> exec_op env (OUn UAcosh r) s = Ok ([h], s)) /\
  (feq x x = true -> fle x f1 = true -> exec_op env (OUn UAcosh r) s = ErrStop) /\
  (feq x x = true -> fle x f1 = false ->
     match exec_op env (OUn UAcosh r) s with
     | Ok ([h'], s') => ~ alive s h' /\ alive s' h' /\ var_val s' h' = Ok (facosh x)
     | Undef IntOverflow => True
     | _ => False
     end).
Proof. apply (stops_call UAcosh (fun x => fle x f1) facosh ChAcosh). reflexivity. Qed.

Lemma atanh_call env s r h x : practical -> reachable env s -> nth_error env r = Some h -> alive s h ->
  var_val s h = Ok x ->
  (feq x x = false -> exec_op env (OUn UAtanh r) s = Ok ([h], s)) /\
  (feq x x = true -> fle x (fneg f1) || fge x f1 = true -> exec_op env (OUn UAtanh r) s = ErrStop) /\
  (feq x x = true -> fle x (fneg f1) || fge x f1 = false ->
     match exec_op env (OUn UAtanh r) s with
     | Ok ([h'], s') => ~ alive s h' /\ alive s' h' /\ var_val s' h' = Ok (fatanh x)
     | Undef IntOverflow => True
     | _ => False
     end).
Proof. apply (stops_call UAtanh (fun x => fle x (fneg f1) || fge x f1) fatanh ChAtanh). reflexivity. Qed.

End Claims.

(* ---- C45, and the comparisons of C25, in binary64 ---- *)
From Verif Require Import B64Facts.
From Coq Require Import Reals Lra.
Section Special.
Variable L : Libm.
Notation b64 := (binary64).

Lemma some_inj {A} (a b : A) : Some a = Some b -> a = b.
Proof. congruence. Qed.

Lemma compare_nan_l (x y : b64) : Binary.is_nan 53 1024 x = true -> b64_compare x y = None.
Proof. destruct x; try discriminate. intros _. reflexivity. Qed.

Lemma compare_finite (x y : b64) : Binary.is_finite 53 1024 x = true -> Binary.is_finite 53 1024 y = true ->
  b64_compare x y = Some (Rcompare (Binary.B2R 53 1024 x) (Binary.B2R 53 1024 y)).
Proof. intros Hx Hy. apply Binary.Bcompare_correct; auto. Qed.

Lemma finite_le_max (x : b64) : Binary.is_finite 53 1024 x = true ->
  (Rabs (Binary.B2R 53 1024 x) <= Binary.B2R 53 1024 cmax)%R.
Proof.
  intros H. eapply Rle_trans; [apply (Binary.abs_B2R_le_emax_minus_prec 53 1024); reflexivity|].
  unfold cmax. vm_compute (b64_of_bits _). unfold Binary.B2R, F2R, cond_Zopp. cbn [Fnum Fexp].
  change (1024 - 53)%Z with 971%Z.
  replace (bpow radix2 1024) with (IZR (2^53) * bpow radix2 971)%R.
  2:{ change (IZR (2^53)) with (bpow radix2 53). rewrite <- bpow_plus. reflexivity. }
  rewrite <- (Rmult_1_l (bpow radix2 971)) at 2. rewrite <- Rmult_minus_distr_r.
  apply Rmult_le_compat_r; [apply bpow_ge_0|].
  change 1%R with (IZR 1). rewrite <- minus_IZR. apply IZR_le. vm_compute. discriminate.
Qed.

Lemma is_nan_exact (x : b64) : @is_nan_d (B64 L) x = Binary.is_nan 53 1024 x.
Proof.
  unfold is_nan_d, fne. cbn [feq B64]. unfold b_eq, b_cmp.
  destruct (Binary.is_nan 53 1024 x) eqn:E.
  - rewrite compare_nan_l by auto. reflexivity.
  - destruct (Binary.is_finite 53 1024 x) eqn:E2.
    + rewrite compare_finite by auto. rewrite Rcompare_Eq by reflexivity. reflexivity.
    + destruct x as [s|[]|s p e|s m e h]; try discriminate; reflexivity.
Qed.

Lemma is_inf_exact (x : b64) : @is_inf (B64 L) x = true <-> x = Binary.B754_infinity 53 1024 false.
Proof.
  unfold is_inf, fgt. cbn [flt c_huge B64]. unfold b_lt, b_cmp.
  destruct (Binary.is_finite 53 1024 x) eqn:E2.
  - assert (Q : b64_compare cmax x <> Some Lt).
    { rewrite compare_finite by (auto; reflexivity). intros Q. apply some_inj in Q.
      apply Rcompare_Lt_inv in Q. pose proof (finite_le_max x E2) as P.
      pose proof (Rle_abs (Binary.B2R 53 1024 x)) as H. lra. }
    destruct (b64_compare cmax x) as [[]|]; (split; [congruence|]); intros ->; discriminate.
  - destruct x as [s|[]|s p e|s m e h]; try discriminate; vm_compute; split; congruence.
Qed.

Lemma is_neg_inf_exact (x : b64) : @is_neg_inf (B64 L) x = true <-> x = Binary.B754_infinity 53 1024 true.
Proof.
  unfold is_neg_inf. cbn [flt fneg c_huge B64]. unfold b_lt, b_cmp.
  destruct (Binary.is_finite 53 1024 x) eqn:E2.
  - assert (Q : b64_compare x (b64_opp cmax) <> Some Lt).
    { rewrite compare_finite by (auto; reflexivity). intros Q. apply some_inj in Q.
      apply Rcompare_Lt_inv in Q. pose proof (finite_le_max x E2) as P.
      unfold b64_opp in Q. rewrite Binary.B2R_Bopp in Q.
      pose proof (Rle_abs (- Binary.B2R 53 1024 x)). rewrite Rabs_Ropp in H. lra. }
    destruct (b64_compare x (b64_opp cmax)) as [[]|]; (split; [congruence|]); intros ->; discriminate.
  - destruct x as [s|[]|s p e|s m e h]; try discriminate; vm_compute; split; congruence.
Qed.

(* the six relations on finite values are those of the reals they denote *)
Definition real_rel (q : rel) (x y : R) : Prop :=
  match q with
  | REq => x = y | RNe => x <> y | RLt => (x < y)%R | RLe => (x <= y)%R | RGt => (x > y)%R | RGe => (x >= y)%R
  end.

Lemma frel_finite q (x y : b64) : Binary.is_finite 53 1024 x = true -> Binary.is_finite 53 1024 y = true ->
  @frel (B64 L) q x y = true <-> real_rel q (Binary.B2R 53 1024 x) (Binary.B2R 53 1024 y).
Proof.
  intros Hx Hy. destruct q; unfold frel, fne, fgt, fge; cbn [feq flt fle B64]; unfold b_eq, b_lt, b_le, b_cmp;
  rewrite compare_finite by auto; cbn [real_rel];
  destruct (Rcompare_spec (Binary.B2R 53 1024 x) (Binary.B2R 53 1024 y)), 
           (Rcompare_spec (Binary.B2R 53 1024 y) (Binary.B2R 53 1024 x)); 
  cbn [negb]; split; intros; try reflexivity; try discriminate; try lra.
Qed.

(* a comparison with a NaN is false, except /= *)
Lemma frel_nan q (x y : b64) : Binary.is_nan 53 1024 x = true \/ Binary.is_nan 53 1024 y = true ->
  @frel (B64 L) q x y = match q with RNe => true | _ => false end.
Proof.
  intros H. destruct q; unfold frel, fne, fgt, fge; cbn [feq flt fle B64]; unfold b_eq, b_lt, b_le, b_cmp;
  destruct x as [s1|s1|s1 p1 e1|s1 m1 e1 h1], y as [s2|s2|s2 p2 e2|s2 m2 e2 h2]; try (destruct H; discriminate); 
  try reflexivity; destruct s1; try reflexivity; destruct s2; reflexivity.
Qed.

(* all operands, infinities and NaN included *)
Lemma written_ext q (x y : b64) : @written (B64 L) q x y = true <-> written64 q x y.
Proof.
  assert (FR : @written (B64 L) q x y = @frel (B64 L) q x y) by (destruct q; reflexivity).
  destruct (Binary.is_nan 53 1024 x) eqn:NX.
  { rewrite FR, (frel_nan q x y (or_introl NX)). destruct x; try discriminate. unfold written64. cbn [ext64].
    destruct q; split; congruence. }
  destruct (Binary.is_nan 53 1024 y) eqn:NY.
  { rewrite FR, (frel_nan q x y (or_intror NY)). destruct y; try discriminate. unfold written64. cbn [ext64].
    destruct (ext64 x), q; split; congruence. }
  destruct (Binary.is_finite 53 1024 x) eqn:FX; [destruct (Binary.is_finite 53 1024 y) eqn:FY|].
  - rewrite FR, (frel_finite q x y FX FY).
    assert (EX : ext64 x = Some (Real (Binary.B2R 53 1024 x))) by (destruct x; try discriminate; reflexivity).
    assert (EY : ext64 y = Some (Real (Binary.B2R 53 1024 y))) by (destruct y; try discriminate; reflexivity).
    unfold written64. rewrite EX, EY. generalize (Binary.B2R 53 1024 x), (Binary.B2R 53 1024 y). intros a b.
    assert (RE : Real a = Real b <-> a = b) by (split; congruence).
    destruct q; cbn [real_rel ext_lt]; rewrite ?RE; try tauto; try lra; split; intros; lra.
  - destruct y as [s2|s2|s2 p2 e2|s2 m2 e2 h2]; try discriminate. 
    destruct x as [s1|s1|s1 p1 e1|s1 m1 e1 h1]; try discriminate; unfold written64; cbn [ext64];
      destruct s1, s2, q; cbn; split; intros; try discriminate; try tauto; try reflexivity; try (intuition congruence).
  - destruct x as [s1|s1|s1 p1 e1|s1 m1 e1 h1]; try discriminate.
    destruct y as [s2|s2|s2 p2 e2|s2 m2 e2 h2]; try discriminate; unfold written64; cbn [ext64];
      destruct s1, s2, q; cbn; split; intros; try discriminate; try tauto; try reflexivity; try (intuition congruence).
Qed.
End Special.

Lemma compare_b64 (L : Libm) {C : Cfg (B64 L)} env s : @practical (B64 L) C -> reachable env s ->
  (forall q a b x y, alive s a -> alive s b -> var_val s a = Ok x -> var_val s b = Ok y ->
     exists r, rel_vv q a b s = Ok (r, s) /\ (r = true <-> written64 q x y)) /\
  (forall q a x (d : binary64), alive s a -> var_val s a = Ok x ->
     exists r, @rel_vd (B64 L) q a d s = Ok (r, s) /\ (r = true <-> written64 q x d)).
Proof.
  intros HP HR. destruct (compare_call env s HP HR) as (A & B & _). split.
  - intros q a b x y Ha Hb Ex Ey. destruct (A q a b Ha Hb) as (x' & y' & Ex' & Ey' & E).
    rewrite Ex in Ex'. rewrite Ey in Ey'. injection Ex' as <-. injection Ey' as <-. eexists. split; [exact E|apply written_ext].
  - intros q a x d Ha Ex. destruct (B q a d Ha) as (x' & Ex' & E). rewrite Ex in Ex'. injection Ex' as <-.
    eexists. split; [exact E|apply written_ext].
Qed.
