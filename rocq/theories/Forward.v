(* The expression a program denotes on plain numbers, and the values of the
   variables it creates. *)
From Verif Require Import TapeFacts.
From Coq Require Import ZifyBool ZifyNat.
From Verif Require Export Frames.

(* ---- plain evaluation: no tape, no variables ---- *)
Section Plain.
Context {N : Num} {C : Cfg N}.

Definition plain_un (u : un) (x : F) : option F :=
  match u with
  | USin => Some (fsin x) | UCos => Some (fcos x) | UTan => Some (ftan x)
  | UAsin => Some (fasin x) | UAcos => Some (facos x) | UAtan => Some (fatan x)
  | USinh => Some (fsinh x) | UCosh => Some (fcosh x) | UTanh => Some (ftanh x)
  | UAsinh => Some (fasinh x)
  (* error stop outside the domain, NaN passed through *)
  | UAcosh => if feq x x then (if fle x f1 then None else Some (facosh x)) else Some x
  | UAtanh => if feq x x then (if fle x (fneg f1) || fle f1 x then None else Some (fatanh x)) else Some x
  | UExp => Some (fexp x) | ULog => Some (flog x) | USqrt => Some (fsqrt x)
  | USquare => Some (fmul x x)
  | UInv => Some (fdiv f1 x)
  | UInvSqrt => Some (fdiv f1 (fsqrt x))
  | UInvSquare => Some (fdiv f1 (fmul x x))
  | ULogit => Some (flog (fdiv x (fsub f1 x)))
  | UInvLogit => Some (inv_logit_d x)
  | UErf => Some (ferf x) | UErfc => Some (ferfc x) | ULogGamma => Some (floggamma x)
  | UNeg => Some (fneg x)
  | UPos => Some x
  | UAbs => Some (fabs x)
  end.

Definition plain_bin (b : bin) (x y : F) : F :=
  match b with
  | BAdd => fadd x y | BSub => fsub x y | BMul => fmul x y | BDiv => fdiv x y
  | BPow => fpow x y | BHypot => fhypot x y
  end.

(* matrix product, column-major *)
Definition plain_mm (m k n : nat) (a b : list F) : list F :=
  flat_map (fun j => map (fun i => fmm (map (fun l => nth (i + l * m) a f0) (seq 0 k))
                                       (map (fun l => nth (l + j * k) b f0) (seq 0 k)))
                         (seq 0 m)) (seq 0 n).

(* results of one call on the values of its operand registers, in the order
   they are written *)
Definition plain (o : op) (xs : list F) : option (list F) :=
  match o with
  | OVar d => Some [d]
  | OVar0 => Some [f0]
  | OUn u _ => match xs with [x] => option_map (fun y => [y]) (plain_un u x) | _ => None end
  | OVV b _ _ => match xs with [x; y] => Some [plain_bin b x y] | _ => None end
  | OVD b _ d => match xs with [x] => Some [plain_bin b x d] | _ => None end
  | ODV b d _ => match xs with [x] => Some [plain_bin b d x] | _ => None end
  | OSum _ => Some [fsum xs]
  | ONorm2 _ => Some [fnorm2 xs]
  | OLse _ => Some [log_sum_exp_d xs]
  | ODotVV l _ => Some [fdot (firstn (length l) xs) (skipn (length l) xs)]
  | ODotVD _ d => Some [fdot xs d]
  | ODotDV d _ => Some [fdot d xs]
  | OMatVV m k n a _ => Some (plain_mm m k n (firstn (length a) xs) (skipn (length a) xs))
  | OMatVD m k n _ b => Some (plain_mm m k n xs b)
  | OMatDV m k n a _ => Some (plain_mm m k n a xs)
  | OPart v _ _ => Some [v xs]
  end.

(* values of registers *)
Fixpoint reads {A} (vs : list A) (l : list nat) : option (list A) :=
  match l with
  | [] => Some []
  | r :: t => match nth_error vs r, reads vs t with Some x, Some xs => Some (x :: xs) | _, _ => None end
  end.

(* a program on a register file of numbers *)
Fixpoint plain_prog (p : list op) (vs : list F) : option (list F) :=
  match p with
  | [] => Some vs
  | o :: t => match reads vs (op_regs o) with
              | Some xs => match plain o xs with Some ys => plain_prog t (vs ++ ys) | None => None end
              | None => None
              end
  end.

(* calls whose value is computed exactly as written; the others compute an
   expression that is equal in real arithmetic only *)
Definition direct (o : op) : bool :=
  match o with
  | OUn UAbs _ | OUn UInvSquare _ => false
  | OVD BPow _ d =>
      negb (feq d fhalf || feq d f1 || feq d f2 || feq d (fneg f2) || feq d (fneg f1) || feq d (fneg fhalf))
  | ODV BMul _ _ | ODV BHypot _ _ => false
  | _ => true
  end.

(* values of the operand registers of a call *)
Definition reg_val (s : st) (env : list Z) (r : nat) : res F :=
  match nth_error env r with Some h => var_val s h | None => Undef OutOfBounds end.
Definition op_vals (s : st) (env : list Z) (o : op) : res (list F) := mapM (reg_val s env) (op_regs o).

(* arrays and neutral constants of a program *)
Definition prog_ok (p : list op) : Prop :=
  Forall (fun o => op_shape o /\ neutral o = false) p.

End Plain.

Section Forward.
Context {N : Num} {RL : RepLaws N} {C : Cfg N}.

Lemma gval_new g v b ch j : gval (a_new g v b ch) j = if Nat.eqb j (gsize g) then v else gval g j.
Proof.
  unfold gval, a_new, push_top. cbn [g_nodes]. destruct (Nat.eqb_spec j (gsize g)) as [->|Hne].
  - unfold gsize. rewrite nth_error_app2 by lia. rewrite Nat.sub_diag. reflexivity.
  - unfold gsize in Hne. destruct (Nat.lt_ge_cases j (length (g_nodes g))).
    + rewrite nth_error_app1 by lia. reflexivity.
    + rewrite nth_error_app2 by lia. rewrite (proj2 (nth_error_None (g_nodes g) j)) by lia.
      destruct (j - length (g_nodes g))%nat as [|[|q]] eqn:Q; try lia; reflexivity.
Qed.

Lemma gval_mat ch ia ib ps : forall g j,
  gval (mat_nodes ch ia ib ps g) j =
  if Nat.ltb j (gsize g) then gval g j else nth (j - gsize g) (map snd ps) f0.
Proof.
  unfold mat_nodes. induction ps as [|q ps IH]; intros g j; cbn [fold_left map].
  - destruct (Nat.ltb_spec j (gsize g)); auto. unfold gval, gsize in *.
    rewrite (proj2 (nth_error_None (g_nodes g) j)) by lia. destruct (j - _)%nat; reflexivity.
  - rewrite IH, new_size, gval_new. destruct (Nat.ltb_spec j (S (gsize g))).
    + destruct (Nat.eqb_spec j (gsize g)) as [->|].
      * rewrite Nat.ltb_irrefl, Nat.sub_diag. reflexivity.
      * replace (Nat.ltb j (gsize g)) with true by lia. reflexivity.
    + replace (Nat.ltb j (gsize g)) with false by lia.
      replace (j - gsize g)%nat with (S (j - S (gsize g))) by lia. reflexivity.
Qed.

Definition vreg (g : graph) (env : list nat) (r : nat) : F :=
  match nth_error env r with Some k => gval g k | None => f0 end.

Lemma areg_vreg g env r k : areg g env r = Some k -> vreg g env r = gval g k.
Proof.
  unfold areg, vreg. destruct (nth_error env r) as [j|]; [|discriminate].
  destruct (Nat.ltb j (gsize g)); [|discriminate]. intros H; inversion H; auto.
Qed.

Lemma aregs_vreg g env l : forall ks, aregs g env l = Some ks -> map (vreg g env) l = map (gval g) ks.
Proof.
  induction l as [|r l IH]; intros ks; cbn [aregs].
  - intros H; inversion H; reflexivity.
  - destruct (areg g env r) as [k|] eqn:E; [|discriminate]. destruct (aregs g env l) as [ks'|]; [|discriminate].
    intros H; inversion H; subst. cbn [map]. rewrite (areg_vreg _ _ _ _ E). f_equal. auto.
Qed.

Lemma aregs_len g env l : forall ks, aregs g env l = Some ks -> length ks = length l.
Proof.
  induction l as [|r l IH]; intros ks; cbn [aregs].
  - intros H; inversion H; reflexivity.
  - destruct (areg g env r) as [k|]; [|discriminate]. destruct (aregs g env l) as [ks'|]; [|discriminate].
    intros H; inversion H; subst. cbn [length]. f_equal. auto.
Qed.

Lemma mpairs_plain (f : nat -> nat -> F) m n :
  map (fun p => f (fst p) (snd p)) (mpairs m n) = flat_map (fun j => map (fun i => f i j) (seq 0 m)) (seq 0 n).
Proof.
  unfold mpairs. generalize (seq 0 n). intros l. induction l as [|j l IH]; cbn [flat_map]; auto.
  rewrite map_app, map_map, IH. reflexivity.
Qed.

Lemma mat_vals_plain m k n a b : mat_vals m k n a b = plain_mm m k n a b.
Proof.
  unfold mat_vals, plain_mm. rewrite (mpairs_plain (fun i j => fmm (mrow f0 m k i a) (mcol f0 k j b))). reflexivity.
Qed.

Lemma mpairs_len m n : length (mpairs m n) = (m * n)%nat.
Proof.
  unfold mpairs. assert (H : forall l : list nat,
    length (flat_map (fun j => map (fun i => (i, j)) (seq 0 m)) l) = (m * length l)%nat).
  { induction l as [|j l IH]; cbn [flat_map length]; [lia|]. rewrite app_length, map_length, seq_length, IH. lia. }
  rewrite H, seq_length. reflexivity.
Qed.

Lemma amat_vals ch m k n ca cb av bv g ks g' : amat ch m k n ca cb av bv g = AOk (ks, g') ->
  map (gval g') ks = plain_mm m k n av bv.
Proof.
  unfold amat. destruct (_ && _ && _); [|discriminate]. intros H.
  set (ps := combine (mpairs m n) (mat_vals m k n av bv)) in *.
  assert (E1 : ks = seq (gsize g) (length ps)) by (inversion H; auto).
  assert (E2 : g' = mat_nodes ch (length (g_arrs g)) (S (length (g_arrs g))) ps
                (a_arr (a_arr g m k ca) k n cb)) by (inversion H; auto).
  clear H. rewrite <- mat_vals_plain.
  assert (LV : length (mat_vals m k n av bv) = (m * n)%nat).
  { unfold mat_vals. rewrite map_length, mpairs_len. auto. }
  assert (SP : map snd ps = mat_vals m k n av bv).
  { unfold ps. clear - LV. assert (LL : length (mpairs m n) = length (mat_vals m k n av bv)) by (rewrite mpairs_len; lia).
    revert LL. generalize (mat_vals m k n av bv). generalize (mpairs m n). intros l. induction l as [|x l IH]; intros [|y t] HH; simpl in *; try lia; auto.
    f_equal. apply IH. lia. }
  rewrite <- SP. apply nth_ext with (d := f0) (d' := f0).
  { rewrite !map_length, E1, seq_length. reflexivity. }
  intros i Hi. rewrite map_length, E1, seq_length in Hi.
  rewrite (nth_indep _ f0 (gval g' O)) by (rewrite map_length, E1, seq_length; lia).
  rewrite map_nth, E1, seq_nth by lia. rewrite E2, gval_mat.
  change (gsize (a_arr (a_arr g m k ca) k n cb)) with (gsize g).
  replace (Nat.ltb (gsize g + i) (gsize g)) with false by lia. f_equal. lia.
Qed.

Ltac inv_act :=
  match goal with
  | H : AOk _ = AOk _ |- _ => inversion H; subst; clear H
  end.

Lemma new_vals g v b ch : map (gval (a_new g v b ch)) [gsize g] = [v].
Proof. cbn [map]. rewrite gval_new, Nat.eqb_refl. reflexivity. Qed.

Lemma op_vals_plain g env o ks g' : neutral o = false -> direct o = true ->
  aexec_op g env o = AOk (ks, g') -> plain o (map (vreg g env) (op_regs o)) = Some (map (gval g') ks).
Proof.
  intros HN HD HE. destruct o; cbn [aexec_op act_op op_regs map] in *.
  - simpl in HE. inv_act. rewrite new_vals. reflexivity.
  - simpl in HE. inv_act. rewrite new_vals. reflexivity.
  - destruct (areg g env a) as [k|] eqn:EA; [|discriminate]. rewrite (areg_vreg _ _ _ _ EA). cbn [plain].
    destruct u; try discriminate HD; cbn [act_un anew1 do_act abind] in HE;
      try (cbn [fst snd] in HE; inv_act; rewrite new_vals; reflexivity).
    + unfold is_nan_d, fne in HE. cbn [plain_un]. destruct (feq (gval g k) (gval g k)); cbn [negb] in HE.
      * destruct (fle (gval g k) f1); cbn [do_act abind fst snd anew1] in HE; [discriminate|].
        inv_act. rewrite new_vals. reflexivity.
      * cbn [do_act abind fst snd] in HE. inv_act. reflexivity.
    + unfold is_nan_d, fne, fge in HE. cbn [plain_un]. destruct (feq (gval g k) (gval g k)); cbn [negb] in HE.
      * destruct (fle (gval g k) (fneg f1) || fle f1 (gval g k)); cbn [do_act abind fst snd anew1] in HE; [discriminate|].
        inv_act. rewrite new_vals. reflexivity.
      * cbn [do_act abind fst snd] in HE. inv_act. reflexivity.
    + cbn [fst snd] in HE. inv_act. reflexivity.
  - destruct (areg g env x) as [k1|] eqn:E1; [|discriminate].
    destruct (areg g env y) as [k2|] eqn:E2; [|discriminate].
    rewrite (areg_vreg _ _ _ _ E1), (areg_vreg _ _ _ _ E2). cbn [plain].
    destruct b; cbn [act_vv do_act abind fst snd] in HE; inv_act; rewrite new_vals; reflexivity.
  - destruct (areg g env x) as [k|] eqn:E1; [|discriminate]. rewrite (areg_vreg _ _ _ _ E1). cbn [plain].
    destruct b; cbn [act_vd] in HE; cbn [neutral] in HN; cbn [direct] in HD; unfold fne in HE;
      try (rewrite HN in HE; cbn [negb do_act abind fst snd] in HE; inv_act; rewrite new_vals; reflexivity).
    destruct (feq d fhalf); [discriminate HD|]. destruct (feq d f1); [discriminate HD|].
    destruct (feq d f2); [discriminate HD|]. destruct (feq d (fneg f2)); [discriminate HD|].
    destruct (feq d (fneg f1)); [discriminate HD|]. destruct (feq d (fneg fhalf)); [discriminate HD|].
    cbn [do_act abind fst snd] in HE. inv_act. rewrite new_vals. reflexivity.
  - destruct (areg g env y) as [k|] eqn:E1; [|discriminate]. rewrite (areg_vreg _ _ _ _ E1). cbn [plain].
    destruct b; try discriminate HD; cbn [act_dv] in HE; cbn [neutral] in HN; unfold fne in HE;
      try rewrite HN in HE; cbn [negb do_act abind fst snd] in HE; inv_act; rewrite new_vals; reflexivity.
  - destruct (aregs g env l) as [k|] eqn:E1; [|discriminate]. rewrite (aregs_vreg _ _ _ _ E1).
    cbn [do_act abind fst snd] in HE. inv_act. rewrite new_vals. reflexivity.
  - destruct (aregs g env l) as [k|] eqn:E1; [|discriminate]. rewrite (aregs_vreg _ _ _ _ E1).
    cbn [do_act abind fst snd] in HE. inv_act. rewrite new_vals. reflexivity.
  - destruct (aregs g env l) as [k|] eqn:E1; [|discriminate]. rewrite (aregs_vreg _ _ _ _ E1).
    cbn [do_act abind fst snd] in HE. inv_act. rewrite new_vals. reflexivity.
  - destruct (aregs g env l1) as [k1|] eqn:E1; [|discriminate]. destruct (aregs g env l2) as [k2|] eqn:E2; [|discriminate].
    rewrite map_app, (aregs_vreg _ _ _ _ E1), (aregs_vreg _ _ _ _ E2).
    destruct (Nat.eqb _ _); [|discriminate]. cbn [do_act abind fst snd] in HE. inv_act. rewrite new_vals. cbn [plain].
    rewrite firstn_app, skipn_app, map_length, <- (aregs_len _ _ _ _ E1), Nat.sub_diag.
    rewrite firstn_all2, skipn_all2 by (rewrite map_length; lia). cbn [firstn skipn app]. rewrite app_nil_r. reflexivity.
  - destruct (aregs g env l) as [k|] eqn:E1; [|discriminate]. rewrite (aregs_vreg _ _ _ _ E1).
    destruct (Nat.eqb _ _); [|discriminate]. cbn [do_act abind fst snd] in HE. inv_act. rewrite new_vals. reflexivity.
  - destruct (aregs g env l) as [k|] eqn:E1; [|discriminate]. rewrite (aregs_vreg _ _ _ _ E1).
    destruct (Nat.eqb _ _); [|discriminate]. cbn [do_act abind fst snd] in HE. inv_act. rewrite new_vals. reflexivity.
  - destruct (aregs g env a) as [k1|] eqn:E1; [|discriminate]. destruct (aregs g env b) as [k2|] eqn:E2; [|discriminate].
    rewrite map_app, (aregs_vreg _ _ _ _ E1), (aregs_vreg _ _ _ _ E2). apply amat_vals in HE. rewrite HE. cbn [plain].
    rewrite firstn_app, skipn_app, map_length, <- (aregs_len _ _ _ _ E1), Nat.sub_diag.
    rewrite firstn_all2, skipn_all2 by (rewrite map_length; lia). cbn [firstn skipn app]. rewrite app_nil_r. reflexivity.
  - destruct (aregs g env a) as [k1|] eqn:E1; [|discriminate]. rewrite (aregs_vreg _ _ _ _ E1).
    apply amat_vals in HE. rewrite HE. reflexivity.
  - destruct (aregs g env b) as [k1|] eqn:E1; [|discriminate]. rewrite (aregs_vreg _ _ _ _ E1).
    apply amat_vals in HE. rewrite HE. reflexivity.
  - destruct (aregs g env l) as [k|] eqn:E1; [|discriminate]. rewrite (aregs_vreg _ _ _ _ E1).
    destruct (Nat.eqb _ _); [|discriminate]. cbn [do_act abind fst snd] in HE. inv_act. rewrite new_vals. reflexivity.
Qed.

Lemma mapM_map {A B} (f : A -> res B) (h : A -> B) l : (forall x, In x l -> f x = Ok (h x)) -> mapM f l = Ok (map h l).
Proof.
  induction l as [|x l IH]; intros H; cbn [mapM map]; auto. rewrite (H x) by (left; auto). cbn [bind].
  rewrite IH; auto. intros y Hy. apply H. right; auto.
Qed.

Lemma reg_val_vreg s g env r : Rel s g -> handles env -> has_reg s env r ->
  reg_val s env r = Ok (vreg g (nodes_of env) r).
Proof.
  intros R HH (h & E & A). unfold reg_val, vreg. rewrite E.
  destruct (alive_node s g h R A) as (k & -> & Hk).
  assert (E2 : nth_error (nodes_of env) r = Some k).
  { unfold nodes_of. rewrite nth_error_map, E. cbn [option_map]. f_equal. unfold hd. lia. }
  rewrite E2. apply rel_var_val; auto.
Qed.

Theorem op_value s env o hs s' : practical -> valid s -> handles env -> op_ok s env o -> direct o = true ->
  exec_op env o s = Ok (hs, s') ->
  exists xs ys, op_vals s env o = Ok xs /\ mapM (var_val s') hs = Ok ys /\ plain o xs = Some ys.
Proof.
  intros [HC HJ] (g & R & HG) HH HO HD HX.
  pose proof (exec_op_ok HC s g (nodes_of env) o R) as HP. rewrite nodes_of_hd in HP by auto.
  destruct (op_accept s g env o R HG HO) as [A1 A2].
  destruct (aexec_op g (nodes_of env) o) as [[ks g']| |] eqn:E; [| |tauto].
  2:{ simpl in HP. rewrite HX in HP. discriminate. }
  simpl in HP. specialize (HP (cap < g_peak g') (fun x => x)). rewrite HX in HP. simpl in HP.
  destruct HP as [Eh R']. cbn [fst snd] in *. subst hs.
  destruct HO as (HO1 & HO2 & HO3 & HO4).
  assert (RO : Forall (fun k => (k < gsize g')%nat) ks).
  { destruct (op_frame _ _ _ _ _ HO3 E) as [GR [(M & k & -> & Hk & ->)|(Es & Sz)]]; [repeat constructor; auto|].
    rewrite Es, Forall_forall. intros k Hk. apply in_seq in Hk. lia. }
  exists (map (vreg g (nodes_of env)) (op_regs o)), (map (gval g') ks). split; [|split].
  - apply mapM_map. intros r Hr. apply reg_val_vreg; auto. rewrite Forall_forall in HO1. auto.
  - clear - R' RO. induction ks as [|k ks IH]; cbn [map mapM]; auto.
    inversion RO; subst. rewrite (rel_var_val s' g' R') by auto. cbn [bind]. rewrite IH; auto.
  - apply op_vals_plain; auto.
Qed.

Lemma reg_inv {B} env a (k : Z -> M B) s r : mbind (reg env a) k s = Ok r -> exists h, nth_error env a = Some h /\ k h s = Ok r.
Proof.
  unfold reg, mbind. destruct (nth_error env a) as [h|]; cbn; [eauto|discriminate].
Qed.

Lemma regs_ok env l s : forall xs s2, regs env l s = Ok (xs, s2) ->
  Forall (fun a => exists h, nth_error env a = Some h) l /\ s2 = s.
Proof.
  unfold regs. induction l as [|a l IH]; intros xs s2 H.
  - cbn in H. inversion H; auto.
  - cbn [mmap] in H. apply reg_inv in H. destruct H as (h & E & H). unfold mbind at 1 in H.
    destruct (mmap (reg env) l s) as [[x s3]| | |]; try discriminate. cbn in H. inversion H; subst.
    destruct (IH _ _ eq_refl) as [A B]. split; auto. constructor; eauto.
Qed.

Lemma regs_inv {B} env l (k : list Z -> M B) s r : mbind (regs env l) k s = Ok r ->
  Forall (fun a => exists h, nth_error env a = Some h) l.
Proof.
  unfold mbind. destruct (regs env l s) as [[xs s2]| | |] eqn:E; try discriminate. intros _.
  apply (regs_ok _ _ _ _ _ E).
Qed.

Lemma regs_step {B} env l (k : list Z -> M B) s r : mbind (regs env l) k s = Ok r ->
  exists xs, k xs s = Ok r.
Proof.
  unfold mbind. destruct (regs env l s) as [[xs s2]| | |] eqn:E; try discriminate. cbn [bind].
  destruct (regs_ok _ _ _ _ _ E) as [_ ->]. eauto.
Qed.

Lemma exec_op_regs env o s r : exec_op env o s = Ok r -> Forall (fun a => exists h, nth_error env a = Some h) (op_regs o).
Proof.
  intros H. destruct o; cbn [exec_op op_regs] in *;
    try (apply regs_inv in H; exact H); try constructor;
    try (apply reg_inv in H; destruct H as (h & E & H); eauto); try (constructor; fail).
  - constructor; [|constructor]. apply reg_inv in H. destruct H as (h2 & E2 & H). eauto.
  - apply Forall_app. split; [apply regs_inv in H; exact H|].
    apply regs_step in H. destruct H as [xs H]. apply regs_inv in H. exact H.
  - apply Forall_app. split; [apply regs_inv in H; exact H|].
    apply regs_step in H. destruct H as [xs H]. apply regs_inv in H. exact H.
Qed.

Lemma alive_handles s env : Forall (alive s) env -> handles env.
Proof. apply Forall_impl. unfold alive. lia. Qed.

Lemma mapM_app {A B} (f : A -> res B) l1 l2 :
  mapM f (l1 ++ l2) = (ys <- mapM f l1 ;; zs <- mapM f l2 ;; Ok (ys ++ zs)).
Proof.
  induction l1 as [|x l IH]; cbn [mapM app].
  - destruct (mapM f l2); reflexivity.
  - destruct (f x); cbn [bind]; auto. rewrite IH. destruct (mapM f l); cbn [bind]; auto.
    destruct (mapM f l2); reflexivity.
Qed.

Lemma mapM_ext {A B} (f f' : A -> res B) l : (forall x, In x l -> f x = f' x) -> mapM f l = mapM f' l.
Proof.
  induction l as [|x l IH]; intros H; cbn [mapM]; auto. rewrite (H x) by (left; auto).
  rewrite IH; auto. intros; apply H; right; auto.
Qed.

Lemma mapM_nth {A B} (f : A -> res B) l ys r x : mapM f l = Ok ys -> nth_error l r = Some x ->
  exists y, nth_error ys r = Some y /\ f x = Ok y.
Proof.
  revert ys r. induction l as [|z l IH]; intros ys r H E; [destruct r; discriminate|].
  cbn [mapM] in H. destruct (f z) as [y| | |] eqn:F; try discriminate. cbn [bind] in H.
  destruct (mapM f l) as [zs| | |]; try discriminate. cbn [bind] in H. inversion H; subst.
  destruct r as [|r]; cbn [nth_error] in *; [inversion E; subst; eauto|]. apply IH; auto.
Qed.

Lemma reads_vals s env vs : mapM (var_val s) env = Ok vs -> forall l xs,
  mapM (reg_val s env) l = Ok xs -> reads vs l = Some xs.
Proof.
  intros HV. induction l as [|r l IH]; intros xs H; cbn [mapM] in H.
  - inversion H; reflexivity.
  - unfold reg_val at 1 in H. destruct (nth_error env r) as [h|] eqn:E; [|discriminate].
    destruct (mapM_nth _ _ _ _ _ HV E) as (y & E2 & E3). rewrite E3 in H. cbn [bind] in H.
    destruct (mapM (reg_val s env) l) as [ys| | |]; try discriminate. cbn [bind] in H. inversion H; subst.
    cbn [reads]. rewrite E2, (IH _ eq_refl). reflexivity.
Qed.

(* one step of a program on live registers *)
Theorem prog_step s env o hs s' : practical -> valid s -> Forall (alive s) env ->
  op_shape o -> neutral o = false -> (is_matmul o = true -> s_lvl s = 0) ->
  exec_op env o s = Ok (hs, s') ->
  op_ok s env o /\ valid s' /\ s_lvl s' = s_lvl s /\ Forall (alive s') (env ++ hs) /\
  (forall h, alive s h -> untouched s s' h).
Proof.
  intros HP HV HA HS HN HM HX. pose proof (exec_op_regs _ _ _ _ HX) as HR.
  assert (HO : op_ok s env o).
  { split; [|auto]. eapply Forall_impl; [|exact HR]. cbv beta. intros a (h & E). exists h. split; auto.
    rewrite Forall_forall in HA. apply HA. eapply nth_error_In; eauto. }
  split; auto. pose proof (op_frame_concrete s env o HP HV (alive_handles _ _ HA) HO) as HF.
  rewrite HX in HF. destruct HF as (V' & L' & U & D). split; auto. split; auto. split; auto.
  apply Forall_app. split.
  - eapply Forall_impl; [|exact HA]. intros h Hh. apply (U h Hh).
  - destruct D as [(_ & (h & -> & Hh) & _)|(E & E2 & D)].
    + constructor; [|constructor]. apply (U h Hh).
    + apply Forall_forall. intros h Hh. apply (D h Hh).
Qed.

Theorem prog_value p : forall s env vs env' s', practical -> valid s -> Forall (alive s) env ->
  prog_ok p -> forallb direct p = true -> (existsb is_matmul p = true -> s_lvl s = 0) ->
  mapM (var_val s) env = Ok vs -> exec p env s = Ok (env', s') ->
  exists vs', mapM (var_val s') env' = Ok vs' /\ plain_prog p vs = Some vs'.
Proof.
  induction p as [|o p IH]; intros s env vs env' s' HP HV HA HK HD HM HE HX.
  - cbn in HX. inversion HX; subst. exists vs. auto.
  - inversion HK as [|? ? [K1 K2] K3]; subst. cbn [forallb existsb] in HD, HM. apply andb_prop in HD. destruct HD as [D1 D2].
    cbn [exec] in HX. unfold mbind in HX. destruct (exec_op env o s) as [[hs s1]| | |] eqn:E; try discriminate.
    cbn [bind] in HX.
    destruct (prog_step s env o hs s1 HP HV HA K1 K2) as (O1 & V1 & L1 & A1 & U1); auto.
    { intros Hm. apply HM. rewrite Hm. reflexivity. }
    destruct (op_value s env o hs s1 HP HV (alive_handles _ _ HA) O1 D1 E) as (xs & ys & X1 & X2 & X3).
    assert (W : mapM (var_val s1) (env ++ hs) = Ok (vs ++ ys)).
    { rewrite mapM_app. rewrite (mapM_ext (var_val s1) (var_val s)).
      - rewrite HE. cbn [bind]. rewrite X2. reflexivity.
      - intros h Hh. rewrite Forall_forall in HA. apply (U1 h (HA h Hh)). }
    destruct (IH s1 (env ++ hs) (vs ++ ys) env' s' HP V1 A1 K3 D2) as (vs' & Y1 & Y2); auto.
    { intros Hm. rewrite L1. apply HM. rewrite Hm. apply orb_true_r. }
    exists vs'. split; auto. cbn [plain_prog]. rewrite (reads_vals s env vs HE _ _ X1), X3. exact Y2.
Qed.

End Forward.
