(* A call looks at a chain pointer left behind in a slot beyond the last variable only
   when a variable without an operation takes that slot. *)
From Coq Require Import ZifyBool.
From Verif Require Export RepeatSpec Blind.
Local Open Scope Z_scope.

Section Steady.
Context {N : Num} {C : Cfg N}.

(* same states, except for chain pointers in slots that are neither taken nor in p; no
   matmul pointer in the slots of p *)
Record agree (p : Z -> bool) (s t : st) : Prop := {
  ag_head : s_head t = s_head s;
  ag_n : s_n t = s_n s;
  ag_tape : s_tape t = s_tape s;
  ag_lvl : s_lvl t = s_lvl s;
  ag_nv : s_nv t = s_nv s;
  ag_nt : s_nt t = s_nt s;
  ag_i : forall j, v_i (s_varis t j) = v_i (s_varis s j);
  ag_ch : forall j, p j = true \/ j < s_head s -> v_chain (s_varis t j) = v_chain (s_varis s j);
  ag_p : forall j, p j = true -> 1 <= j <= s_n s -> is_mat (v_chain (s_varis s j)) = false
}.

Definition both {A} (P : A -> A -> Prop) (r r' : res A) : Prop :=
  match r, r' with
  | Ok a, Ok b => P a b
  | ErrStop, ErrStop => True
  | Undef u, Undef u' => u = u'
  | OutOfFuel, OutOfFuel => True
  | _, _ => False
  end.
Definition pairs {A} (p : Z -> bool) (x y : A * st) : Prop := fst x = fst y /\ agree p (snd x) (snd y).

Definition steady {A} (m : M A) : Prop := forall p s t, agree p s t -> both (pairs p) (m s) (m t).
Definition steady_st (f : st -> res st) : Prop := forall p s t, agree p s t -> both (agree p) (f s) (f t).
Definition steady_get {A} (f : st -> res A) : Prop := forall p s t, agree p s t -> f s = f t.

Lemma both_bind {A B} (P : A -> A -> Prop) (Q : B -> B -> Prop) r r' (k k' : A -> res B) : both P r r' -> (forall a b, P a b -> both Q (k a) (k' b)) ->
  both Q (bind r k) (bind r' k').
Proof. destruct r, r'; cbn [both bind]; intros H K; try tauto. apply K; auto. Qed.
Lemma both_weak {A} (P Q : A -> A -> Prop) r r' : both P r r' -> (forall a b, P a b -> Q a b) -> both Q r r'.
Proof. destruct r, r'; cbn [both]; auto. Qed.
Lemma both_eq {A} (r : res A) : both eq r r.
Proof. destruct r; cbn; auto. Qed.

Lemma steady_ret {A} (a : A) : steady (mret a).
Proof. intros p s t H. split; auto. Qed.
Lemma steady_lift {A} (r : res A) : steady (mlift r).
Proof. intros p s t H. unfold mlift. destruct r; cbn; auto. split; auto. Qed.
Lemma steady_bind {A B} (m : M A) (k : A -> M B) : steady m -> (forall a, steady (k a)) -> steady (mbind m k).
Proof.
  intros H1 H2 p s t H. unfold mbind. eapply both_bind; [apply H1; exact H|]. intros [a s'] [b t'] [E G]. cbn [fst snd] in *. subst b. apply H2. exact G.
Qed.
Lemma steady_mget {A} (f : st -> res A) : steady_get f -> steady (mget f).
Proof. intros H p s t G. unfold mget. rewrite (H p s t G). destruct (f t); cbn; auto. split; auto. Qed.
Lemma steady_mput f : steady_st f -> steady (mput f).
Proof. intros H p s t G. unfold mput. eapply both_bind; [apply H; exact G|]. intros a b K. split; auto. Qed.
Lemma steady_mapM {A B} (f : st -> A -> res B) l : (forall a, steady_get (fun s => f s a)) -> steady_get (fun s => mapM (f s) l).
Proof.
  intros H p s t G. cbv beta. induction l as [|x l IH]; cbn [mapM]; [reflexivity|].
  rewrite (H x p s t G). destruct (f t x); cbn [bind]; auto. rewrite IH. reflexivity.
Qed.
Lemma steady_mmap {A B} (f : A -> M B) l : (forall a, steady (f a)) -> steady (mmap f l).
Proof.
  intros H. induction l as [|x l IH]; cbn [mmap]; [apply steady_ret|].
  apply steady_bind; auto. intros y. apply steady_bind; auto. intros ys. apply steady_ret.
Qed.
Lemma steady_if {A} (b : bool) (m m' : M A) : steady m -> steady m' -> steady (if b then m else m').
Proof. destruct b; auto. Qed.

(* reading *)
Lemma steady_val h : steady_get (fun s => var_val s h).
Proof.
  intros p s t H. unfold var_val, vget. rewrite (ag_n _ _ _ H), (ag_tape _ _ _ H).
  destruct ((1 <=? h) && (h <=? s_n s))%bool; cbn [bind]; [rewrite (ag_i _ _ _ H)|]; reflexivity.
Qed.
Lemma steady_adj h : steady_get (fun s => var_adj s h).
Proof.
  intros p s t H. unfold var_adj, vget. rewrite (ag_n _ _ _ H), (ag_tape _ _ _ H).
  destruct ((1 <=? h) && (h <=? s_n s))%bool; cbn [bind]; [rewrite (ag_i _ _ _ H)|]; reflexivity.
Qed.
Lemma steady_index h : steady_get (fun s => vi_index s h).
Proof.
  intros p s t H. unfold vi_index, vget. rewrite (ag_n _ _ _ H).
  destruct ((1 <=? h) && (h <=? s_n s))%bool; cbn [bind]; [rewrite (ag_i _ _ _ H)|]; reflexivity.
Qed.

(* writing the tape *)
Lemma agree_tape p s t ta : agree p s t -> agree p (set_tape s ta) (set_tape t ta).
Proof. intros []. constructor; auto. Qed.
Lemma steady_mtape {A} (f : tape -> res (A * tape)) : steady (mtape f).
Proof.
  intros p s t H. unfold mtape. rewrite (ag_tape _ _ _ H). destruct (f (s_tape s)) as [[a ta]| | |]; cbn; auto.
  split; [reflexivity|]. apply agree_tape; auto.
Qed.
Lemma steady_set_adj h d : steady_st (set_var_adj h d).
Proof.
  intros p s t H. unfold set_var_adj, vget. rewrite (ag_n _ _ _ H), (ag_tape _ _ _ H).
  destruct ((1 <=? h) && (h <=? s_n s))%bool; cbn [bind both]; auto. rewrite (ag_i _ _ _ H).
  destruct (set_adj_at _ _ _); cbn [bind both]; auto. apply agree_tape; auto.
Qed.

(* the chain pointer of any slot *)
Lemma steady_set_chain h ch : is_mat ch = false -> steady (set_chain h ch).
Proof.
  intros NM. apply steady_mput. intros p s t H. unfold vget, vput. rewrite (ag_n _ _ _ H).
  destruct ((1 <=? h) && (h <=? s_n s))%bool; cbn [bind both]; auto. destruct H.
  constructor; cbn [set_varis s_head s_n s_tape s_lvl s_nv s_nt s_varis]; auto; intros j; unfold upd; destruct (j =? h) eqn:E; cbn [v_i v_chain]; auto.
Qed.

(* a new slot and its chain pointer *)
Lemma grow_steady fuel n : steady_st (fun s => grow_varis fuel s n).
Proof.
  induction fuel as [|k IH]; intros p s t H; cbn [grow_varis]; rewrite (ag_n _ _ _ H), (ag_head _ _ _ H); destruct (s_n s - s_head s + 1 <? n); cbn [both]; auto.
  destruct (i32 (2 * s_n s)) as [sz| | |]; cbn [bind both]; auto. apply IH. destruct H.
  constructor; cbn [set_varis s_head s_n s_tape s_lvl s_nv s_nt s_varis]; auto; intros j; destruct ((1 <=? j) && (j <=? s_n s))%bool eqn:EB; auto.
  intros Hj _. apply ag_p0; auto. lia.
Qed.
Lemma alloc_steady n : steady_st (fun s => alloc_vari_stack_n s n).
Proof.
  intros p s t H. unfold alloc_vari_stack_n. rewrite (ag_n _ _ _ H). apply grow_steady. destruct (s_n s =? 0); auto.
  destruct H. constructor; cbn [set_varis s_head s_n s_tape s_lvl s_nv s_nt s_varis]; auto.
Qed.

(* as agree, the slot h excepted *)
Record agree_but (p : Z -> bool) (h : Z) (s t : st) : Prop := {
  ab_head : s_head t = s_head s;
  ab_n : s_n t = s_n s;
  ab_tape : s_tape t = s_tape s;
  ab_lvl : s_lvl t = s_lvl s;
  ab_nv : s_nv t = s_nv s;
  ab_nt : s_nt t = s_nt s;
  ab_i : forall j, v_i (s_varis t j) = v_i (s_varis s j);
  ab_ch : forall j, p j = true \/ j < s_head s -> j <> h -> v_chain (s_varis t j) = v_chain (s_varis s j);
  ab_p : forall j, p j = true -> 1 <= j <= s_n s -> j <> h -> is_mat (v_chain (s_varis s j)) = false
}.
Lemma alloc_head s s1 : alloc_vari_stack_n s 1 = Ok s1 -> s_head s1 = s_head s.
Proof.
  assert (G : forall fuel s0 s1, grow_varis fuel s0 1 = Ok s1 -> s_head s1 = s_head s0).
  { clear. induction fuel as [|k IH]; intros s0 s1; cbn [grow_varis]; destruct (_ <? 1); try discriminate; try congruence.
    destruct (i32 _); try discriminate. cbn [bind]. intros E. apply IH in E. exact E. }
  unfold alloc_vari_stack_n. intros E. apply G in E. rewrite E. destruct (s_n s =? 0); reflexivity.
Qed.
Lemma new_but push p s t : agree p s t ->
  both (fun x y => fst x = fst y /\ fst x = s_head s /\ s_head (snd x) = s_head s + 1 /\ agree_but p (s_head s) (snd x) (snd y) /\
    (p (s_head s) = true -> agree p (snd x) (snd y))) (new_vari_with push s) (new_vari_with push t).
Proof.
  intros H. unfold new_vari_with, alloc_vari_stack_1.
  pose proof (alloc_steady 1 p s t H) as Q. cbv beta in Q.
  pose proof (alloc_head s) as HH.
  destruct (alloc_vari_stack_n s 1) as [s1| | |], (alloc_vari_stack_n t 1) as [t1| | |]; cbn [both bind] in *; try tauto.
  specialize (HH s1 eq_refl). clear H. rename Q into H. rewrite (ag_tape _ _ _ H).
  destruct (push (s_tape s1)) as [[id ta]| | |]; cbn [both bind]; auto. cbv zeta.
  cbn [set_tape s_head]. unfold vget, vput. cbn [set_tape s_n s_varis s_head]. rewrite (ag_n _ _ _ H), (ag_head _ _ _ H).
  destruct ((1 <=? s_head s1) && (s_head s1 <=? s_n s1))%bool; cbn [both bind]; auto.
  cbn [set_tape set_varis s_n s_varis s_head]. rewrite (ag_head _ _ _ H).
  assert (EI : forall x, i32 (s_head s1 + 1) = Ok x -> x = s_head s1 + 1) by (unfold i32; intros x; destruct (is_int32 _); congruence).
  destruct (i32 (s_head s1 + 1)) as [hh| | |]; cbn [both bind]; auto. specialize (EI hh eq_refl). subst hh.
  cbn [fst snd set_shead set_varis set_tape s_head]. rewrite HH.
  assert (AB : forall P : Z -> Prop, (forall j, P j -> p j = true \/ j < s_head s1 \/ j = s_head s1) -> (P (s_head s1) -> p (s_head s1) = true) ->
    forall j, P j -> v_chain (upd (s_varis t1) (s_head s1) {| v_i := id; v_chain := v_chain (s_varis t1 (s_head s1)) |} j) =
      v_chain (upd (s_varis s1) (s_head s1) {| v_i := id; v_chain := v_chain (s_varis s1 (s_head s1)) |} j)).
  { intros P HP HQ j Hj. unfold upd. destruct (Z.eqb_spec j (s_head s1)) as [->|NE]; cbn [v_chain].
    - apply (ag_ch _ _ _ H). left. auto.
    - apply (ag_ch _ _ _ H). specialize (HP j Hj). tauto. }
  assert (AI : forall j, v_i (upd (s_varis t1) (s_head s1) {| v_i := id; v_chain := v_chain (s_varis t1 (s_head s1)) |} j) =
      v_i (upd (s_varis s1) (s_head s1) {| v_i := id; v_chain := v_chain (s_varis s1 (s_head s1)) |} j)).
  { intros j. unfold upd. destruct (Z.eqb_spec j (s_head s1)) as [->|NE]; cbn [v_i]; [reflexivity|]. apply (ag_i _ _ _ H). }
  assert (AP : forall j, p j = true -> 1 <= j <= s_n s1 ->
      is_mat (v_chain (upd (s_varis s1) (s_head s1) {| v_i := id; v_chain := v_chain (s_varis s1 (s_head s1)) |} j)) = false).
  { intros j H1 H2. unfold upd. destruct (Z.eqb_spec j (s_head s1)) as [->|NE]; cbn [v_chain]; apply (ag_p _ _ _ H); auto. }
  rewrite HH in *. repeat (split; [solve [auto|lia]|]). destruct H as [h1 h2 h3 h4 h5 h6 h7 h8 h9]. rewrite HH in *.
  split; [|intros LT]; constructor; cbn [set_shead set_varis set_tape s_head s_n s_tape s_lvl s_nv s_nt s_varis]; auto.
  - intros j Hj NE. apply (AB (fun j => (p j = true \/ j < s_head s + 1) /\ j <> s_head s)); auto; intuition lia.
  - apply (AB (fun j => p j = true \/ j < s_head s + 1)); intuition lia.
Qed.

Lemma set_chain_but p s t ch h : agree_but p h s t -> h < s_head s -> is_mat ch = false \/ p h = false ->
  both (fun x y => pairs p x y /\ s_head (snd x) = s_head s) (set_chain h ch s) (set_chain h ch t).
Proof.
  intros H Hh HM. unfold set_chain, mput, vget, vput. rewrite (ab_n _ _ _ _ H).
  destruct ((1 <=? h) && (h <=? s_n s))%bool; cbn [bind both]; auto. split; [|reflexivity]. split; [reflexivity|]. destruct H.
  constructor; cbn [snd set_varis s_head s_n s_tape s_lvl s_nv s_nt s_varis]; auto; intros j; unfold upd; destruct (Z.eqb_spec j h) as [->|NE]; cbn [v_i v_chain]; auto.
  intros HP. destruct HM as [HM|HM]; [auto|congruence].
Qed.

Lemma new_set p push ch s t : agree p s t -> is_mat ch = false \/ p (s_head s) = false ->
  both (fun x y => pairs p x y /\ s_head (snd x) = s_head s + 1)
    (mbind (new_vari_with push) (fun h => mbind (set_chain h ch) (fun _ => mret h)) s)
    (mbind (new_vari_with push) (fun h => mbind (set_chain h ch) (fun _ => mret h)) t).
Proof.
  intros H HM. unfold mbind at 1 3. eapply both_bind; [apply new_but; exact H|].
  intros [a s'] [b t'] (E & E1 & E2 & AB & _). cbn [fst snd] in *. subst a b.
  unfold mbind. eapply both_bind; [apply set_chain_but; [exact AB|lia|exact HM]|].
  intros [[] s2] [[] t2] [[_ G] EH]. cbn [fst snd] in *. split; [split; auto|cbn [snd]; lia].
Qed.
Lemma steady_new push ch : is_mat ch = false ->
  steady (mbind (new_vari_with push) (fun h => mbind (set_chain h ch) (fun _ => mret h))).
Proof.
  intros HM p s t H. pose proof (new_set p push ch s t H (or_introl HM)) as Q.
  destruct (mbind _ _ s), (mbind _ _ t); cbn [both] in *; try tauto.
Qed.
Lemma steady_new_leaf p d s t : agree p s t -> p (s_head s) = true -> both (fun x y => pairs p x y /\ s_head (snd x) = s_head s + 1) (new_var_val d s) (new_var_val d t).
Proof.
  intros H L. pose proof (new_but (fun t => push_val t d) p s t H) as Q. unfold new_var_val, new_vari_val.
  destruct (new_vari_with _ s) as [[a s']| | |], (new_vari_with _ t) as [[b t']| | |]; cbn [both] in *; try tauto.
  destruct Q as (E & E1 & E2 & _ & G). split; [split; auto|exact E2].
Qed.
Lemma both_with {A} (P : A -> A -> Prop) (Q : A -> Prop) r r' : both P r r' -> (forall a, r = Ok a -> Q a) -> both (fun a b => P a b /\ Q a) r r'.
Proof. destruct r, r'; cbn [both]; auto. Qed.
Lemma new_var_alloc s : new_var s = bind (alloc_vari_stack_1 s) (new_var_val f0).
Proof.
  unfold new_var, new_vari, new_var_val. generalize (alloc_vari_stack_1 s) (new_vari_val f0). intros r k. reflexivity.
Qed.
Lemma steady_new_var p s t : agree p s t -> p (s_head s) = true -> both (pairs p) (new_var s) (new_var t).
Proof.
  intros H L. rewrite !new_var_alloc. eapply both_bind; [exact (both_with _ _ _ _ (alloc_steady 1 p s t H) (alloc_head s))|].
  intros s1 t1 [G E]. eapply both_weak; [apply (steady_new_leaf p f0 s1 t1 G); rewrite E; exact L|]. intros a b [K _]. exact K.
Qed.
Lemma steady_leaves xs : forall p s t, agree p s t -> (forall i, 0 <= i < zlen xs -> p (s_head s + i) = true) -> both (pairs p) (new_var_vals xs s) (new_var_vals xs t).
Proof.
  unfold new_var_vals. induction xs as [|x xs IH]; intros p s t H L; cbn [mmap]; [apply steady_ret; auto|].
  assert (ZL : zlen (x :: xs) = zlen xs + 1) by (unfold zlen; cbn [length]; lia). assert (0 <= zlen xs) by (unfold zlen; lia).
  unfold mbind at 1 3. eapply both_bind; [apply (steady_new_leaf p x s t H); rewrite <- (Z.add_0_r (s_head s)); apply L; lia|].
  intros [a s'] [b t'] ([E G] & EH). cbn [fst snd] in *. subst b. unfold mbind. eapply both_bind.
  { apply (IH p s' t' G). intros i Hi. rewrite EH. replace (s_head s + 1 + i) with (s_head s + (1 + i)) by lia. apply L. lia. }
  intros [l s2] [l' t2] [E2 G2]. cbn [fst snd] in *. subst l'. split; auto.
Qed.

(* operations *)
Lemma steady_reg env k : steady (reg env k).
Proof. unfold reg. destruct (nth_error env k); [apply steady_ret|apply steady_lift]. Qed.
Lemma bind_bind {A B D} (m : M A) (f : A -> M B) (k : B -> M D) s : mbind (mbind m f) k s = mbind m (fun a => mbind (f a) k) s.
Proof. unfold mbind. destruct (m s) as [[a s']| | |]; reflexivity. Qed.
Lemma record_assoc d ops ch s : record_op d ops ch s = mbind (mget (fun s => mapM (vi_index s) ops)) (fun ids =>
  mbind (new_vari_with (fun t => push_val_op t d ids)) (fun h => mbind (set_chain h ch) (fun _ => mret h))) s.
Proof. exact (bind_bind (mget (fun s => mapM (vi_index s) ops)) (fun ids => new_vari_with (fun t => push_val_op t d ids)) (fun h => mbind (set_chain h ch) (fun _ => mret h)) s). Qed.
Lemma record_d_assoc d ops ds ch s : record_op_d d ops ds ch s = mbind (mget (fun s => mapM (vi_index s) ops)) (fun ids =>
  mbind (new_vari_with (fun t => push_val_op_dop t d ids ds)) (fun h => mbind (set_chain h ch) (fun _ => mret h))) s.
Proof. exact (bind_bind (mget (fun s => mapM (vi_index s) ops)) (fun ids => new_vari_with (fun t => push_val_op_dop t d ids ds)) (fun h => mbind (set_chain h ch) (fun _ => mret h)) s). Qed.
Lemma steady_record d ops ch : is_mat ch = false -> steady (record_op d ops ch).
Proof.
  intros HM. set (ids := mget (fun s => mapM (vi_index s) ops)).
  assert (Q : steady (mbind ids (fun ids => mbind (new_vari_with (fun t => push_val_op t d ids)) (fun h => mbind (set_chain h ch) (fun _ => mret h))))).
  { apply steady_bind; [apply steady_mget, steady_mapM; intros; apply steady_index|]. intros a. apply steady_new. exact HM. }
  intros p s t H. rewrite !record_assoc. apply Q. exact H.
Qed.
Lemma steady_record_d d ops ds ch : is_mat ch = false -> steady (record_op_d d ops ds ch).
Proof.
  intros HM. set (ids := mget (fun s => mapM (vi_index s) ops)).
  assert (Q : steady (mbind ids (fun ids => mbind (new_vari_with (fun t => push_val_op_dop t d ids ds)) (fun h => mbind (set_chain h ch) (fun _ => mret h))))).
  { apply steady_bind; [apply steady_mget, steady_mapM; intros; apply steady_index|]. intros a. apply steady_new. exact HM. }
  intros p s t H. rewrite !record_d_assoc. apply Q. exact H.
Qed.

Ltac go :=
  repeat first
  [ apply steady_ret | apply steady_lift | apply steady_if | apply steady_reg | apply steady_record; reflexivity | apply steady_record_d; reflexivity
  | apply steady_set_chain; reflexivity | apply steady_mtape
  | apply steady_bind; [|intros ?]
  | apply steady_mmap; intros ?
  | apply steady_mget; first [apply steady_val | apply steady_adj | apply steady_mapM; intros ?; first [apply steady_val | apply steady_adj | apply steady_index]] ].

Lemma steady_un u v : u <> UAbs -> steady (un_v u v).
Proof. intros NA. destruct u; try congruence; unfold un_v; lazy delta [sin_v cos_v tan_v asin_v acos_v atan_v sinh_v cosh_v tanh_v asinh_v acosh_v atanh_v exp_v log_v sqrt_v square inv_v inv_sqrt inv_square logit_v inv_logit_v erf_v erfc_v log_gamma_v neg pos un_op vval]; go. Qed.
Lemma steady_vv b v w : steady (bin_vv b v w).
Proof. destruct b; unfold bin_vv; lazy delta [add_vv sub_vv mul_vv div_vv pow_vv hypot_vv vval]; go. Qed.
Lemma steady_vd b v d : (b = BHypot -> fne d f0 = true) -> steady (bin_vd b v d).
Proof.
  intros HB. destruct b; unfold bin_vd; try (unfold hypot_vd; rewrite (HB eq_refl));
    lazy delta [add_vd sub_vd mul_vd div_vd pow_vd alias_op vval neg sqrt_v square inv_v inv_sqrt inv_square un_op]; go.
Qed.
Lemma steady_dv b d v : steady (bin_dv b d v).
Proof. destruct b; unfold bin_dv; lazy delta [add_dv sub_dv mul_dv div_dv pow_dv hypot_dv alias_op vval]; go. Qed.

(* no new variable without an operation, and no matrix product *)
Definition sets_all (o : op) : bool :=
  match o with OVar _ | OVar0 | OUn UAbs _ => false | _ => negb (is_matmul o) end.
Lemma steady_op env o : sets_all o = true -> neutral o = false -> steady (exec_op env o).
Proof.
  intros HL HN. destruct o; cbn [sets_all is_matmul negb] in HL; try discriminate; unfold exec_op, one, regs; try (apply steady_bind; [|intros ?]); go;
  first [apply steady_un; destruct u; congruence|apply steady_vv|apply steady_vd; intros ->; cbn [neutral] in HN; unfold fne; rewrite HN; reflexivity|apply steady_dv|idtac];
  lazy delta [sum_v norm2_v log_sum_exp_v dot_prod_vv dot_prod_vd dot_prod_dv same_size var_with_partials vval vvals]; go.
Qed.

(* what makes no variables and no blocks *)
Definition still (s s' : st) : Prop := s_head s' = s_head s /\ s_lvl s' = s_lvl s /\ s_nv s' = s_nv s.
Definition steadyh {A} (m : M A) : Prop := forall p s t, agree p s t -> both (fun x y => pairs p x y /\ still s (snd x)) (m s) (m t).
Lemma still_refl s : still s s.
Proof. repeat split. Qed.
Lemma still_trans s s1 s2 : still s s1 -> still s1 s2 -> still s s2.
Proof. unfold still. intuition congruence. Qed.
Lemma steadyh_ret {A} (a : A) : steadyh (mret a).
Proof. intros p s t H. split; [split; auto|apply still_refl]. Qed.
Lemma steadyh_lift {A} (r : res A) : steadyh (mlift r).
Proof. intros p s t H. unfold mlift. destruct r; cbn; auto. split; [split; auto|apply still_refl]. Qed.
Lemma steadyh_bind {A B} (m : M A) (k : A -> M B) : steadyh m -> (forall a, steadyh (k a)) -> steadyh (mbind m k).
Proof.
  intros H1 H2 p s t H. unfold mbind. eapply both_bind; [apply H1; exact H|]. intros [a s'] [b t'] [[E G] S]. cbn [fst snd] in *. subst b.
  eapply both_weak; [apply H2; exact G|]. intros x y [Q S']. split; auto. eapply still_trans; eauto.
Qed.
Lemma steadyh_mmap {A B} (f : A -> M B) l : (forall a, steadyh (f a)) -> steadyh (mmap f l).
Proof.
  intros H. induction l as [|x l IH]; cbn [mmap]; [apply steadyh_ret|].
  apply steadyh_bind; auto. intros y. apply steadyh_bind; auto. intros ys. apply steadyh_ret.
Qed.
Lemma steadyh_get {A} (f : st -> res A) : steady_get f -> steadyh (mget f).
Proof. intros H p s t G. unfold mget. rewrite (H p s t G). destruct (f t); cbn; auto. split; [split|apply still_refl]; auto. Qed.
Lemma steadyh_tape {A} (f : tape -> res (A * tape)) : steadyh (mtape f).
Proof.
  intros p s t H. unfold mtape. rewrite (ag_tape _ _ _ H). destruct (f (s_tape s)) as [[a ta]| | |]; cbn; auto.
  split; [split; [reflexivity|apply agree_tape; auto]|repeat split].
Qed.
Lemma steadyh_shaped {A} (l : list A) n : steadyh (shaped l n).
Proof. unfold shaped. destruct (Nat.eqb _ _); [apply steadyh_ret|apply steadyh_lift]. Qed.
Lemma steadyh_reg env r : steadyh (reg env r).
Proof. unfold reg. destruct (nth_error env r); [apply steadyh_ret|apply steadyh_lift]. Qed.
Lemma steadyh_regs env l : steadyh (regs env l).
Proof. unfold regs. apply steadyh_mmap. apply steadyh_reg. Qed.
Lemma bind_at {A B} (P : st -> Prop) (m : M A) (k : A -> M B) p s t : both (fun x y => pairs p x y /\ P (snd x)) (m s) (m t) ->
  (forall a s' t', agree p s' t' -> P s' -> both (pairs p) (k a s') (k a t')) -> both (pairs p) (mbind m k s) (mbind m k t).
Proof.
  intros HM HK. unfold mbind. eapply both_bind; [exact HM|]. intros [a s'] [b t'] [[E G] EH]. cbn [fst snd] in *. subst b. apply HK; auto.
Qed.
Lemma then_h {A B} (m : M A) (k : A -> M B) p s t : steadyh m -> agree p s t ->
  (forall a s' t', agree p s' t' -> s_head s' = s_head s -> both (pairs p) (k a s') (k a t')) -> both (pairs p) (mbind m k s) (mbind m k t).
Proof.
  intros HM H HK. unfold mbind. eapply both_bind; [apply HM; exact H|]. intros [a s'] [b t'] [[E G] (EH & _)]. cbn [fst snd] in *. subst b. apply HK; auto.
Qed.
Lemma steady_results p ch m n la lb vs s t : agree p s t -> (forall i, 0 <= i < Z.of_nat (length (mpairs m n)) -> p (s_head s + i) = false) ->
  both (pairs p) (mat_results ch m n la lb vs s) (mat_results ch m n la lb vs t).
Proof.
  unfold mat_results. intros H HP.
  assert (HP' : forall i, 0 <= i < Z.of_nat (length (combine (mpairs m n) vs)) -> p (s_head s + i) = false).
  { intros i Hi. apply HP. rewrite combine_length in Hi. lia. }
  clear HP. generalize dependent t. generalize dependent s. induction (combine (mpairs m n) vs) as [|q l IH]; intros s HP t H; cbn [mmap]; [split; auto|].
  cbn [length] in HP. apply (bind_at (fun s' => s_head s' = s_head s + 1)).
  { apply new_set; [exact H|right]. rewrite <- (Z.add_0_r (s_head s)). apply HP. lia. }
  intros h s' t' G EH. apply (bind_at (fun _ => True)).
  { eapply both_weak; [apply (fun HP => IH s' HP t' G)|auto].
    intros i Hi. rewrite EH. replace (s_head s + 1 + i) with (s_head s + (1 + i)) by lia. apply HP. lia. }
  intros l1 s2 t2 G2 _. apply steady_ret. exact G2.
Qed.
Lemma steady_mat p env o m n s t : agree p s t -> (exists k a b, o = OMatVV m k n a b) \/ (exists k a b, o = OMatVD m k n a b) \/ (exists k a b, o = OMatDV m k n a b) ->
  (forall i, 0 <= i < Z.of_nat (length (mpairs m n)) -> p (s_head s + i) = false) -> both (pairs p) (exec_op env o s) (exec_op env o t).
Proof.
  intros H HO HP.
  assert (S : forall s', s_head s' = s_head s -> forall i, 0 <= i < Z.of_nat (length (mpairs m n)) -> p (s_head s' + i) = false) by (intros s' ->; exact HP).
  assert (GO : forall s1 s2 : st, s_head s1 = s_head s -> s_head s2 = s_head s1 -> s_head s2 = s_head s) by congruence.
  destruct HO as [(k & a & b & ->)|[(k & a & b & ->)|(k & a & b & ->)]]; unfold exec_op, mat_mul_vv, mat_mul_vd, mat_mul_dv, vvals;
    repeat (match goal with |- both _ (mat_results _ _ _ _ _ _ _) _ => fail 1 | _ => idtac end;
      eapply then_h; [first [apply steadyh_regs|apply steadyh_shaped|apply steadyh_tape|apply steadyh_get, steady_mapM; intros ?; first [apply steady_val|apply steady_index]]|eassumption|];
      intros ? ? ? ? ?); apply steady_results; auto; apply S; congruence.
Qed.
Lemma steady_abs p v s t : agree p s t -> (forall x, var_val s v = Ok x -> fgt x f0 = false -> flt x f0 = false -> feq x f0 = true -> p (s_head s) = true) -> both (pairs p) (abs_v v s) (abs_v v t).
Proof.
  intros H HP. unfold abs_v. unfold vval at 1 2. unfold mbind at 1 2, mget at 1 2. rewrite (steady_val v p s t H) in *.
  destruct (var_val t v) as [x| | |]; cbn [bind both]; auto. specialize (HP x eq_refl).
  destruct (fgt x f0); [apply steady_ret; auto|]. destruct (flt x f0).
  - assert (Q : steady (neg v)) by (lazy delta [neg un_op vval]; go). apply Q; auto.
  - destruct (feq x f0).
    + apply steady_new_var; auto.
    + apply steady_record; auto.
Qed.

(* the sweep *)
Lemma set_adj_still h d p s t : agree p s t -> both (fun s' t' => agree p s' t' /\ still s s') (set_var_adj h d s) (set_var_adj h d t).
Proof.
  intros H. apply both_with; [apply steady_set_adj; exact H|]. intros a. unfold set_var_adj.
  destruct (vget s h); cbn [bind]; try discriminate. destruct (set_adj_at _ _ _); cbn [bind]; try discriminate. intros E. injection E as <-. repeat split.
Qed.
Lemma chain_agree p s t i : agree p s t -> i < s_head s -> both (fun s' t' => agree p s' t' /\ still s s') (chain_at s i) (chain_at t i).
Proof.
  intros H Hi. unfold chain_at, vget. rewrite (ag_n _ _ _ H), (ag_tape _ _ _ H).
  destruct ((1 <=? i) && (i <=? s_n s))%bool; cbn [bind both]; auto. rewrite (ag_i _ _ _ H), (ag_ch _ _ _ H) by auto.
  destruct (run_chain _ _ _); cbn [bind both]; auto. split; [apply agree_tape; auto|repeat split].
Qed.
Lemma chains_agree l : forall p s t, agree p s t -> Forall (fun i => i < s_head s) l -> both (fun s' t' => agree p s' t' /\ still s s') (foldM chain_at l s) (foldM chain_at l t).
Proof.
  induction l as [|i l IH]; intros p s t H HF; cbn [foldM]; [split; [exact H|apply still_refl]|].
  eapply both_bind; [apply chain_agree; [exact H|exact (Forall_inv HF)]|]. intros a b [G S].
  eapply both_weak; [apply IH; [exact G|]|].
  - rewrite (proj1 S). exact (Forall_inv_tail HF).
  - intros x y [Q S']. split; auto. eapply still_trans; eauto.
Qed.
Lemma down_below hi n : Forall (fun i => i <= hi) (zdown hi n).
Proof.
  revert hi. induction n as [|n IH]; intros hi; cbn [zdown]; constructor; [lia|]. eapply Forall_impl; [|apply IH]. cbv beta. intros; lia.
Qed.
Lemma steadyh_mput f : (forall p s t, agree p s t -> both (fun s' t' => agree p s' t' /\ still s s') (f s) (f t)) -> steadyh (mput f).
Proof. intros H p s t G. unfold mput. eapply both_bind; [apply H; exact G|]. intros a b [K S]. split; [split; auto|exact S]. Qed.
Theorem steadyh_grad h : steadyh (grad h).
Proof.
  apply steadyh_mput. intros p s t H. eapply both_bind; [apply set_adj_still; exact H|]. intros a b [G S].
  rewrite (ag_head _ _ _ G). eapply both_weak; [apply chains_agree; [exact G|]|].
  - eapply Forall_impl; [|apply down_below]. cbv beta. intros; lia.
  - intros x y [Q S']. split; auto. eapply still_trans; eauto.
Qed.
Lemma fold_still l d : forall p s t, agree p s t -> both (fun s' t' => agree p s' t' /\ still s s') (foldM (fun s i => set_var_adj i d s) l s) (foldM (fun s i => set_var_adj i d s) l t).
Proof.
  induction l as [|i l IH]; intros p s t H; cbn [foldM]; [split; [exact H|apply still_refl]|].
  eapply both_bind; [apply set_adj_still; exact H|]. intros a b [G S].
  eapply both_weak; [apply IH; exact G|]. intros x y [Q S']. split; auto. eapply still_trans; eauto.
Qed.
Theorem steadyh_zero : steadyh set_zero_nested_adj.
Proof.
  apply steadyh_mput. intros p s t H. rewrite (ag_nv _ _ _ H), (ag_lvl _ _ _ H), (ag_head _ _ _ H).
  eapply both_bind; [apply both_eq|]. intros lo ? <-. apply fold_still. exact H.
Qed.
Theorem steadyh_row xv h : steadyh (jac_row xv h).
Proof.
  unfold jac_row. apply steadyh_bind; [apply steadyh_zero|]. intros _. apply steadyh_bind; [apply steadyh_grad|]. intros _.
  apply steadyh_get, steady_mapM. intros a. apply steady_adj.
Qed.
Theorem steady_begin : steady begin_nested.
Proof.
  apply steady_mput. intros p s t H. cbv zeta. rewrite (ag_nv _ _ _ H), (ag_lvl _ _ _ H).
  destruct (nest_get _ _); cbn [bind both]; auto. destruct H as [h1 h2 h3 h4 h5 h6 h7 h8].
  constructor; cbn [s_head s_n s_tape s_lvl s_nv s_nt s_varis]; auto; congruence.
Qed.
Theorem steady_end p s t : agree p s t -> s_nv s (s_lvl s) <= s_head s -> both (pairs p) (end_nested s) (end_nested t).
Proof.
  intros H LE. unfold end_nested, mput. rewrite (ag_nt _ _ _ H), (ag_nv _ _ _ H), (ag_lvl _ _ _ H), (ag_tape _ _ _ H).
  destruct (0 <? s_lvl s); cbn [bind]; [|split; auto].
  unfold nest_get. destruct ((1 <=? s_lvl s) && (s_lvl s <=? max_nested_stack))%bool; cbn [bind both]; auto.
  destruct (foldM _ _ _); cbn [bind both]; auto. split; [reflexivity|]. destruct H as [h1 h2 h3 h4 h5 h6 h7 h8 h9].
  constructor; cbn [snd s_head s_n s_tape s_lvl s_nv s_nt s_varis]; auto; try congruence. intros j Hj. apply h8. destruct Hj; [auto|lia].
Qed.

Lemma both_ok {A} (m : M A) p s t : both (pairs p) (m s) (m t) ->
  (exists a s' t', m s = Ok (a, s') /\ m t = Ok (a, t') /\ agree p s' t') \/
  (m s = ErrStop /\ m t = ErrStop) \/ (exists u, m s = Undef u /\ m t = Undef u) \/ (m s = OutOfFuel /\ m t = OutOfFuel).
Proof.
  destruct (m s) as [[a s']| |u|], (m t) as [[b t']| |u'|]; cbn [both]; try tauto.
  - intros [E G]. cbn [fst snd] in *. subst b. left. eauto 6.
  - intros ->. right. right. left. eauto.
Qed.
End Steady.
