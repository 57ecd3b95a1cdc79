(* Operations, user functions and grad do not look at the nesting: run at another level
   they do the same. *)
From Verif Require Export BranchSpec.
Local Open Scope Z_scope.

Section Blind.
Context {N : Num} {C : Cfg N}.

(* the same state at another nesting *)
Definition renest (l : Z) (nv nt : Z -> Z) (s : st) : st :=
  {| s_head := s_head s; s_n := s_n s; s_varis := s_varis s; s_tape := s_tape s; s_lvl := l; s_nv := nv; s_nt := nt |}.

Definition rmap {A B} (f : A -> B) (r : res A) : res B := x <- r ;; Ok (f x).

Definition blind {A} (m : M A) : Prop :=
  forall s l nv nt, m (renest l nv nt s) = rmap (fun p => (fst p, renest l nv nt (snd p))) (m s).
Definition blind_st (f : st -> res st) : Prop :=
  forall s l nv nt, f (renest l nv nt s) = rmap (renest l nv nt) (f s).
Definition blind_get {A} (f : st -> res A) : Prop := forall s l nv nt, f (renest l nv nt s) = f s.

Lemma blind_ret {A} (a : A) : blind (mret a).
Proof. intros s l nv nt. reflexivity. Qed.
Lemma blind_lift {A} (r : res A) : blind (mlift r).
Proof. intros s l nv nt. unfold mlift. destruct r; reflexivity. Qed.
Lemma blind_bind {A B} (m : M A) (k : A -> M B) : blind m -> (forall a, blind (k a)) -> blind (mbind m k).
Proof.
  intros H1 H2 s l nv nt. unfold mbind. rewrite H1. destruct (m s) as [[a s']| | |]; cbn [rmap bind fst snd]; auto. apply H2.
Qed.
Lemma blind_mget {A} (f : st -> res A) : blind_get f -> blind (mget f).
Proof. intros H s l nv nt. unfold mget. rewrite H. destruct (f s); reflexivity. Qed.
Lemma blind_mput f : blind_st f -> blind (mput f).
Proof. intros H s l nv nt. unfold mput. rewrite H. destruct (f s); reflexivity. Qed.
Lemma blind_fold {A} (f : st -> A -> res st) l : (forall a, blind_st (fun s => f s a)) -> blind_st (foldM f l).
Proof.
  intros H. induction l as [|x l IH]; intros s lv nv nt; cbn [foldM]; [reflexivity|].
  rewrite (H x). destruct (f s x); cbn [rmap bind]; [apply IH| | |]; reflexivity.
Qed.
Lemma blind_mapM {A B} (f : st -> A -> res B) l : (forall a, blind_get (fun s => f s a)) -> blind_get (fun s => mapM (f s) l).
Proof.
  intros H s lv nv nt. cbv beta. induction l as [|x l IH]; cbn [mapM]; [reflexivity|].
  rewrite (H x s). destruct (f s x); cbn [bind]; auto. rewrite IH. reflexivity.
Qed.
Lemma blind_mmap {A B} (f : A -> M B) l : (forall a, blind (f a)) -> blind (mmap f l).
Proof.
  intros H. induction l as [|x l IH]; cbn [mmap]; [apply blind_ret|].
  apply blind_bind; auto. intros y. apply blind_bind; auto. intros ys. apply blind_ret.
Qed.
Lemma blind_if {A} (b : bool) (m m' : M A) : blind m -> blind m' -> blind (if b then m else m').
Proof. destruct b; auto. Qed.

(* the table and the tape *)
Lemma blind_vget i : blind_get (fun s => vget s i).
Proof. intros s l nv nt. reflexivity. Qed.
Lemma blind_val h : blind_get (fun s => var_val s h).
Proof. intros s l nv nt. reflexivity. Qed.
Lemma blind_adj h : blind_get (fun s => var_adj s h).
Proof. intros s l nv nt. reflexivity. Qed.
Lemma blind_index h : blind_get (fun s => vi_index s h).
Proof. intros s l nv nt. reflexivity. Qed.
Lemma blind_vput i v : blind_st (fun s => vput s i v).
Proof. intros s l nv nt. unfold vput. cbn [renest s_n s_varis]. destruct ((1 <=? i) && (i <=? s_n s))%bool; reflexivity. Qed.
Lemma blind_set_adj h d : blind_st (set_var_adj h d).
Proof.
  intros s l nv nt. unfold set_var_adj. change (vget (renest l nv nt s) h) with (vget s h).
  destruct (vget s h) as [v| | |]; cbn [bind rmap]; auto. cbn [renest s_tape].
  destruct (set_adj_at (s_tape s) (v_i v) d); reflexivity.
Qed.
Lemma blind_chain i : blind_st (fun s => chain_at s i).
Proof.
  intros s l nv nt. unfold chain_at. change (vget (renest l nv nt s) i) with (vget s i).
  destruct (vget s i) as [v| | |]; cbn [bind rmap]; auto. cbn [renest s_tape].
  destruct (run_chain (v_chain v) (v_i v) (s_tape s)); reflexivity.
Qed.
Lemma blind_grow fuel n : blind_st (fun s => grow_varis fuel s n).
Proof.
  induction fuel as [|k IH]; intros s l nv nt; cbn [grow_varis]; cbn [renest s_n s_head];
    destruct (s_n s - s_head s + 1 <? n); try reflexivity.
  destruct (i32 (2 * s_n s)) as [sz| | |]; cbn [bind rmap]; auto.
  exact (IH (set_varis s sz _) l nv nt).
Qed.
Lemma blind_alloc n : blind_st (fun s => alloc_vari_stack_n s n).
Proof.
  intros s l nv nt. unfold alloc_vari_stack_n. cbn [renest s_n]. destruct (s_n s =? 0).
  - exact (blind_grow alloc_fuel n (set_varis s init_len (fun _ => vari0)) l nv nt).
  - exact (blind_grow alloc_fuel n s l nv nt).
Qed.
Lemma blind_new push : blind (new_vari_with push).
Proof.
  intros s l nv nt. unfold new_vari_with, alloc_vari_stack_1. rewrite (blind_alloc 1 s l nv nt).
  destruct (alloc_vari_stack_n s 1) as [s1| | |]; cbn [bind rmap]; auto. cbn [renest s_tape].
  destruct (push (s_tape s1)) as [[id t]| | |]; cbn [bind rmap]; auto. cbv beta zeta.
  change (set_tape (renest l nv nt s1) t) with (renest l nv nt (set_tape s1 t)).
  set (s2 := set_tape s1 t). cbn [renest s_head].
  change (vget (renest l nv nt s2) (s_head s2)) with (vget s2 (s_head s2)).
  destruct (vget s2 (s_head s2)) as [v| | |]; cbn [bind rmap]; auto.
  rewrite (blind_vput (s_head s2) {| v_i := id; v_chain := v_chain v |} s2 l nv nt).
  destruct (vput s2 (s_head s2) _) as [s3| | |]; cbn [bind rmap]; auto. cbn [renest s_head].
  destruct (i32 (s_head s3 + 1)); reflexivity.
Qed.
Lemma blind_new_vari : blind new_vari.
Proof.
  intros s l nv nt. unfold new_vari, alloc_vari_stack_1. rewrite (blind_alloc 1 s l nv nt).
  destruct (alloc_vari_stack_n s 1) as [s1| | |]; cbn [bind rmap]; auto. exact (blind_new _ s1 l nv nt).
Qed.
Lemma blind_set_chain h ch : blind (set_chain h ch).
Proof.
  apply blind_mput. intros s l nv nt. change (vget (renest l nv nt s) h) with (vget s h).
  destruct (vget s h) as [v| | |]; cbn [bind rmap]; auto. apply (blind_vput h).
Qed.
Lemma blind_mtape {A} (f : tape -> res (A * tape)) : blind (mtape f).
Proof. intros s l nv nt. unfold mtape. cbn [renest s_tape]. destruct (f (s_tape s)) as [[a t]| | |]; reflexivity. Qed.

Lemma blind_reg env k : blind (reg env k).
Proof. unfold reg. destruct (nth_error env k); [apply blind_ret|apply blind_lift]. Qed.

Ltac go :=
  repeat first
  [ apply blind_ret | apply blind_lift | apply blind_if | apply blind_reg | apply blind_new | apply blind_new_vari
  | apply blind_set_chain | apply blind_mtape
  | apply blind_bind; [|intros ?]
  | apply blind_mmap; intros ?
  | apply blind_mget; first [apply blind_val | apply blind_adj | apply blind_mapM; intros ?; first [apply blind_val | apply blind_adj | apply blind_index]] ].

Lemma blind_un u v : blind (un_v u v).
Proof. destruct u; unfold un_v; lazy delta [sin_v cos_v tan_v asin_v acos_v atan_v sinh_v cosh_v tanh_v asinh_v acosh_v atanh_v exp_v log_v sqrt_v square inv_v inv_sqrt inv_square logit_v inv_logit_v erf_v erfc_v log_gamma_v neg pos abs_v un_op record_op new_var_val_op vval new_var]; go. Qed.
Lemma blind_vv b v w : blind (bin_vv b v w).
Proof. destruct b; unfold bin_vv; lazy delta [add_vv sub_vv mul_vv div_vv pow_vv hypot_vv record_op new_var_val_op vval]; go. Qed.
Lemma blind_vd b v d : blind (bin_vd b v d).
Proof. destruct b; unfold bin_vd; lazy delta [add_vd sub_vd mul_vd div_vd pow_vd hypot_vd alias_op record_op record_op_d new_var_val_op new_var_val_op_dop vval abs_v neg new_var sqrt_v square inv_v inv_sqrt inv_square un_op]; go. Qed.
Lemma blind_dv b d v : blind (bin_dv b d v).
Proof. destruct b; unfold bin_dv; lazy delta [add_dv sub_dv mul_dv div_dv pow_dv hypot_dv alias_op record_op record_op_d new_var_val_op new_var_val_op_dop vval]; go. Qed.

Lemma blind_op env o : blind (exec_op env o).
Proof.
  destruct o; unfold exec_op, one, regs; try (apply blind_bind; [|intros ?]); go;
  first [apply blind_un|apply blind_vv|apply blind_vd|apply blind_dv|idtac];
  lazy delta [sum_v norm2_v log_sum_exp_v dot_prod_vv dot_prod_vd dot_prod_dv same_size mat_mul_vv mat_mul_vd mat_mul_dv shaped mat_results var_with_partials record_op record_op_d new_var_val_op new_var_val_op_dop new_var_val_opid vval vvals new_var_val]; go.
Qed.

Theorem blind_fn f : forall env, blind (call_fn f env).
Proof.
  induction f as [ys|o k IH|q a b k IH|q a d k IH]; intros env; cbn [call_fn].
  - unfold regs. go.
  - apply blind_bind; [apply blind_op|]. intros hs. apply IH.
  - unfold rel_vv, vval. repeat (apply blind_bind; [go|intros ?]). apply IH.
  - unfold rel_vd, vval. repeat (apply blind_bind; [go|intros ?]). apply IH.
Qed.
Theorem blind_fn1 f env : blind (call_fn1 f env).
Proof. apply blind_bind; [apply blind_fn|]. intros hs. apply blind_reg. Qed.
Theorem blind_vals xs : blind (new_var_vals xs).
Proof. unfold new_var_vals, new_var_val. go. Qed.
Theorem blind_grad h : blind (grad h).
Proof.
  apply blind_mput. intros s l nv nt. rewrite (blind_set_adj h f1 s l nv nt).
  destruct (set_var_adj h f1 s) as [s1| | |]; cbn [bind rmap]; auto.
  cbn [renest s_head]. apply (blind_fold chain_at). intros i. apply blind_chain.
Qed.

(* a run at one level gives the run at the other *)
Lemma blind_back {A} (m : M A) s l nv nt a s' : blind m -> m (renest l nv nt s) = Ok (a, s') ->
  exists s'', m s = Ok (a, s'') /\ s' = renest l nv nt s''.
Proof.
  intros H E. rewrite (H s l nv nt) in E. destruct (m s) as [[b s1]| | |]; try discriminate.
  cbn [rmap bind fst snd] in E. injection E as <- <-. eauto.
Qed.
End Blind.
