(* The storage layer on arbitrary states: enlarging it, and reading back records
   and matrices pushed to a tape. *)
From Coq Require Import ZifyBool ZifyNat.
From Verif Require Import TapeFacts RefineChain.
From Verif Require Export Observe.

Section Storage.
Context {N : Num} {C : Cfg N}.

(* ---- enlarging keeps what was there ---- *)

Definition enlarged (t t' : tape) : Prop :=
  t_head t' = t_head t /\ t_size t <= t_size t' /\
  (forall j, 1 <= j <= t_size t -> t_mem t' j = t_mem t j) /\
  (forall j, t_size t < j <= t_size t' -> t_mem t' j = w0).

Definition table_enlarged (s s' : st) : Prop :=
  s_head s' = s_head s /\ s_tape s' = s_tape s /\ s_lvl s' = s_lvl s /\
  s_nv s' = s_nv s /\ s_nt s' = s_nt s /\ s_n s <= s_n s' /\
  (forall j, 1 <= j <= s_n s -> s_varis s' j = s_varis s j) /\
  (forall j, s_n s < j <= s_n s' -> s_varis s' j = vari0).

Lemma enlarged_refl t : enlarged t t.
Proof. repeat split; auto; lia. Qed.

Lemma enlarged_trans a b c : 0 <= t_size a -> enlarged a b -> enlarged b c -> enlarged a c.
Proof.
  intros A0 (A1 & A2 & A3 & A4) (B1 & B2 & B3 & B4). repeat split; try congruence; try lia.
  - intros j Hj. rewrite B3, A3; auto; lia.
  - intros j Hj. destruct (Z.le_gt_cases j (t_size b)); [rewrite B3, A4|apply B4]; auto; lia.
Qed.

Lemma table_enlarged_trans a b c : 0 <= s_n a -> table_enlarged a b -> table_enlarged b c -> table_enlarged a c.
Proof.
  intros A0 (A1 & A2 & A3 & A4 & A5 & A6 & A7 & A8) (B1 & B2 & B3 & B4 & B5 & B6 & B7 & B8).
  repeat split; try congruence; try lia.
  - intros j Hj. rewrite B7, A7; auto; lia.
  - intros j Hj. destruct (Z.le_gt_cases j (s_n b)); [rewrite B7, A8|apply B8]; auto; lia.
Qed.

Lemma grow_storage_enlarged fuel t n t' : 0 <= t_size t ->
  grow_storage fuel t n = Ok t' -> enlarged t t'.
Proof.
  revert t; induction fuel as [|k IH]; intros t Hs; cbn [grow_storage];
    destruct (t_size t - t_head t + 1 <? n) eqn:E; intros H; try discriminate;
    try (inversion H; subst; apply enlarged_refl).
  unfold i32 in H. destruct (is_int32 (2 * t_size t)); cbn [bind] in H; [|discriminate].
  apply IH in H; [|cbn [t_size]; lia].
  eapply enlarged_trans; [exact Hs| |exact H]. repeat split; cbn [t_head t_size t_mem]; auto; try lia.
  - intros j Hj. replace ((1 <=? j) && (j <=? t_size t)) with true by lia. reflexivity.
  - intros j Hj. replace ((1 <=? j) && (j <=? t_size t)) with false by lia. reflexivity.
Qed.

Lemma grow_varis_enlarged fuel s n s' : 0 <= s_n s ->
  grow_varis fuel s n = Ok s' -> table_enlarged s s'.
Proof.
  revert s; induction fuel as [|k IH]; intros s Hs; cbn [grow_varis];
    destruct (s_n s - s_head s + 1 <? n) eqn:E; intros H; try discriminate;
    try (inversion H; subst; repeat split; auto; lia).
  unfold i32 in H. destruct (is_int32 (2 * s_n s)); cbn [bind] in H; [|discriminate].
  apply IH in H; [|cbn [s_n set_varis]; lia].
  eapply table_enlarged_trans; [exact Hs| |exact H]. repeat split; cbn [s_n s_varis set_varis]; auto; try lia.
  - intros j Hj. replace ((1 <=? j) && (j <=? s_n s)) with true by lia. reflexivity.
  - intros j Hj. replace ((1 <=? j) && (j <=? s_n s)) with false by lia. reflexivity.
Qed.

Lemma alloc_storage_enlarged t n t' : 0 <= t_size t -> 0 <= init_len ->
  alloc_storage t n = Ok t' -> enlarged t t'.
Proof.
  intros Hs Hi. unfold alloc_storage. destruct (t_size t =? 0) eqn:E; intros H.
  - apply grow_storage_enlarged in H; [|cbn [t_size]; unfold init_tape_size, min_rec_size; lia].
    eapply enlarged_trans; [exact Hs| |exact H].
    repeat split; cbn [t_size]; auto; unfold init_tape_size, min_rec_size; lia.
  - eapply grow_storage_enlarged; eauto.
Qed.

Lemma alloc_varis_enlarged s n s' : 0 <= s_n s -> 0 <= init_len ->
  alloc_vari_stack_n s n = Ok s' -> table_enlarged s s'.
Proof.
  intros Hs Hi. unfold alloc_vari_stack_n. destruct (s_n s =? 0) eqn:E; intros H.
  - apply grow_varis_enlarged in H; [|cbn [s_n set_varis]; lia].
    eapply table_enlarged_trans; [exact Hs| |exact H].
    repeat split; cbn [s_n set_varis]; auto; lia.
  - eapply grow_varis_enlarged; eauto.
Qed.

(* every read that succeeded gives the same result *)
Lemma tget_enlarged t t' i w : enlarged t t' -> tget t i = Ok w -> tget t' i = Ok w.
Proof.
  intros (A1 & A2 & A3 & A4). unfold tget.
  destruct ((1 <=? i) && (i <=? t_size t)) eqn:E; [|discriminate]. intros <-.
  replace ((1 <=? i) && (i <=? t_size t')) with true by lia. rewrite A3; auto; lia.
Qed.

Lemma bind_mono {A B} (r r' : res A) (f f' : A -> res B) b :
  (forall a, r = Ok a -> r' = Ok a) -> (forall a, f a = Ok b -> f' a = Ok b) ->
  bind r f = Ok b -> bind r' f' = Ok b.
Proof. destruct r as [a| |u|]; simpl; intros H1 H2 H3; try discriminate. rewrite (H1 a); simpl; auto. Qed.

Lemma mapM_mono {A B} (f f' : A -> res B) l :
  (forall x b, f x = Ok b -> f' x = Ok b) -> forall r, mapM f l = Ok r -> mapM f' l = Ok r.
Proof.
  intros H; induction l as [|x l IH]; simpl; intros r; auto.
  apply bind_mono; auto. intros b. apply bind_mono; auto.
Qed.

Section Mono.
Variables (t t' : tape).
Hypothesis G : enlarged t t'.

Lemma tget_int_mono i z : tget_int t i = Ok z -> tget_int t' i = Ok z.
Proof. apply bind_mono; auto. intros a. apply tget_enlarged; auto. Qed.
Lemma get_real_mono i z : get_real_at t i = Ok z -> get_real_at t' i = Ok z.
Proof.
  apply bind_mono; [intros a; apply tget_enlarged; auto|].
  intros a. apply bind_mono; [intros b; apply tget_enlarged; auto|auto].
Qed.
Lemma operand_index_mono i l : operand_index t i = Ok l -> operand_index t' i = Ok l.
Proof.
  apply bind_mono; [intros a; apply tget_int_mono|].
  intros a. unfold tget_ints. apply mapM_mono. apply tget_int_mono.
Qed.
Lemma data_operand_mono i l : data_operand t i = Ok l -> data_operand t' i = Ok l.
Proof.
  unfold data_operand. apply bind_mono.
  - intros a. apply bind_mono; [intros b; apply tget_int_mono|]. intros b; apply tget_int_mono.
  - intros a. apply bind_mono; [intros b; apply tget_int_mono|]. intros b.
    unfold get_real_array_at. apply mapM_mono. apply get_real_mono.
Qed.
End Mono.

Lemma enlarge_invisible s n s1 m t : 0 <= init_len -> 0 <= s_n s -> 0 <= t_size (s_tape s) ->
  alloc_vari_stack_n s n = Ok s1 -> alloc_storage (s_tape s1) m = Ok t ->
  let s' := set_tape s1 t in
  s_head s' = s_head s /\ t_head (s_tape s') = t_head (s_tape s) /\
  (forall h v, vget s h = Ok v -> vget s' h = Ok v) /\
  (forall h x, var_val s h = Ok x -> var_val s' h = Ok x) /\
  (forall h x, var_adj s h = Ok x -> var_adj s' h = Ok x) /\
  (forall h l, var_operands s h = Ok l -> var_operands s' h = Ok l) /\
  (forall h l, var_data s h = Ok l -> var_data s' h = Ok l) /\
  (forall j, t_size (s_tape s) < j <= t_size (s_tape s') -> t_mem (s_tape s') j = w0) /\
  (forall j, s_n s < j <= s_n s' -> s_varis s' j = vari0).
Proof.
  intros Hi Hn Ht A B. pose proof (alloc_varis_enlarged s n s1 Hn Hi A) as
    (V1 & V2 & V3 & V4 & V5 & V6 & V7 & V8).
  rewrite V2 in B.
  pose proof (alloc_storage_enlarged _ m t Ht Hi B) as G. pose proof G as (G1 & G2 & G3 & G4).
  cbv zeta.
  assert (VG : forall h v, vget s h = Ok v -> vget (set_tape s1 t) h = Ok v).
  { intros h v. unfold vget. cbn [s_n s_varis set_tape].
    destruct ((1 <=? h) && (h <=? s_n s)) eqn:E; [|discriminate]. intros <-.
    replace ((1 <=? h) && (h <=? s_n s1)) with true by lia. rewrite V7; auto; lia. }
  cbn [s_head s_tape s_n s_varis set_tape].
  split; [auto|]. split; [auto|]. split; [auto|].
  split; [|split; [|split; [|split; [|split; [auto|auto]]]]].
  - intros h x. apply bind_mono; [intros a; apply VG|].
    intros a; apply get_real_mono; auto.
  - intros h x. apply bind_mono; [intros a; apply VG|].
    intros a; apply get_real_mono; auto.
  - intros h x. apply bind_mono; [intros a; apply VG|]. intros a; apply operand_index_mono; auto.
  - intros h x. apply bind_mono; [intros a; apply VG|]. intros a; apply data_operand_mono; auto.
Qed.

(* ---- termination ---- *)

Lemma grow_storage_ends fuel t n :
  1 <= t_size t <= max_int -> 1 <= t_head t -> max_int < t_size t * 2 ^ Z.of_nat fuel ->
  match grow_storage fuel t n with
  | Ok t' => t_head t' = t_head t /\ t_size t' <= max_int /\ t_head t + n <= t_size t' + 1
  | Undef IntOverflow => cap < t_head t + n - 1
  | _ => False
  end.
Proof.
  revert t; induction fuel as [|k IH]; intros t Hs Hh Hf; cbn [grow_storage].
  - replace (2 ^ Z.of_nat 0) with 1 in Hf by reflexivity. lia.
  - destruct (t_size t - t_head t + 1 <? n) eqn:E; [|lia].
    unfold i32, is_int32. destruct ((min_int <=? 2 * t_size t) && (2 * t_size t <=? max_int)) eqn:E2;
      cbn [bind].
    2:{ unfold cap, max_int, min_int in *. lia. }
    match goal with |- context [grow_storage k ?x n] => specialize (IH x) end.
    cbn [t_head t_size] in IH. apply IH; try lia.
    rewrite Nat2Z.inj_succ, Z.pow_succ_r in Hf by lia.
    rewrite (Z.mul_comm 2), <- Z.mul_assoc. exact Hf.
Qed.

Lemma alloc_storage_ends t n : cfg_ok C -> 1 <= t_head t -> 0 <= t_size t <= max_int ->
  match alloc_storage t n with
  | Ok t' => t_head t' = t_head t /\ t_size t' <= max_int /\ t_head t + n <= t_size t' + 1
  | Undef IntOverflow => cap < t_head t + n - 1
  | _ => False
  end.
Proof.
  intros [H1 H2] Hh Hs. unfold alloc_storage. unfold init_tape_size, min_rec_size in *.
  assert (P : 2 ^ Z.of_nat alloc_fuel = 1099511627776) by reflexivity.
  destruct (t_size t =? 0) eqn:E.
  - apply (grow_storage_ends alloc_fuel (mkTape (t_head t) (2 * 6 * init_len) (fun _ => w0)) n);
      cbn [t_size t_head]; rewrite ?P; unfold max_int in *; lia.
  - apply grow_storage_ends; rewrite ?P; unfold max_int in *; lia.
Qed.

Lemma grow_varis_ends fuel s n :
  1 <= s_n s <= max_int -> 1 <= s_head s -> max_int < s_n s * 2 ^ Z.of_nat fuel ->
  match grow_varis fuel s n with
  | Ok s' => s_head s' = s_head s /\ s_n s' <= max_int /\ s_head s + n <= s_n s' + 1
  | Undef IntOverflow => cap < s_head s + n - 1
  | _ => False
  end.
Proof.
  revert s; induction fuel as [|k IH]; intros s Hs Hh Hf; cbn [grow_varis].
  - replace (2 ^ Z.of_nat 0) with 1 in Hf by reflexivity. lia.
  - destruct (s_n s - s_head s + 1 <? n) eqn:E; [|lia].
    unfold i32, is_int32. destruct ((min_int <=? 2 * s_n s) && (2 * s_n s <=? max_int)) eqn:E2;
      cbn [bind].
    2:{ unfold cap, max_int, min_int in *. lia. }
    match goal with |- context [grow_varis k ?x n] => specialize (IH x) end.
    cbn [s_n s_head set_varis] in IH. apply IH; try lia.
    rewrite Nat2Z.inj_succ, Z.pow_succ_r in Hf by lia.
    rewrite (Z.mul_comm 2), <- Z.mul_assoc. exact Hf.
Qed.

Lemma alloc_varis_ends s n : cfg_ok C -> 1 <= s_head s -> 0 <= s_n s <= max_int ->
  match alloc_vari_stack_n s n with
  | Ok s' => s_head s' = s_head s /\ s_n s' <= max_int /\ s_head s + n <= s_n s' + 1
  | Undef IntOverflow => cap < s_head s + n - 1
  | _ => False
  end.
Proof.
  intros [H1 H2] Hh Hs. unfold alloc_vari_stack_n. unfold init_tape_size, min_rec_size in *.
  assert (P : 2 ^ Z.of_nat alloc_fuel = 1099511627776) by reflexivity.
  destruct (s_n s =? 0) eqn:E.
  - apply (grow_varis_ends alloc_fuel (set_varis s init_len (fun _ => vari0)) n);
      cbn [s_n s_head set_varis]; rewrite ?P; unfold max_int in *; lia.
  - apply grow_varis_ends; rewrite ?P; unfold max_int in *; lia.
Qed.

(* an initial length of 0 would double 0 for ever, whatever the fuel *)
Lemma grow_from_zero fuel t n : t_size t = 0 -> 1 <= t_head t -> 1 <= n ->
  grow_storage fuel t n = OutOfFuel.
Proof.
  revert t; induction fuel as [|k IH]; intros t Hs Hh Hn; cbn [grow_storage];
    replace (t_size t - t_head t + 1 <? n) with true by lia; auto.
  rewrite Hs. change (i32 (2 * 0)) with (Ok (A := Z) 0). cbn [bind]. apply IH; auto.
Qed.

Context {RL : RepLaws N}.

Lemma wp_elim {A} ov (r : res A) Q : wp ov r Q ->
  match r with Ok a => Q a | Undef IntOverflow => ov | _ => False end.
Proof. exact (fun H => H). Qed.

(* ---- reading back a record ---- *)

Lemma rec_read t l v a ops ds : rec_in t l v a ops ds ->
  val_at t l = Ok v /\ adj_at t l = Ok a /\ n_operand t l = Ok (zlen ops) /\
  operand_index t l = Ok ops /\ n_data_operand t l = Ok (zlen ds) /\ data_operand t l = Ok ds.
Proof.
  intros R. repeat split; eauto using rec_val, rec_adj, rec_n_operand, rec_operand_index,
    rec_n_data_operand, rec_data_operand.
Qed.

Definition int32s (l : list Z) : Prop := Forall (fun z => min_int <= z <= max_int) l.

Lemma int32s_is l : int32s l -> Forall (fun z => is_int32 z = true) l.
Proof. apply Forall_impl. unfold is_int32. intros; lia. Qed.

(* reading back a record: value, adjoint 0, operands and data as pushed, at the
   old head, using 6 + operands + 2*data words *)
Definition reads_back (t t' : tape) (i : Z) (v : F) (op : list Z) (dop : list F) : Prop :=
  i = t_head t /\ t_head t' = t_head t + 6 + zlen op + 2 * zlen dop /\
  val_at t' i = Ok v /\ adj_at t' i = Ok f0 /\
  n_operand t' i = Ok (zlen op) /\ operand_index t' i = Ok op /\
  n_data_operand t' i = Ok (zlen dop) /\ data_operand t' i = Ok dop /\
  operand_val t' i = mapM (val_at t') op /\ operand_adj t' i = mapM (adj_at t') op /\
  operand_info t' i (1 + zlen op) = Ok (zlen op :: op) /\
  (forall j w, 1 <= j < t_head t -> tget t j = Ok w -> tget t' j = Ok w).

Lemma pushed_reads t t' i v op dop : twf t -> int32s op ->
  i = t_head t -> pushed t t' (rec_len op dop) ->
  rec_at (t_mem t') (t_head t) v f0 op dop -> reads_back t t' i v op dop.
Proof.
  intros (T1 & T2 & T3) HI -> (P1 & P2 & P3 & P4 & _) R. destruct P1 as (P11 & P12 & P13).
  assert (RI : rec_in t' (t_head t) v f0 op dop).
  { split; [lia|]. split; [lia|]. split; [lia|]. split; [apply int32s_is; auto|exact R]. }
  pose proof (rec_operand_index _ _ _ _ _ _ RI) as EI.
  split; [reflexivity|]. split; [unfold rec_len in P2; lia|].
  destruct (rec_read _ _ _ _ _ _ RI) as (R1 & R2 & R3 & R4 & R5 & R6).
  repeat (split; [assumption|]).
  split; [unfold operand_val; rewrite EI; reflexivity|].
  split; [unfold operand_adj; rewrite EI; reflexivity|]. split.
  - unfold operand_info. pose proof (zlen_nonneg op). pose proof (zlen_nonneg dop).
    destruct RI as (Q1 & Q2 & Q3 & Q4 & _ & _ & Q5 & _). unfold rec_len in Q2.
    rewrite app_comm_cons in Q5. apply ints_at_app in Q5. destruct Q5 as [Q5 _].
    replace (Z.to_nat (1 + zlen op)) with (length (zlen op :: op))
      by (unfold zlen; cbn [length]; lia).
    apply tget_ints_ok; auto; try lia.
    + unfold zlen in *; cbn [length]; lia.
    + constructor; auto. unfold is_int32, min_int. lia.
  - intros j w Hj. rewrite !tget_ok by lia. rewrite P4 by lia. auto.
Qed.

Lemma record_read_back t v op dop : cfg_ok C -> twf t -> int32s op ->
  match push_val_op_dop t v op dop with
  | Ok (i, t') => twf t' /\ reads_back t t' i v op dop
  | Undef IntOverflow => cap < t_head t + 5 + zlen op + 2 * zlen dop
  | _ => False
  end.
Proof.
  intros HC T HI.
  pose proof (push_val_op_dop_ok t v op dop (cap < t_head t + 5 + zlen op + 2 * zlen dop) HC T
    ltac:(unfold rec_len; lia)) as W; apply wp_elim in W.
  destruct (push_val_op_dop t v op dop) as [[i t']| |[]|]; auto. cbn [fst snd] in W.
  destruct W as (W1 & W2 & W3). split; [apply W2|]. eapply pushed_reads; eauto.
Qed.

Lemma record_read_back_op t v op : cfg_ok C -> twf t -> int32s op ->
  match push_val_op t v op with
  | Ok (i, t') => twf t' /\ reads_back t t' i v op []
  | Undef IntOverflow => cap < t_head t + 5 + zlen op
  | _ => False
  end.
Proof.
  intros HC T HI.
  pose proof (push_val_op_ok t v op (cap < t_head t + 5 + zlen op) HC T
    ltac:(unfold rec_len; change (zlen (@nil F)) with 0; lia)) as W; apply wp_elim in W.
  destruct (push_val_op t v op) as [[i t']| |[]|]; auto. cbn [fst snd] in W.
  destruct W as (W1 & W2 & W3). split; [apply W2|]. eapply pushed_reads; eauto.
Qed.

Lemma record_read_back_dop t v dop : cfg_ok C -> twf t ->
  match push_val_dop t v dop with
  | Ok (i, t') => twf t' /\ reads_back t t' i v [] dop
  | Undef IntOverflow => cap < t_head t + 5 + 2 * zlen dop
  | _ => False
  end.
Proof.
  intros HC T.
  pose proof (push_val_dop_ok t v dop (cap < t_head t + 5 + 2 * zlen dop) HC T
    ltac:(unfold rec_len; change (zlen (@nil Z)) with 0; lia)) as W; apply wp_elim in W.
  destruct (push_val_dop t v dop) as [[i t']| |[]|]; auto. cbn [fst snd] in W.
  destruct W as (W1 & W2 & W3). split; [apply W2|]. eapply pushed_reads; eauto. constructor.
Qed.

Lemma record_read_back_leaf t v : cfg_ok C -> twf t ->
  match push_val t v with
  | Ok (i, t') => twf t' /\ reads_back t t' i v [] []
  | Undef IntOverflow => cap < t_head t + 5
  | _ => False
  end.
Proof.
  intros HC T.
  pose proof (push_val_ok t v (cap < t_head t + 5) HC T ltac:(auto)) as W; apply wp_elim in W.
  destruct (push_val t v) as [[i t']| |[]|]; auto. cbn [fst snd] in W.
  destruct W as (W1 & W2 & W3). split; [apply W2|]. eapply pushed_reads; eauto. constructor.
Qed.

(* ---- matrices ---- *)

(* entry (i,j), counted from 0, of an m-row matrix stored by columns *)
Definition entry {A} (z : A) (m : nat) (a : list A) (i j : nat) : A := nth (i + j * m) a z.
Definition row_of {A} (z : A) (m n : nat) (a : list A) (i : nat) : list A :=
  map (entry z m a i) (seq 0 n).
Definition col_of {A} (z : A) (m : nat) (a : list A) (j : nat) : list A :=
  map (fun i => entry z m a i j) (seq 0 m).

Section Mat.
Variables (t : tape) (loc : Z) (m n : nat).
Hypothesis L1 : 1 <= loc.
Hypothesis M1 : Z.of_nat m <= max_int.
Hypothesis N1 : Z.of_nat n <= max_int.
Hypothesis W1 : t_mem t loc = w_of_int (Z.of_nat m).
Hypothesis W2 : t_mem t (loc + 1) = w_of_int (Z.of_nat n).

Lemma mat_nrow : loc <= t_size t -> ait_nrow t loc = Ok (Z.of_nat m).
Proof. intros. apply tget_int_ok; auto; unfold is_int32, min_int; lia. Qed.
Lemma mat_ncol : loc + 1 <= t_size t -> ait_ncol t loc = Ok (Z.of_nat n).
Proof. intros. apply tget_int_ok; auto; unfold is_int32, min_int; lia. Qed.

Section MVar.
Variable ids : list Z.
Hypothesis L : length ids = (m * n)%nat.
Hypothesis S : loc + 2 + zlen ids <= t_size t + 1.
Hypothesis I : int32s ids.
Hypothesis A : ints_at (t_mem t) (loc + 2) ids.

Lemma mat_elem k : (k < m * n)%nat ->
  tget_int t (loc + 2 + Z.of_nat k) = Ok (nth k ids 0).
Proof.
  intros Hk. unfold zlen in S. apply tget_int_ok; [lia| |].
  - eapply ints_at_nth; eauto. apply nth_error_nth'. lia.
  - pose proof (int32s_is _ I) as F. rewrite Forall_forall in F. apply F. apply nth_In; lia.
Qed.

Lemma mat_row i : (i < m)%nat -> ait_row t loc (Z.of_nat i + 1) = Ok (row_of 0 m n ids i).
Proof.
  intros Hi. unfold zlen in S. unfold ait_row. rewrite mat_nrow, mat_ncol by lia. cbn [bind].
  rewrite (section_ok _ n) by nia. cbn [bind].
  rewrite mapM_map. rewrite (mapM_ok _ _ (entry 0 m ids i)).
  - cbn [bind]. rewrite Nat2Z.id, conformZ_ok by (rewrite map_length, seq_length; auto). reflexivity.
  - intros j Hj. apply in_seq in Hj.
    replace (loc + 1 + (Z.of_nat i + 1) + Z.of_nat m * Z.of_nat j)
      with (loc + 2 + Z.of_nat (i + j * m)) by lia.
    apply mat_elem. nia.
Qed.

Lemma mat_col j : (j < n)%nat -> ait_col t loc (Z.of_nat j + 1) = Ok (col_of 0 m ids j).
Proof.
  intros Hj. unfold zlen in S. unfold ait_col. rewrite mat_nrow by lia. cbn [bind].
  rewrite (section_ok _ m) by nia. cbn [bind].
  rewrite mapM_map. rewrite (mapM_ok _ _ (fun i => entry 0 m ids i j)).
  - cbn [bind]. rewrite Nat2Z.id, conformZ_ok by (rewrite map_length, seq_length; auto). reflexivity.
  - intros i Hi. apply in_seq in Hi.
    replace (loc + 1 + (Z.of_nat j + 1 - 1) * Z.of_nat m + 1 + 1 * Z.of_nat i)
      with (loc + 2 + Z.of_nat (i + j * m)) by lia.
    apply mat_elem. nia.
Qed.
End MVar.

Section MDat.
Variable ds : list F.
Hypothesis L : length ds = (m * n)%nat.
Hypothesis S : loc + 2 + 2 * zlen ds <= t_size t + 1.
Hypothesis A : reals_at (t_mem t) (loc + 2) ds.

Lemma mat_delem k : (k < m * n)%nat ->
  get_real_at t (loc + 2 + 2 * Z.of_nat k) = Ok (nth k ds f0).
Proof.
  intros Hk. unfold zlen in S. apply get_real_at_ok; [lia|lia|].
  eapply reals_at_nth; eauto. apply nth_error_nth'. lia.
Qed.

Lemma mat_drow i : (i < m)%nat -> ait_data_row t loc (Z.of_nat i + 1) = Ok (row_of f0 m n ds i).
Proof.
  intros Hi. unfold zlen in S. unfold ait_data_row. rewrite mat_nrow, mat_ncol by lia. cbn [bind].
  rewrite Nat2Z.id, zseq_map, mapM_map.
  rewrite (mapM_ok _ _ (entry f0 m ds i)); auto.
  intros j Hj. apply in_seq in Hj.
  replace (loc + 2 + 2 * (1 + Z.of_nat j - 1) * Z.of_nat m + 2 * (Z.of_nat i + 1 - 1))
    with (loc + 2 + 2 * Z.of_nat (i + j * m)) by lia.
  apply mat_delem. nia.
Qed.

Lemma mat_dcol j : (j < n)%nat -> ait_data_col t loc (Z.of_nat j + 1) = Ok (col_of f0 m ds j).
Proof.
  intros Hj. unfold zlen in S. unfold ait_data_col. rewrite mat_nrow by lia. cbn [bind].
  unfold get_real_array_at. rewrite Nat2Z.id, zseq2_map, mapM_map.
  rewrite (mapM_ok _ _ (fun i => entry f0 m ds i j)); auto.
  intros i Hi. apply in_seq in Hi.
  replace (loc + 2 + (Z.of_nat j + 1 - 1) * Z.of_nat m * 2 + 2 * Z.of_nat i)
    with (loc + 2 + 2 * Z.of_nat (i + j * m)) by lia.
  apply mat_delem. nia.
Qed.
End MDat.
End Mat.

(* what a reader of a stored matrix sees *)
Definition var_matrix_at (t : tape) (loc : Z) (m n : nat) (ids : list Z) : Prop :=
  ait_nrow t loc = Ok (Z.of_nat m) /\ ait_ncol t loc = Ok (Z.of_nat n) /\
  (forall i, (i < m)%nat -> ait_row t loc (Z.of_nat i + 1) = Ok (row_of 0 m n ids i)) /\
  (forall j, (j < n)%nat -> ait_col t loc (Z.of_nat j + 1) = Ok (col_of 0 m ids j)) /\
  (forall i, (i < m)%nat -> matrix_row_index t loc (Z.of_nat i + 1) = Ok (row_of 0 m n ids i)) /\
  (forall j, (j < n)%nat -> matrix_col_index t loc (Z.of_nat j + 1) = Ok (col_of 0 m ids j)).

Definition data_matrix_at (t : tape) (loc : Z) (m n : nat) (ds : list F) : Prop :=
  ait_nrow t loc = Ok (Z.of_nat m) /\ ait_ncol t loc = Ok (Z.of_nat n) /\
  (forall i, (i < m)%nat -> ait_data_row t loc (Z.of_nat i + 1) = Ok (row_of f0 m n ds i)) /\
  (forall j, (j < n)%nat -> ait_data_col t loc (Z.of_nat j + 1) = Ok (col_of f0 m ds j)) /\
  (forall i, (i < m)%nat -> matrix_row_data t loc (Z.of_nat i + 1) = Ok (row_of f0 m n ds i)) /\
  (forall j, (j < n)%nat -> matrix_col_data t loc (Z.of_nat j + 1) = Ok (col_of f0 m ds j)).

Lemma var_matrix_back t m n ids : cfg_ok C -> twf t -> int32s ids ->
  length ids = (m * n)%nat -> Z.of_nat m <= max_int -> Z.of_nat n <= max_int ->
  match ait_push_var_2d t (Z.of_nat m) (Z.of_nat n) ids with
  | Ok (loc, t') => loc = t_head t /\ t_head t' = loc + 2 + zlen ids /\ twf t' /\
      var_matrix_at t' loc m n ids
  | Undef IntOverflow => cap < t_head t + 1 + zlen ids
  | _ => False
  end.
Proof.
  intros HC T HI L Hm Hn. unfold ait_push_var_2d.
  pose proof (push_int_array_ok t (Z.of_nat m :: Z.of_nat n :: ids) (cap < t_head t + 1 + zlen ids) HC T
    ltac:(unfold zlen; cbn [length]; lia)) as W; apply wp_elim in W.
  destruct (push_int_array t _) as [[i t']| |[]|]; auto. cbn [fst snd] in W.
  destruct W as (-> & (P1 & P2 & P3 & P4 & _) & Q1 & Q2 & Q3).
  assert (HL : t_head t' = t_head t + 2 + zlen ids) by (rewrite P2; unfold zlen; cbn [length]; lia).
  assert (1 <= t_head t) by apply T.
  pose proof (zlen_nonneg ids).
  destruct P1 as (P11 & P12 & P13).
  replace (t_head t + 1 + 1) with (t_head t + 2) in Q3 by lia.
  split; [reflexivity|]. split; [auto|]. split; [repeat split; auto; lia|].
  split; [apply mat_nrow; auto; lia|]. split; [apply mat_ncol; auto; lia|].
  assert (A1 : forall i, (i < m)%nat -> ait_row t' (t_head t) (Z.of_nat i + 1) = Ok (row_of 0 m n ids i))
    by (intros; apply mat_row; auto; lia).
  assert (A2 : forall j, (j < n)%nat -> ait_col t' (t_head t) (Z.of_nat j + 1) = Ok (col_of 0 m ids j))
    by (intros; apply mat_col with (n := n); auto; lia).
  repeat split; auto.
Qed.

Lemma data_matrix_back t m n ds : cfg_ok C -> twf t ->
  length ds = (m * n)%nat -> Z.of_nat m <= max_int -> Z.of_nat n <= max_int ->
  match ait_push_data_2d t (Z.of_nat m) (Z.of_nat n) ds with
  | Ok (loc, t') => loc = t_head t /\ t_head t' = loc + 2 + 2 * zlen ds /\ twf t' /\
      data_matrix_at t' loc m n ds
  | Undef IntOverflow => cap < t_head t + 1 + 2 * zlen ds
  | _ => False
  end.
Proof.
  intros HC T L Hm Hn. unfold ait_push_data_2d.
  pose proof (push_int_array_ok t [Z.of_nat m; Z.of_nat n] (cap < t_head t + 1 + 2 * zlen ds) HC T
    ltac:(unfold zlen; cbn [length]; lia)) as W; apply wp_elim in W.
  destruct (push_int_array t _) as [[i t1]| |[]|]; auto. cbn [fst snd] in W.
  destruct W as (-> & (P1 & P2 & P3 & P4 & _) & Q1 & Q2 & _).
  change (zlen [Z.of_nat m; Z.of_nat n]) with 2 in P2. cbn [bind].
  pose proof (push_real_array_ok t1 ds (cap < t_head t + 1 + 2 * zlen ds) HC P1
    ltac:(lia)) as W; apply wp_elim in W.
  destruct (push_real_array t1 ds) as [[i t']| |[]|]; auto. cbn [fst snd] in W. cbn [bind].
  destruct W as (-> & (R1 & R2 & R3 & R4 & _) & Q3).
  assert (1 <= t_head t) by apply T.
  pose proof (zlen_nonneg ds).
  assert (HL : t_head t' = t_head t + 2 + 2 * zlen ds) by lia.
  assert (Q1' : t_mem t' (t_head t) = w_of_int (Z.of_nat m)) by (rewrite R4; auto; lia).
  assert (Q2' : t_mem t' (t_head t + 1) = w_of_int (Z.of_nat n)) by (rewrite R4; auto; lia).
  destruct R1 as (P11 & P12 & P13).
  replace (t_head t1) with (t_head t + 2) in Q3 by lia.
  split; [reflexivity|]. split; [auto|]. split; [repeat split; auto; lia|].
  split; [apply mat_nrow; auto; lia|]. split; [apply mat_ncol; auto; lia|].
  assert (A1 : forall i, (i < m)%nat -> ait_data_row t' (t_head t) (Z.of_nat i + 1) = Ok (row_of f0 m n ds i))
    by (intros; apply mat_drow; auto; lia).
  assert (A2 : forall j, (j < n)%nat -> ait_data_col t' (t_head t) (Z.of_nat j + 1) = Ok (col_of f0 m ds j))
    by (intros; apply mat_dcol with (n := n); auto; lia).
  repeat split; auto.
Qed.

Lemma var_array_back t ids : cfg_ok C -> twf t -> int32s ids -> zlen ids <= max_int ->
  match ait_push_var_1d t ids with
  | Ok (loc, t') => loc = t_head t /\ t_head t' = loc + 1 + zlen ids /\ twf t' /\
      tget_int t' loc = Ok (zlen ids) /\ tget_ints t' (loc + 1) (length ids) = Ok ids
  | Undef IntOverflow => cap < t_head t + zlen ids
  | _ => False
  end.
Proof.
  intros HC T HI L. unfold ait_push_var_1d.
  pose proof (push_int_array_ok t (zlen ids :: ids) (cap < t_head t + zlen ids) HC T
    ltac:(unfold zlen; cbn [length]; lia)) as W; apply wp_elim in W.
  destruct (push_int_array t _) as [[i t']| |[]|]; auto. cbn [fst snd] in W.
  destruct W as (-> & (P1 & P2 & P3 & P4 & _) & Q1 & Q2).
  assert (HL : t_head t' = t_head t + 1 + zlen ids) by (rewrite P2; unfold zlen; cbn [length]; lia).
  assert (1 <= t_head t) by apply T.
  pose proof (zlen_nonneg ids). pose proof P1 as (P11 & P12 & P13).
  split; [reflexivity|]. split; [auto|]. split; [auto|]. split.
  - apply tget_int_ok; auto; [lia|]. apply zlen_int32; auto.
  - apply tget_ints_ok; auto; try lia. apply int32s_is; auto.
Qed.

End Storage.
