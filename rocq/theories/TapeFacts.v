(* Facts about the tape model: what reads return and what writes change. *)
From Verif Require Import Tape.
From Coq Require Import ZifyBool ZifyNat.

#[global] Arguments Z.mul : simpl never.
#[global] Arguments Z.add : simpl never.
#[global] Arguments Z.sub : simpl never.
#[global] Arguments Z.of_nat : simpl never.

(* Partial-correctness judgement: [r] is Ok with a result in Q, or an int32
   overflow and then [ov] holds.  No other undefined behaviour, no error stop. *)
Definition wp {A} (ov : Prop) (r : res A) (Q : A -> Prop) : Prop :=
  match r with
  | Ok a => Q a
  | Undef IntOverflow => ov
  | _ => False
  end.

Lemma wp_bind {A B} ov (r : res A) (f : A -> res B) Q :
  wp ov r (fun a => wp ov (f a) Q) -> wp ov (bind r f) Q.
Proof. destruct r as [a| |u|]; simpl; auto. Qed.

Lemma wp_mono {A} (ov ov' : Prop) (r : res A) (Q Q' : A -> Prop) :
  wp ov r Q -> (ov -> ov') -> (forall a, Q a -> Q' a) -> wp ov' r Q'.
Proof. destruct r as [a| |u|]; simpl; auto. destruct u; simpl; auto. Qed.

Lemma wp_ok {A} ov (a : A) (Q : A -> Prop) : Q a -> wp ov (Ok a) Q.
Proof. auto. Qed.

Lemma wp_eq {A} ov (r : res A) a (Q : A -> Prop) : r = Ok a -> Q a -> wp ov r Q.
Proof. intros ->; auto. Qed.

Lemma wp_bind3 {A B D E} ov (ra : res A) (rb : A -> res B) (rc : B -> res D)
    (k : D -> res E) (Q0 : D -> Prop) (Q : E -> Prop) :
  wp ov (a <- ra ;; b <- rb a ;; rc b) Q0 ->
  (forall d, Q0 d -> wp ov (k d) Q) ->
  wp ov (a <- ra ;; b <- rb a ;; d <- rc b ;; k d) Q.
Proof.
  destruct ra as [a| |u|]; simpl; auto. destruct (rb a) as [b| |u|]; simpl; auto.
  destruct (rc b) as [d| |u|]; simpl; auto.
Qed.

Lemma i32_ok z : min_int <= z <= max_int -> i32 z = Ok z.
Proof. unfold i32, is_int32; intros. replace ((min_int <=? z) && (z <=? max_int)) with true by lia. reflexivity. Qed.

Lemma wp_i32 (ov : Prop) z (Q : Z -> Prop) :
  min_int <= z -> (max_int < z -> ov) -> (z <= max_int -> Q z) -> wp ov (i32 z) Q.
Proof.
  intros H1 H2 H3. unfold i32, is_int32.
  destruct ((min_int <=? z) && (z <=? max_int)) eqn:E; simpl; [apply H3|apply H2]; lia.
Qed.

Lemma mapM_ok {A B} (f : A -> res B) l (g : A -> B) :
  (forall x, In x l -> f x = Ok (g x)) -> mapM f l = Ok (map g l).
Proof.
  induction l as [|x t IH]; simpl; intros H; auto.
  rewrite (H x) by auto. simpl. rewrite IH by auto. reflexivity.
Qed.

Lemma mapM_ext {A B} (f g : A -> res B) l :
  (forall x, In x l -> f x = g x) -> mapM f l = mapM g l.
Proof.
  induction l as [|x t IH]; simpl; intros H; auto.
  rewrite (H x), IH by auto. reflexivity.
Qed.

Lemma mapM_length {A B} (f : A -> res B) l r : mapM f l = Ok r -> length r = length l.
Proof.
  revert r; induction l as [|x t IH]; simpl; intros r H.
  - inversion H; reflexivity.
  - destruct (f x); simpl in H; try discriminate.
    destruct (mapM f t) eqn:E; simpl in H; try discriminate.
    inversion H; subst; simpl; f_equal; auto.
Qed.

Lemma foldM_app {A S} (f : S -> A -> res S) l1 l2 s :
  foldM f (l1 ++ l2) s = bind (foldM f l1 s) (foldM f l2).
Proof.
  revert s; induction l1 as [|x t IH]; simpl; intros s; auto.
  destruct (f s x); simpl; auto.
Qed.

Lemma zseq_length i n : length (zseq i n) = n.
Proof. revert i; induction n; simpl; auto. Qed.
Lemma zseq_In i n x : In x (zseq i n) <-> i <= x < i + Z.of_nat n.
Proof. revert i; induction n; simpl; intros; [lia|]. rewrite IHn. lia. Qed.
Lemma zseq2_length i n : length (zseq2 i n) = n.
Proof. revert i; induction n; simpl; auto. Qed.

Section Facts.
Context {N : Num} {RL : RepLaws N} {C : Cfg N}.

(* ---- contents of a stretch of memory ---- *)

Fixpoint ints_at (m : Z -> W) (i : Z) (l : list Z) : Prop :=
  match l with
  | [] => True
  | z :: t => m i = w_of_int z /\ ints_at m (i + 1) t
  end.

Definition real_at (m : Z -> W) (i : Z) (x : F) : Prop := dec (m i) (m (i + 1)) = x.

Fixpoint reals_at (m : Z -> W) (i : Z) (l : list F) : Prop :=
  match l with
  | [] => True
  | x :: t => real_at m i x /\ reals_at m (i + 2) t
  end.

Definition same_on (m m' : Z -> W) (lo hi : Z) : Prop :=
  forall j, lo <= j < hi -> m' j = m j.

Lemma ints_at_frame m m' i l :
  same_on m m' i (i + zlen l) -> ints_at m i l -> ints_at m' i l.
Proof.
  revert i; induction l as [|z t IH]; simpl; auto.
  unfold same_on, zlen; simpl; intros i H [H1 H2]. split.
  - rewrite H by lia. auto.
  - apply IH; auto. intros j Hj. apply H. unfold zlen in Hj. lia.
Qed.

Lemma real_at_frame m m' i x :
  same_on m m' i (i + 2) -> real_at m i x -> real_at m' i x.
Proof. unfold same_on, real_at; intros H <-. rewrite !H by lia. reflexivity. Qed.

Lemma reals_at_frame m m' i l :
  same_on m m' i (i + 2 * zlen l) -> reals_at m i l -> reals_at m' i l.
Proof.
  revert i; induction l as [|z t IH]; simpl; auto.
  unfold same_on, zlen; simpl; intros i H [H1 H2]. split.
  - eapply real_at_frame; eauto. intros j Hj. apply H; lia.
  - apply IH; auto. intros j Hj. apply H. unfold zlen in Hj. lia.
Qed.

Lemma same_on_sub m m' lo hi lo' hi' :
  same_on m m' lo hi -> lo <= lo' -> hi' <= hi -> same_on m m' lo' hi'.
Proof. unfold same_on; intros; apply H; lia. Qed.

Lemma same_on_trans m1 m2 m3 lo hi :
  same_on m1 m2 lo hi -> same_on m2 m3 lo hi -> same_on m1 m3 lo hi.
Proof. unfold same_on; intros H1 H2 j Hj. rewrite H2, H1; auto. Qed.

Lemma ints_at_app m i l1 l2 :
  ints_at m i (l1 ++ l2) <-> ints_at m i l1 /\ ints_at m (i + zlen l1) l2.
Proof.
  revert i; induction l1 as [|z t IH]; simpl; intros i.
  - unfold zlen; simpl. rewrite Z.add_0_r. tauto.
  - rewrite IH. unfold zlen. simpl length.
    replace (i + 1 + Z.of_nat (length t)) with (i + Z.of_nat (S (length t))) by lia. tauto.
Qed.

(* ---- single words ---- *)

Lemma tget_ok t i : 1 <= i <= t_size t -> tget t i = Ok (t_mem t i).
Proof. unfold tget; intros. replace ((1 <=? i) && (i <=? t_size t)) with true by lia. reflexivity. Qed.

Lemma tput_ok t i w : 1 <= i <= t_size t ->
  tput t i w = Ok {| t_head := t_head t; t_size := t_size t; t_mem := upd (t_mem t) i w |}.
Proof. unfold tput; intros. replace ((1 <=? i) && (i <=? t_size t)) with true by lia. reflexivity. Qed.

Lemma tget_int_ok t i z : 1 <= i <= t_size t -> t_mem t i = w_of_int z -> is_int32 z = true ->
  tget_int t i = Ok z.
Proof. intros. unfold tget_int. rewrite tget_ok by auto. simpl. rewrite H0, int_w by auto. reflexivity. Qed.

Lemma tget_ints_ok t i l : 1 <= i -> i + zlen l <= t_size t + 1 ->
  ints_at (t_mem t) i l -> Forall (fun z => is_int32 z = true) l ->
  tget_ints t i (length l) = Ok l.
Proof.
  unfold tget_ints. revert i; induction l as [|z l IH]; simpl; intros i H1 H2 H3 H5; auto.
  destruct H3 as [H3 H4]. inversion H5; subst. unfold zlen in *. simpl in H2.
  rewrite (tget_int_ok t i z) by (auto; lia). simpl.
  rewrite IH; auto; lia.
Qed.

Lemma get_real_at_ok t i x : 1 <= i -> i + 1 <= t_size t -> real_at (t_mem t) i x ->
  get_real_at t i = Ok x.
Proof.
  intros. unfold get_real_at. rewrite !tget_ok by lia. simpl. f_equal. assumption.
Qed.

Lemma get_real_array_at_ok t i l : 1 <= i -> i + 2 * zlen l <= t_size t + 1 ->
  reals_at (t_mem t) i l -> get_real_array_at t i (zlen l) = Ok l.
Proof.
  unfold get_real_array_at, zlen. rewrite Nat2Z.id.
  revert i; induction l as [|x l IH]; simpl; intros i H1 H2 H3; auto.
  destruct H3 as [H3 H4].
  rewrite (get_real_at_ok t i x) by (auto; lia). simpl.
  rewrite IH; auto; lia.
Qed.

(* a write of a stretch [lo, hi): new contents P, all else kept *)
Definition wrote (t t' : tape) (lo hi : Z) : Prop :=
  t_head t' = t_head t /\ t_size t' = t_size t /\
  (forall j, j < lo \/ hi <= j -> t_mem t' j = t_mem t j).

Lemma set_real_at_ok t i d : 1 <= i -> i + 1 <= t_size t ->
  exists t', set_real_at t i d = Ok t' /\ wrote t t' i (i + 2) /\ real_at (t_mem t') i d.
Proof.
  intros H1 H2. unfold set_real_at. rewrite tput_ok by lia. simpl.
  rewrite tput_ok by (simpl; lia). eexists; split; [reflexivity|]. split.
  - repeat split; auto. simpl. intros j Hj. unfold upd.
    replace (j =? i + 1) with false by lia. replace (j =? i) with false by lia. reflexivity.
  - unfold real_at; simpl. unfold upd. rewrite Z.eqb_refl.
    replace (i =? i + 1) with false by lia. rewrite Z.eqb_refl. apply dec_enc.
Qed.

Lemma tput_ints_ok t i l : 1 <= i -> i + zlen l <= t_size t + 1 ->
  exists t', tput_ints t i l = Ok t' /\ wrote t t' i (i + zlen l) /\ ints_at (t_mem t') i l.
Proof.
  unfold tput_ints. revert t i; induction l as [|z l IH]; simpl; intros t i H1 H2.
  - exists t. repeat split; auto.
  - unfold zlen in *; simpl length in *. rewrite tput_ok by lia. simpl.
    edestruct (IH {| t_head := t_head t; t_size := t_size t; t_mem := upd (t_mem t) i (w_of_int z) |} (i + 1))
      as (t' & E & (Eh & Es & Em) & Ei); simpl; try lia.
    exists t'. split; [exact E|]. simpl in *. split; [split; [auto|split; [auto|]]|].
    + intros j Hj. rewrite Em by lia. unfold upd. replace (j =? i) with false by lia. reflexivity.
    + split; auto. rewrite Em by lia. unfold upd. rewrite Z.eqb_refl. reflexivity.
Qed.

Lemma set_real_array_at_ok t i l : 1 <= i -> i + 2 * zlen l <= t_size t + 1 ->
  exists t', set_real_array_at t i l = Ok t' /\ wrote t t' i (i + 2 * zlen l) /\ reals_at (t_mem t') i l.
Proof.
  unfold set_real_array_at. revert t i; induction l as [|z l IH]; simpl; intros t i H1 H2.
  - exists t. repeat split; auto.
  - unfold zlen in *; simpl length in *.
    destruct (set_real_at_ok t i z) as (t1 & E1 & (Eh1 & Es1 & Em1) & Er1); try lia.
    rewrite E1. cbn [bind].
    destruct (IH t1 (i + 2)) as (t' & E & (Eh & Es & Em) & Ei); try lia.
    exists t'. split; [exact E|]. split; [split; [congruence|split; [congruence|]]|].
    + intros j Hj. rewrite Em by lia. apply Em1; lia.
    + split; auto. eapply real_at_frame; eauto. intros j Hj. apply Em; lia.
Qed.

(* ---- growing ---- *)

(* [needs ov n]: exceeding n words beyond 2^30 is what the overflow excuse means *)
Definition cap : Z := 1073741824.

(* The allocated size is the smallest doubling of the initial size that held
   [peak] - 1 words. *)
Definition size_ok (size peak : Z) : Prop :=
  (size = 0 /\ peak = 1) \/
  (exists j : nat, size = init_tape_size * 2 ^ Z.of_nat j /\
     (j = O \/ size < 2 * (peak - 1)) /\ peak - 1 <= size).

Lemma grow_storage_ok fuel t n (ov : Prop) :
  1 <= t_head t <= t_size t + 1 -> 1 <= t_size t <= max_int ->
  (cap < t_head t + n - 1 -> ov) ->
  max_int < t_size t * 2 ^ Z.of_nat fuel ->
  (forall j, t_head t <= j -> t_mem t j = w0) ->
  wp ov (grow_storage fuel t n) (fun t' =>
    t_head t' = t_head t /\ t_size t <= t_size t' <= max_int /\
    t_head t + n <= t_size t' + 1 /\
    (forall j, 1 <= j -> t_mem t' j = t_mem t j) /\
    exists e : nat, t_size t' = t_size t * 2 ^ Z.of_nat e /\
      (e = O \/ t_size t' < 2 * (t_head t + n - 1))).
Proof.
  revert t; induction fuel as [|k IH]; intros t Hh Hs Hov Hf Hz; cbn [grow_storage].
  - replace (2 ^ Z.of_nat 0) with 1 in Hf by reflexivity. lia.
  - destruct (t_size t - t_head t + 1 <? n) eqn:E.
    2:{ simpl. split; [auto|]. split; [lia|]. split; [lia|]. split; [auto|].
        exists O. split; [lia|auto]. }
    apply wp_bind, wp_i32; [unfold min_int; lia | |].
    + intros H. apply Hov. unfold max_int, cap in *. lia.
    + intros H. set (t1 := {| t_head := _ |}).
      eapply wp_mono; [apply (IH t1)| |]; subst t1; cbn [t_head t_size t_mem]; auto; try lia.
      * rewrite Nat2Z.inj_succ, Z.pow_succ_r in Hf by lia.
        rewrite (Z.mul_comm 2), <- Z.mul_assoc. exact Hf.
      * intros j Hj. destruct ((1 <=? j) && (j <=? t_size t)); auto.
      * intros t' (A & B & D & G & e & He & He'). split; [auto|]. split; [lia|]. split; [lia|]. split.
        -- intros j Hj. rewrite G by lia.
           destruct ((1 <=? j) && (j <=? t_size t)) eqn:E2; auto.
           symmetry; apply Hz. lia.
        -- exists (S e). rewrite Nat2Z.inj_succ, Z.pow_succ_r by lia. split; [lia|].
           right. destruct He' as [->|He']; lia.
Qed.

(* storage invariant: head within the allocated words, nothing but zeros at and
   above the head *)
Definition twf (t : tape) : Prop :=
  1 <= t_head t <= t_size t + 1 /\ 0 <= t_size t <= max_int /\
  (forall j, t_head t <= j -> t_mem t j = w0).

Lemma alloc_storage_ok t n (ov : Prop) :
  cfg_ok C -> twf t -> (cap < t_head t + n - 1 -> ov) ->
  wp ov (alloc_storage t n) (fun t' =>
    twf t' /\ t_head t' = t_head t /\ t_size t <= t_size t' /\
    t_head t + n <= t_size t' + 1 /\
    (forall j, 1 <= j -> t_mem t' j = t_mem t j) /\
    (forall peak, t_head t <= peak -> size_ok (t_size t) peak ->
       size_ok (t_size t') (Z.max peak (t_head t + n)))).
Proof.
  intros [HC1 HC2] (Hh & Hs & Hz) Hov. unfold alloc_storage.
  set (t1 := if t_size t =? 0 then _ else _).
  assert (F : t_head t1 = t_head t /\ t_size t <= t_size t1 <= max_int /\ 1 <= t_size t1 /\
              1 <= t_head t1 <= t_size t1 + 1 /\
              (forall j, 1 <= j -> t_mem t1 j = t_mem t j)).
  { subst t1. destruct (t_size t =? 0) eqn:E; simpl.
    - unfold init_tape_size, min_rec_size in *. repeat split; try lia.
      intros j Hj. symmetry. apply Hz. lia.
    - repeat split; auto; lia. }
  destruct F as (F1 & F2 & F3 & F4 & F5).
  assert (Hz1 : forall j, t_head t1 <= j -> t_mem t1 j = w0).
  { intros j Hj. rewrite F5 by lia. apply Hz; lia. }
  eapply wp_mono; [apply (grow_storage_ok alloc_fuel t1 n ov)| |]; auto.
  - lia.
  - rewrite F1; auto.
  - change (2 ^ Z.of_nat alloc_fuel) with 1099511627776. unfold max_int. lia.
  - intros t' (A & B & D & G & e & He & He'). rewrite F1 in *.
    assert (forall j, 1 <= j -> t_mem t' j = t_mem t j) by (intros; rewrite G, F5; auto).
    split; [split; [lia|split; [lia|]]|].
    { intros j Hj. rewrite G by lia. apply Hz1. lia. }
    split; [auto|]. split; [lia|]. split; [lia|]. split; [auto|].
    intros peak Hp HS. right. destruct HS as [[S1 S2]|(j & S1 & S2 & S3)].
    + assert (t_size t1 = init_tape_size) by (subst t1; rewrite S1; reflexivity).
      exists e. rewrite He at 1. rewrite H0. split; [reflexivity|]. split; [|lia].
      destruct He' as [->|He']; [left; auto|right; lia].
    + assert (t_size t1 = t_size t).
      { subst t1. destruct (t_size t =? 0) eqn:E; auto.
        assert (1 <= 2 ^ Z.of_nat j) by (pose proof (Z.pow_pos_nonneg 2 (Z.of_nat j)); lia).
        assert (1 <= init_tape_size * 2 ^ Z.of_nat j) by (unfold init_tape_size, min_rec_size in *; nia).
        lia. }
      exists (j + e)%nat. rewrite Nat2Z.inj_add, Z.pow_add_r by lia.
      split; [rewrite He, H0, S1; ring|]. split; [|lia].
      destruct He' as [->|He'].
      * rewrite Nat.add_0_r. destruct S2 as [->|S2]; [left; auto|]. right.
        change (2 ^ Z.of_nat 0) with 1 in He. lia.
      * right. lia.
Qed.

Lemma incr_head_ok t n (ov : Prop) :
  0 <= n -> 1 <= t_head t -> (max_int < t_head t + n -> ov) ->
  wp ov (incr_head t n) (fun t' => t' = set_head t (t_head t + n)).
Proof.
  intros. unfold incr_head. apply wp_bind, wp_i32; simpl; auto. unfold min_int; lia.
Qed.

(* What a push does: it appends [len] words at the head, keeps every word below
   and leaves the storage invariant. *)
Definition pushedN (t t' : tape) (len need : Z) : Prop :=
  twf t' /\ t_head t' = t_head t + len /\ t_size t <= t_size t' /\
  (forall j, 1 <= j < t_head t -> t_mem t' j = t_mem t j) /\
  (forall peak, t_head t <= peak -> size_ok (t_size t) peak ->
     size_ok (t_size t') (Z.max peak (t_head t + need))).

Definition pushed (t t' : tape) (len : Z) : Prop := pushedN t t' len len.

Lemma pushedN_trans t1 t2 t3 a na b nb : 0 <= a <= na ->
  pushedN t1 t2 a na -> pushedN t2 t3 b nb -> pushedN t1 t3 (a + b) (Z.max na (a + nb)).
Proof.
  intros Ha (A1 & A2 & A3 & A4 & A5) (B1 & B2 & B3 & B4 & B5).
  split; auto. split; [lia|]. split; [lia|]. split.
  - intros j Hj. rewrite B4 by lia. apply A4; lia.
  - intros p Hp HS. specialize (A5 p Hp HS). specialize (B5 (Z.max p (t_head t1 + na)) ltac:(lia) A5).
    replace (Z.max p (t_head t1 + Z.max na (a + nb)))
      with (Z.max (Z.max p (t_head t1 + na)) (t_head t2 + nb)) by lia. exact B5.
Qed.

Lemma pushed_trans t1 t2 t3 a b : 0 <= a -> 0 <= b ->
  pushed t1 t2 a -> pushed t2 t3 b -> pushed t1 t3 (a + b).
Proof.
  intros Ha Hb P Q. unfold pushed in *.
  replace (a + b) with (Z.max a (a + b)) at 2 by lia. eapply pushedN_trans; eauto. lia.
Qed.

Lemma pushed_twf t t' n : pushed t t' n -> twf t'.
Proof. intros H; apply H. Qed.

Lemma push_int_array_ok t l (ov : Prop) :
  cfg_ok C -> twf t -> (cap < t_head t + zlen l - 1 -> ov) ->
  wp ov (push_int_array t l) (fun p =>
    fst p = t_head t /\ pushed t (snd p) (zlen l) /\ ints_at (t_mem (snd p)) (t_head t) l).
Proof.
  intros HC Ht Hov. unfold push_int_array.
  assert (0 <= zlen l) by (unfold zlen; lia).
  assert (Hh : 1 <= t_head t) by apply Ht.
  apply wp_bind, wp_i32; [unfold min_int; lia| |].
  { intros. apply Hov. unfold max_int, cap in *. lia. }
  intros Hl. apply wp_bind. eapply wp_mono; [apply alloc_storage_ok; eauto| auto|].
  intros t1 (T1 & E1 & E2 & E3 & E4 & E5).
  destruct (tput_ints_ok t1 (t_head t1) l) as (t2 & W1 & (W2 & W3 & W4) & W5); try lia.
  rewrite W1. cbn [bind]. apply wp_bind.
  eapply wp_mono; [apply (incr_head_ok t2 (zlen l) ov)| auto|]; try lia.
  { intros. apply Hov. unfold max_int, cap in *; lia. }
  intros t3 ->. cbn [wp fst snd]. split; [auto|].
  destruct T1 as (T1 & T2 & T3).
  assert (PP : pushed t (set_head t2 (t_head t2 + zlen l)) (zlen l)).
  { unfold pushed, pushedN, twf; cbn [t_head t_size t_mem set_head]. repeat split; try lia.
    - intros j Hj. rewrite W4 by lia. apply T3. lia.
    - intros j Hj. rewrite W4 by lia. apply E4. lia.
    - intros p Hp HS. rewrite W3. apply E5; auto. }
  split; [exact PP|]. simpl. rewrite <- E1. exact W5.
Qed.

Lemma push_real_array_ok t l (ov : Prop) :
  cfg_ok C -> twf t -> (cap < t_head t + 2 * zlen l - 1 -> ov) ->
  wp ov (push_real_array t l) (fun p =>
    fst p = t_head t /\ pushed t (snd p) (2 * zlen l) /\ reals_at (t_mem (snd p)) (t_head t) l).
Proof.
  intros HC Ht Hov. unfold push_real_array.
  assert (0 <= zlen l) by (unfold zlen; lia).
  assert (Hh : 1 <= t_head t) by apply Ht.
  apply wp_bind, wp_i32; [unfold min_int; lia| |].
  { intros. apply Hov. unfold max_int, cap in *. lia. }
  intros Hl. apply wp_bind. eapply wp_mono; [apply alloc_storage_ok; eauto| auto|].
  intros t1 (T1 & E1 & E2 & E3 & E4 & E5).
  destruct (set_real_array_at_ok t1 (t_head t) l) as (t2 & W1 & (W2 & W3 & W4) & W5); try lia.
  rewrite W1. cbn [bind]. apply wp_bind.
  eapply wp_mono; [apply (incr_head_ok t2 (2 * zlen l) ov)| auto|]; try lia.
  { intros. apply Hov. unfold max_int, cap in *; lia. }
  intros t3 ->. cbn [wp fst snd]. split; [auto|].
  destruct T1 as (T1 & T2 & T3).
  assert (PP : pushed t (set_head t2 (t_head t2 + 2 * zlen l)) (2 * zlen l)).
  { unfold pushed, pushedN, twf; cbn [t_head t_size t_mem set_head]. repeat split; try lia.
    - intros j Hj. rewrite W4 by lia. apply T3. lia.
    - intros j Hj. rewrite W4 by lia. apply E4. lia.
    - intros p Hp HS. rewrite W3. apply E5; auto. }
  split; [exact PP|]. simpl. exact W5.
Qed.

(* record of a variable: value, adjoint, operand words, data operands *)
Definition rec_at (m : Z -> W) (l : Z) (v a : F) (ops : list Z) (ds : list F) : Prop :=
  real_at m l v /\ real_at m (l + 2) a /\
  ints_at m (l + 4) (zlen ops :: ops ++ [zlen ds]) /\
  reals_at m (l + 6 + zlen ops) ds.

Definition rec_len (ops : list Z) (ds : list F) : Z := 6 + zlen ops + 2 * zlen ds.

Lemma rec_at_frame m m' l v a ops ds :
  same_on m m' l (l + rec_len ops ds) -> rec_at m l v a ops ds -> rec_at m' l v a ops ds.
Proof.
  unfold rec_at, rec_len. assert (0 <= zlen ops /\ 0 <= zlen ds) as [? ?] by (unfold zlen; lia).
  intros H1 (A & B & D & E). split; [|split; [|split]].
  - eapply real_at_frame; eauto. eapply same_on_sub; eauto; lia.
  - eapply real_at_frame; eauto. eapply same_on_sub; eauto; lia.
  - eapply ints_at_frame; eauto. eapply same_on_sub; eauto; try lia.
    unfold zlen; simpl; rewrite app_length; simpl; lia.
  - eapply reals_at_frame; eauto. eapply same_on_sub; eauto; try lia.
Qed.

Lemma real_at_zero m i : m i = w0 -> m (i + 1) = w0 -> real_at m i f0.
Proof. unfold real_at; intros -> ->. apply dec_zero. Qed.

Lemma zlen_nonneg {A} (l : list A) : 0 <= zlen l.
Proof. unfold zlen; lia. Qed.

(* the first 4 words (value, zero adjoint) of a record *)
Lemma push_head4 t v k (ov : Prop) :
  cfg_ok C -> twf t -> 4 <= k -> (cap < t_head t + k - 1 -> ov) ->
  wp ov (t1 <- alloc_storage t k ;; t2 <- set_val_curr t1 v ;; incr_head t2 4)
    (fun t3 => pushedN t t3 4 k /\ t_head t + k <= t_size t3 + 1 /\
       real_at (t_mem t3) (t_head t) v /\ real_at (t_mem t3) (t_head t + 2) f0).
Proof.
  intros HC Ht Hk Hov. assert (Hh : 1 <= t_head t) by apply Ht.
  apply wp_bind. eapply wp_mono; [apply alloc_storage_ok; eauto| auto|].
  intros t1 (T1 & E1 & E2 & E3 & E4 & E5).
  unfold set_val_curr, set_val_at.
  destruct (set_real_at_ok t1 (t_head t1) v) as (t2 & W1 & (W2 & W3 & W4) & W5); try lia.
  rewrite W1. cbn [bind].
  eapply wp_mono; [apply (incr_head_ok t2 4 ov)| auto|]; try lia.
  { intros. apply Hov. unfold max_int, cap in *; lia. }
  intros t3 ->. destruct T1 as (T1 & T2 & T3).
  split; [|split; [cbn [t_size set_head]; lia|]].
  - unfold pushed, pushedN, twf; cbn [t_head t_size t_mem set_head]. repeat split; try lia.
    + intros j Hj. rewrite W4 by lia. apply T3. lia.
    + intros j Hj. rewrite W4 by lia. apply E4. lia.
    + intros p Hp HS. rewrite W3. apply E5; auto.
  - cbn [t_mem set_head]. rewrite <- E1. split; auto.
    apply real_at_zero; rewrite W4 by lia; apply T3; lia.
Qed.

Lemma push_val_ok t d (ov : Prop) :
  cfg_ok C -> twf t -> (cap < t_head t + 5 -> ov) ->
  wp ov (push_val t d) (fun p =>
    fst p = t_head t /\ pushed t (snd p) 6 /\ rec_at (t_mem (snd p)) (t_head t) d f0 [] []).
Proof.
  intros HC Ht Hov. assert (Hh : 1 <= t_head t) by apply Ht. unfold push_val, min_rec_size.
  apply wp_bind. eapply wp_mono; [apply alloc_storage_ok; auto; intros; apply Hov; lia| auto|].
  intros t1 (T1 & E1 & E2 & E3 & E4 & E5). destruct T1 as (T1 & T2 & T3).
  unfold set_val_curr, set_val_at.
  destruct (set_real_at_ok t1 (t_head t1) d) as (t2 & W1 & (W2 & W3 & W4) & W5); try lia.
  rewrite W1. cbn [bind]. apply wp_bind.
  eapply wp_mono; [apply (incr_head_ok t2 6 ov)| auto|]; try lia.
  { intros. apply Hov. unfold max_int, cap in *; lia. }
  intros t3 ->. cbn [wp fst snd]. split; [auto|]. split.
  - unfold pushed, pushedN, twf; cbn [t_head t_size t_mem set_head]. repeat split; try lia.
    + intros j Hj. rewrite W4 by lia. apply T3. lia.
    + intros j Hj. rewrite W4 by lia. apply E4. lia.
    + intros p Hp HS. rewrite W3. apply E5; auto.
  - unfold rec_at. cbn [ints_at reals_at app]. change (t_mem (set_head t2 (t_head t2 + 6))) with (t_mem t2).
    rewrite <- E1.
    assert (Z0 : forall j, t_head t1 + 2 <= j -> t_mem t2 j = w0) by (intros; rewrite W4 by lia; apply T3; lia).
    repeat split; auto; try (apply Z0; lia).
    apply real_at_zero; apply Z0; lia.
Qed.

Lemma push_val_op_ok t d ops (ov : Prop) :
  cfg_ok C -> twf t -> (cap < t_head t + rec_len ops [] - 1 -> ov) ->
  wp ov (push_val_op t d ops) (fun p =>
    fst p = t_head t /\ pushed t (snd p) (rec_len ops []) /\
    rec_at (t_mem (snd p)) (t_head t) d f0 ops []).
Proof.
  intros HC Ht Hov. assert (Hh : 1 <= t_head t) by apply Ht. unfold push_val_op.
  pose proof (zlen_nonneg ops). unfold rec_len in *. change (zlen (@nil F)) with 0 in *.
  eapply wp_bind3; [apply (push_head4 t d 4 ov HC Ht); [lia|intros; apply Hov; lia]|].
  intros t3 (P1 & _ & P3 & P4). apply wp_bind.
  assert (P1' := P1). destruct P1' as (P5 & P6 & P7 & P8 & P9).
  assert (Hl : zlen (zlen ops :: ops ++ [0]) = zlen ops + 2).
  { unfold zlen; simpl; rewrite app_length; simpl; lia. }
  eapply wp_mono; [apply (push_int_array_ok t3 _ ov HC P5)| auto|].
  { intros. apply Hov. rewrite Hl in *. lia. }
  intros [id t4] (Q1 & Q2 & Q3). cbn [fst snd] in *. cbn [wp fst snd]. split; auto. rewrite Hl in *.
  split.
  - replace (6 + zlen ops + 2 * 0) with (4 + (zlen ops + 2)) by lia.
    eapply pushed_trans; eauto; lia.
  - destruct Q2 as (Q4 & Q5 & Q6 & Q7 & Q8). unfold rec_at. cbn [reals_at].
    change (zlen (@nil F)) with 0.
    split; [|split; [|split]]; auto.
    + eapply real_at_frame; [|exact P3]. intros j Hj. apply Q7. lia.
    + eapply real_at_frame; [|exact P4]. intros j Hj. apply Q7. lia.
    + rewrite <- P6. exact Q3.
Qed.

Lemma push_val_op_dop_ok t d ops ds (ov : Prop) :
  cfg_ok C -> twf t -> (cap < t_head t + rec_len ops ds - 1 -> ov) ->
  wp ov (push_val_op_dop t d ops ds) (fun p =>
    fst p = t_head t /\ pushed t (snd p) (rec_len ops ds) /\
    rec_at (t_mem (snd p)) (t_head t) d f0 ops ds).
Proof.
  intros HC Ht Hov. assert (Hh : 1 <= t_head t) by apply Ht. unfold push_val_op_dop.
  pose proof (zlen_nonneg ops). pose proof (zlen_nonneg ds). unfold rec_len in *.
  eapply wp_bind3; [apply (push_head4 t d 4 ov HC Ht); [lia|intros; apply Hov; lia]|].
  intros t3 (P1 & _ & P3 & P4). apply wp_bind.
  assert (P1' := P1). destruct P1' as (P5 & P6 & P7 & P8 & P9).
  assert (Hl : zlen (zlen ops :: ops ++ [zlen ds]) = zlen ops + 2).
  { unfold zlen; simpl; rewrite app_length; simpl; lia. }
  eapply wp_mono; [apply (push_int_array_ok t3 _ ov HC P5)| auto|].
  { intros. apply Hov. rewrite Hl in *. lia. }
  intros [id t4] (Q1 & Q2 & Q3). cbn [fst snd] in *. rewrite Hl in *.
  assert (Q2' := Q2). destruct Q2' as (Q4 & Q5 & Q6 & Q7 & Q8).
  apply wp_bind. eapply wp_mono; [apply (push_real_array_ok t4 ds ov HC Q4)| auto|].
  { intros. apply Hov. lia. }
  intros [id' t5] (R1 & R2 & R3). cbn [wp fst snd] in *. split; auto. split.
  - replace (6 + zlen ops + 2 * zlen ds) with ((4 + (zlen ops + 2)) + 2 * zlen ds) by lia.
    eapply pushed_trans; eauto; try lia. eapply pushed_trans; eauto; lia.
  - destruct R2 as (R4 & R5 & R6 & R7 & R8). unfold rec_at.
    split; [|split; [|split]]; auto.
    + eapply real_at_frame; [|exact P3]. intros j Hj. rewrite R7, Q7 by lia. reflexivity.
    + eapply real_at_frame; [|exact P4]. intros j Hj. rewrite R7, Q7 by lia. reflexivity.
    + eapply ints_at_frame; [|rewrite <- P6; exact Q3]. rewrite Hl. intros j Hj. apply R7. lia.
    + replace (t_head t + 6 + zlen ops) with (t_head t4) by lia. exact R3.
Qed.

Lemma push_val_dop_ok t d ds (ov : Prop) :
  cfg_ok C -> twf t -> (cap < t_head t + rec_len [] ds - 1 -> ov) ->
  wp ov (push_val_dop t d ds) (fun p =>
    fst p = t_head t /\ pushed t (snd p) (rec_len [] ds) /\
    rec_at (t_mem (snd p)) (t_head t) d f0 [] ds).
Proof.
  intros HC Ht Hov. assert (Hh : 1 <= t_head t) by apply Ht. unfold push_val_dop.
  pose proof (zlen_nonneg ds). unfold rec_len in *. change (zlen (@nil Z)) with 0 in *.
  unfold min_rec_size.
  eapply wp_bind3; [apply (push_head4 t d 6 ov HC Ht); [lia|intros; apply Hov; lia]|].
  intros t3 (P1 & P2 & P3 & P4).
  assert (P1' := P1). destruct P1' as (P5 & P6 & P7 & P8 & P9).
  apply wp_bind. eapply wp_mono; [apply (incr_head_ok t3 1 ov)| auto|]; try lia.
  { intros. apply Hov. unfold max_int, cap in *; lia. }
  intros t4 ->. simpl. rewrite tput_ok by (simpl; lia). cbn [bind]. simpl.
  apply wp_bind. eapply wp_mono; [apply (incr_head_ok _ 1 ov)| auto|]; simpl; try lia.
  { intros. apply Hov. unfold max_int, cap in *; lia. }
  intros t6 ->. simpl.
  set (t6 := set_head _ _).
  assert (PT : pushedN t3 t6 2 0).
  { unfold pushedN, twf, t6; simpl. destruct P5 as (A & B & D). repeat split; try lia.
    - intros j Hj. unfold upd. replace (j =? t_head t3 + 1) with false by lia. apply D; lia.
    - intros j Hj. unfold upd. replace (j =? t_head t3 + 1) with false by lia. reflexivity.
    - intros p Hp HS. replace (Z.max p (t_head t3 + 0)) with p by lia. exact HS. }
  assert (PT' := PT). destruct PT' as (Q4 & Q5 & Q6 & Q7 & Q8).
  apply wp_bind. eapply wp_mono; [apply (push_real_array_ok t6 ds ov HC Q4)| auto|].
  { intros. apply Hov. lia. }
  intros [id' t7] (R1 & R2 & R3). cbn [wp fst snd] in *. split; auto. split.
  - replace (6 + 0 + 2 * zlen ds) with ((4 + 2) + 2 * zlen ds) by lia.
    eapply pushed_trans; eauto; try lia.
    exact (pushedN_trans t t3 t6 4 6 2 0 ltac:(lia) P1 PT).
  - destruct R2 as (R4 & R5 & R6 & R7 & R8). unfold rec_at. cbn [app ints_at].
    change (zlen (@nil Z)) with 0.
    split; [|split; [|split; [split; [|split]|]]]; auto.
    + eapply real_at_frame; [|exact P3]. intros j Hj. rewrite R7, Q7 by lia. reflexivity.
    + eapply real_at_frame; [|exact P4]. intros j Hj. rewrite R7, Q7 by lia. reflexivity.
    + rewrite R7 by lia. unfold t6; simpl. unfold upd.
      replace (t_head t + 4 =? t_head t3 + 1) with false by lia. apply P5. lia.
    + rewrite R7 by lia. unfold t6; simpl. unfold upd.
      replace (t_head t + 4 + 1 =? t_head t3 + 1) with true by lia. reflexivity.
    + replace (t_head t + 6 + 0) with (t_head t6) by lia. exact R3.
Qed.

(* ---- reading a record ---- *)

(* record fields are stored at [l]; all its words are allocated *)
Definition rec_in (t : tape) (l : Z) (v a : F) (ops : list Z) (ds : list F) : Prop :=
  1 <= l /\ l + rec_len ops ds <= t_size t + 1 /\ t_size t <= max_int /\
  Forall (fun z => is_int32 z = true) ops /\ rec_at (t_mem t) l v a ops ds.

Section Read.
Variables (t : tape) (l : Z) (v a : F) (ops : list Z) (ds : list F).
Hypothesis R : rec_in t l v a ops ds.

Lemma rec_val : val_at t l = Ok v.
Proof.
  destruct R as (R1 & R2 & _ & _ & R3 & _). unfold rec_len in R2.
  pose proof (zlen_nonneg ops). pose proof (zlen_nonneg ds).
  apply get_real_at_ok; auto; lia.
Qed.

Lemma rec_adj : adj_at t l = Ok a.
Proof.
  destruct R as (R1 & R2 & _ & _ & _ & R3 & _). unfold rec_len in R2.
  pose proof (zlen_nonneg ops). pose proof (zlen_nonneg ds).
  apply get_real_at_ok; auto; lia.
Qed.

Lemma zlen_int32 {A} (x : list A) : zlen x <= max_int -> is_int32 (zlen x) = true.
Proof. intros. pose proof (zlen_nonneg x). unfold is_int32, min_int. lia. Qed.

Lemma rec_n_operand : n_operand t l = Ok (zlen ops).
Proof.
  destruct R as (R1 & R2 & R0 & _ & _ & _ & (R3 & _) & _). unfold rec_len in R2.
  pose proof (zlen_nonneg ops). pose proof (zlen_nonneg ds).
  apply tget_int_ok; auto; try lia. apply zlen_int32; lia.
Qed.

Lemma rec_operand_index : operand_index t l = Ok ops.
Proof.
  unfold operand_index. rewrite rec_n_operand. simpl.
  destruct R as (R1 & R2 & R0 & Rf & _ & _ & (_ & R3) & _). unfold rec_len in R2.
  pose proof (zlen_nonneg ops). pose proof (zlen_nonneg ds).
  apply ints_at_app in R3. destruct R3 as [R3 _].
  unfold zlen at 1. rewrite Nat2Z.id. apply tget_ints_ok; auto; try lia.
  replace (l + 5) with (l + 4 + 1) by lia. auto.
Qed.

Lemma rec_n_data_operand : n_data_operand t l = Ok (zlen ds).
Proof.
  unfold n_data_operand. rewrite rec_n_operand. simpl.
  destruct R as (R1 & R2 & R0 & Rf & _ & _ & (_ & R3) & _). unfold rec_len in R2.
  pose proof (zlen_nonneg ops). pose proof (zlen_nonneg ds).
  apply ints_at_app in R3. destruct R3 as [_ [R3 _]].
  apply tget_int_ok; auto; try lia.
  - replace (l + 5 + zlen ops) with (l + 4 + 1 + zlen ops) by lia. auto.
  - apply zlen_int32; lia.
Qed.

Lemma rec_data_operand : data_operand t l = Ok ds.
Proof.
  unfold data_operand. rewrite rec_n_data_operand, rec_n_operand. simpl.
  destruct R as (R1 & R2 & R0 & Rf & _ & _ & _ & R3). unfold rec_len in R2.
  pose proof (zlen_nonneg ops). pose proof (zlen_nonneg ds). unfold min_rec_size.
  apply get_real_array_at_ok; auto; lia.
Qed.

End Read.
End Facts.
