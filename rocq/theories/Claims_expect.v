(* Proofs of C55: the assertions of src/test.F90. *)
From Coq Require Import Reals Lra Lia.
From Flocq Require Import Core IEEE754.BinarySingleNaN IEEE754.Binary IEEE754.Bits.
From Verif Require Import Expect.

Notation fin := (Binary.is_finite 53 1024).
Notation rl := (Binary.B2R 53 1024).
Notation bnan := (Binary.is_nan 53 1024).

Lemma b_le_fin x y : fin x = true -> fin y = true -> b_le x y = true <-> (rl x <= rl y)%R.
Proof.
  intros Hx Hy. unfold b_le, b_cmp, b64_compare.
  rewrite (Binary.Bcompare_correct 53 1024 _ _ Hx Hy).
  destruct (Rcompare_spec (rl x) (rl y)); split; intros; try lra; try congruence; reflexivity.
Qed.

Lemma abs_val x : rl (b64_abs x) = Rabs (rl x).
Proof. apply Binary.B2R_Babs. Qed.
Lemma abs_fin x : fin (b64_abs x) = fin x.
Proof. apply Binary.is_finite_Babs. Qed.

Notation rnd := (round radix2 (SpecFloat.fexp 53 1024) ZnearestE).

Lemma minus_fin a b : fin a = true -> fin b = true ->
  (Rabs (rnd (rl a - rl b)) < bpow radix2 1024)%R ->
  rl (b64_minus rne a b) = rnd (rl a - rl b) /\ fin (b64_minus rne a b) = true.
Proof.
  intros Ha Hb Hov.
  pose proof (Binary.Bminus_correct 53 1024 (eq_refl _) (eq_refl _) binop_nan_pl64 rne a b Ha Hb) as H.
  cbn [round_mode rne BinarySingleNaN.round_mode] in H.
  rewrite Rlt_bool_true in H by exact Hov. destruct H as [H1 [H2 _]]. split; assumption.
Qed.

Lemma minus_inf a b : fin a = true -> fin b = true ->
  (bpow radix2 1024 <= Rabs (rnd (rl a - rl b)))%R ->
  exists s, b64_minus rne a b = Binary.B754_infinity 53 1024 s.
Proof.
  intros Ha Hb Hov.
  pose proof (Binary.Bminus_correct 53 1024 (eq_refl _) (eq_refl _) binop_nan_pl64 rne a b Ha Hb) as H.
  cbn [round_mode rne BinarySingleNaN.round_mode] in H.
  rewrite Rlt_bool_false in H by exact Hov. destruct H as [H1 _].
  exists (Binary.Bsign 53 1024 a).
  unfold b64_minus. destruct (Binary.Bminus 53 1024 _ _ _ rne a b) as [s|s|s pl e|s m e Hb']; cbn in H1; try discriminate.
  injection H1 as ->. reflexivity.
Qed.

Lemma b_le_inf x s : fin x = true -> b_le x (b64_abs (Binary.B754_infinity 53 1024 s)) = true.
Proof. intros Hx. destruct x as [sx|sx|sx pl e|sx m e Hb]; try discriminate; destruct sx; reflexivity. Qed.

Lemma fmt x : generic_format radix2 (SpecFloat.fexp 53 1024) (rl x).
Proof. apply Binary.generic_format_B2R. Qed.

Lemma rnd_abs x : Rabs (rnd x) = rnd (Rabs x).
Proof. symmetry. apply round_NE_abs. now apply fexp_correct. Qed.

Lemma rnd_ge (t : binary64) x : (rl t <= x)%R -> (rl t <= rnd x)%R.
Proof. intros H. apply round_ge_generic; auto using fmt with typeclass_instances. now apply fexp_correct. Qed.
Lemma rnd_le (t : binary64) x : (x <= rl t)%R -> (rnd x <= rl t)%R.
Proof. intros H. apply round_le_generic; auto using fmt with typeclass_instances. now apply fexp_correct. Qed.

Theorem near_spec a b tol : fin a = true -> fin b = true -> fin tol = true ->
  (expect_near a b tol = Ok tt \/ expect_near a b tol = ErrStop) /\
  (expect_near a b tol = Ok tt -> (Rabs (rl a - rl b) < rl tol)%R) /\
  (forall x, fin x = true -> (Rabs (rl a - rl b) <= rl x < rl tol)%R -> expect_near a b tol = Ok tt).
Proof.
  intros Ha Hb Ht. unfold expect_near.
  destruct (Rlt_le_dec (Rabs (rnd (rl a - rl b))) (bpow radix2 1024)) as [Hov|Hov].
  - destruct (minus_fin a b Ha Hb Hov) as [HV HF].
    assert (HF' : fin (b64_abs (b64_minus rne a b)) = true) by (rewrite abs_fin; exact HF).
    pose proof (b_le_fin tol _ Ht HF') as HL. rewrite abs_val, HV, rnd_abs in HL.
    split; [destruct (b_le _ _); auto|]. split.
    + destruct (b_le _ _); [discriminate|]. intros _.
      apply Rnot_le_lt. intros Hle. apply rnd_ge in Hle. apply HL in Hle. discriminate.
    + intros x Hx [H1 H2]. destruct (b_le _ _); [|reflexivity].
      destruct HL as [HL _]. specialize (HL eq_refl). apply rnd_le in H1. lra.
  - destruct (minus_inf a b Ha Hb Hov) as [s Es]. rewrite Es, (b_le_inf tol s Ht).
    split; [auto|]. split; [discriminate|].
    intros x Hx [H1 _]. exfalso. rewrite rnd_abs in Hov. apply rnd_le in H1.
    pose proof (Binary.abs_B2R_lt_emax 53 1024 x). pose proof (Rle_abs (rl x)). lra.
Qed.

Lemma bounds_val : rl (b64_mult rne four ulp_f) = bpow radix2 (-21) /\ fin (b64_mult rne four ulp_f) = true /\
  rl (b64_mult rne four ulp_d) = bpow radix2 (-50) /\ fin (b64_mult rne four ulp_d) = true.
Proof.
  assert (Ef : Binary.B2FF 53 1024 (b64_mult rne four ulp_f) = Binary.F754_finite false 4503599627370496 (-73)) by (vm_compute; reflexivity).
  assert (Ed : Binary.B2FF 53 1024 (b64_mult rne four ulp_d) = Binary.F754_finite false 4503599627370496 (-102)) by (vm_compute; reflexivity).
  rewrite <- !Binary.FF2R_B2FF, Ef, Ed. repeat split; try (vm_compute; reflexivity);
  cbn [Binary.FF2R F2R Fnum Fexp cond_Zopp]; unfold F2R; cbn [Fnum Fexp cond_Zopp];
  change (IZR (Z.pos 4503599627370496)) with (bpow radix2 52); rewrite <- bpow_plus; reflexivity.
Qed.

Theorem float_spec a b : fin a = true -> fin b = true ->
  (expect_float_eq a b = Ok tt \/ expect_float_eq a b = ErrStop) /\
  (expect_float_eq a b = Ok tt -> (Rabs (rl a - rl b) < bpow radix2 (-21))%R) /\
  (forall x, fin x = true -> (Rabs (rl a - rl b) <= rl x < bpow radix2 (-21))%R -> expect_float_eq a b = Ok tt).
Proof.
  intros Ha Hb. destruct bounds_val as (E & Ef & _). rewrite <- E. now apply near_spec.
Qed.
Theorem dbl_spec a b : fin a = true -> fin b = true ->
  (expect_dbl_eq a b = Ok tt \/ expect_dbl_eq a b = ErrStop) /\
  (expect_dbl_eq a b = Ok tt -> (Rabs (rl a - rl b) < bpow radix2 (-50))%R) /\
  (forall x, fin x = true -> (Rabs (rl a - rl b) <= rl x < bpow radix2 (-50))%R -> expect_dbl_eq a b = Ok tt).
Proof.
  intros Ha Hb. destruct bounds_val as (_ & _ & E & Ef). rewrite <- E. now apply near_spec.
Qed.

(* identical data pass, NaN included *)
Lemma minus_self a : fin a = true -> rl (b64_minus rne a a) = 0%R /\ fin (b64_minus rne a a) = true.
Proof.
  intros Ha. assert (E : rnd (rl a - rl a) = 0%R).
  { replace (rl a - rl a)%R with 0%R by lra. apply round_0. auto with typeclass_instances. }
  destruct (minus_fin a a Ha Ha) as [H1 H2].
  { rewrite E, Rabs_R0. apply bpow_gt_0. }
  rewrite H1. auto.
Qed.
Lemma b_le_nan x y : bnan y = true -> b_le x y = false.
Proof. intros H. destruct y; try discriminate. destruct x as [|[]| |[]]; reflexivity. Qed.
Lemma abs_nan x : bnan (b64_abs x) = bnan x.
Proof. destruct x; reflexivity. Qed.
Lemma minus_nan_l a b : bnan a = true -> bnan (b64_minus rne a b) = true.
Proof. intros H. destruct a; try discriminate. destruct b; reflexivity. Qed.
Lemma minus_nan_r a b : bnan b = true -> bnan (b64_minus rne a b) = true.
Proof. intros H. destruct b; try discriminate. destruct a; reflexivity. Qed.
Theorem near_nan a b tol : bnan a = true \/ bnan b = true -> expect_near a b tol = Ok tt.
Proof.
  intros H. unfold expect_near. rewrite b_le_nan; auto. rewrite abs_nan.
  destruct H; [now apply minus_nan_l|now apply minus_nan_r].
Qed.
Theorem near_refl a tol : fin tol = true -> (0 < rl tol)%R -> expect_near a a tol = Ok tt.
Proof.
  intros Ht Hp. destruct (fin a) eqn:Ha.
  - destruct (minus_self a Ha) as [H1 H2]. unfold expect_near.
    destruct (b_le tol _) eqn:E; auto. apply b_le_fin in E; auto.
    + rewrite abs_val, H1, Rabs_R0 in E. lra.
    + now rewrite abs_fin.
  - destruct a as [|[]| |]; try discriminate; [| |apply near_nan; auto];
    unfold expect_near; rewrite b_le_nan; reflexivity.
Qed.

(* an infinity passes only against itself (or a NaN) *)
Theorem near_inf s b tol : fin tol = true -> bnan b = false -> b <> Binary.B754_infinity 53 1024 s ->
  expect_near (Binary.B754_infinity 53 1024 s) b tol = ErrStop /\
  expect_near b (Binary.B754_infinity 53 1024 s) tol = ErrStop.
Proof.
  intros Ht Hn Hb. unfold expect_near.
  assert (E1 : exists s', b64_minus rne (Binary.B754_infinity 53 1024 s) b = Binary.B754_infinity 53 1024 s').
  { destruct b as [sb|sb|sb pl e|sb m e Hx]; try discriminate; destruct s; try destruct sb; try (eexists; reflexivity); congruence. }
  assert (E2 : exists s', b64_minus rne b (Binary.B754_infinity 53 1024 s) = Binary.B754_infinity 53 1024 s').
  { destruct b as [sb|sb|sb pl e|sb m e Hx]; try discriminate; destruct s; try destruct sb; try (eexists; reflexivity); congruence. }
  destruct E1 as [s1 ->]. destruct E2 as [s2 ->]. rewrite !b_le_inf by exact Ht. auto.
Qed.

(* arrays *)
Lemma foldM_tt {A} (f : A -> res unit) l :
  Forall (fun x => f x = Ok tt \/ f x = ErrStop) l ->
  (foldM (fun _ x => f x) l tt = Ok tt <-> Forall (fun x => f x = Ok tt) l) /\
  (foldM (fun _ x => f x) l tt = ErrStop <-> Exists (fun x => f x = ErrStop) l).
Proof.
  induction 1 as [|x l Hx Hl [IH1 IH2]]; cbn [foldM].
  - split; split; intros H; auto; inversion H.
  - destruct Hx as [E|E]; rewrite E; cbn [bind].
    + rewrite IH1, IH2. split; split; intros H.
      * constructor; auto. * now inversion H.
      * now right. * inversion H; subst; [congruence|assumption].
    + split; split; intros H; try discriminate; auto.
      inversion H; congruence.
Qed.

Definition total (chk : binary64 -> binary64 -> res unit) : Prop := forall x y, chk x y = Ok tt \/ chk x y = ErrStop.
Lemma near_total t : total (fun a b => expect_near a b t).
Proof. intros x y. unfold expect_near. destruct (b_le _ _); auto. Qed.

Lemma Forall_seq_nth {A} (P : nat -> Prop) (l : list A) : Forall P (seq 0 (length l)) <-> forall i, (i < length l)%nat -> P i.
Proof. rewrite Forall_forall. split; intros H i Hi; apply H; [apply in_seq; lia|apply in_seq in Hi; lia]. Qed.

Lemma Forall2_nth_iff {A B} (R : A -> B -> Prop) (l : list A) (m : list B) : length l = length m ->
  (Forall2 R l m <-> forall i x y, nth_error l i = Some x -> nth_error m i = Some y -> R x y).
Proof.
  revert m. induction l as [|a l IH]; intros [|b m] HL; try discriminate.
  - split; [intros _ [|i]; discriminate|constructor].
  - cbn in HL. injection HL as HL. split.
    + intros H. inversion H as [|? ? ? ? H1 H2]; subst. intros [|i] x y; cbn.
      * intros [= <-] [= <-]. assumption.
      * now apply IH.
    + intros H. constructor; [exact (H 0%nat a b eq_refl eq_refl)|].
      apply IH; auto. intros i x y. exact (H (S i) x y).
Qed.

Lemma foldM_ext {A S} (f g : S -> A -> res S) l s : (forall s x, In x l -> f s x = g s x) -> foldM f l s = foldM g l s.
Proof.
  revert s. induction l as [|x l IH]; intros s H; cbn [foldM]; auto.
  rewrite H by now left. destruct (g s x); cbn [bind]; auto. apply IH. intros; apply H; now right.
Qed.

Lemma dec_fold {A} (f : A -> res unit) l : (forall x, In x l -> f x = Ok tt \/ f x = ErrStop) ->
  foldM (fun _ x => f x) l tt = Ok tt \/ foldM (fun _ x => f x) l tt = ErrStop.
Proof.
  induction l as [|x l IH]; intros H; cbn [foldM]; auto.
  destruct (H x) as [-> | ->]; [now left| |]; cbn [bind]; auto. apply IH. intros; apply H; now right.
Qed.

Theorem eq_1_spec chk a b : total chk -> length a = length b ->
  (expect_eq_1 chk a b = Ok tt <-> Forall2 (fun x y => chk x y = Ok tt) a b) /\
  (expect_eq_1 chk a b = Ok tt \/ expect_eq_1 chk a b = ErrStop).
Proof.
  intros HT HL. unfold expect_eq_1.
  set (f := fun i => x <- elem a i ;; y <- elem b i ;; chk x y).
  assert (HF : Forall (fun i => f i = Ok tt \/ f i = ErrStop) (seq 0 (length a))).
  { rewrite Forall_seq_nth. intros i Hi. unfold f, elem.
    destruct (nth_error a i) eqn:Ea; [|apply nth_error_None in Ea; lia].
    destruct (nth_error b i) eqn:Eb; [|apply nth_error_None in Eb; lia]. cbn [bind]. apply HT. }
  split.
  - destruct (foldM_tt f _ HF) as [-> _]. rewrite Forall_seq_nth, Forall2_nth_iff by exact HL. split.
    + intros H i x y Ex Ey. specialize (H i). unfold f, elem in H. rewrite Ex, Ey in H. cbn [bind] in H.
      apply H. apply nth_error_Some. congruence.
    + intros H i Hi. unfold f, elem.
      destruct (nth_error a i) eqn:Ea; [|apply nth_error_None in Ea; lia].
      destruct (nth_error b i) eqn:Eb; [|apply nth_error_None in Eb; lia]. cbn [bind]. eauto.
  - apply dec_fold. rewrite Forall_forall in HF. exact HF.
Qed.

Theorem eq_2_spec chk nr a b : total chk -> length a = length b ->
  Forall (fun c => length c = nr) a -> Forall (fun c => length c = nr) b ->
  (expect_eq_2 chk nr a b = Ok tt <-> Forall2 (Forall2 (fun x y => chk x y = Ok tt)) a b) /\
  (expect_eq_2 chk nr a b = Ok tt \/ expect_eq_2 chk nr a b = ErrStop).
Proof.
  intros HT HL Ha Hb. unfold expect_eq_2.
  set (f := fun i => foldM (fun _ j => x <- elem2 a j i ;; y <- elem2 b j i ;; chk x y) (seq 0 nr) tt).
  assert (E : forall i c d, nth_error a i = Some c -> nth_error b i = Some d -> f i = expect_eq_1 chk c d).
  { intros i c d Ec Ed. unfold f, expect_eq_1.
    rewrite Forall_forall in Ha. rewrite (Ha c (nth_error_In _ _ Ec)).
    apply foldM_ext. intros _ j _. unfold elem2, elem. rewrite Ec, Ed. reflexivity. }
  assert (L2 : forall i c d, nth_error a i = Some c -> nth_error b i = Some d -> length c = length d).
  { intros i c d Ec Ed. rewrite Forall_forall in Ha, Hb.
    rewrite (Ha c (nth_error_In _ _ Ec)), (Hb d (nth_error_In _ _ Ed)). reflexivity. }
  assert (X : forall i, (i < length a)%nat -> exists c d, nth_error a i = Some c /\ nth_error b i = Some d).
  { intros i Hi.
    destruct (nth_error a i) eqn:Ea; [|apply nth_error_None in Ea; lia].
    destruct (nth_error b i) eqn:Eb; [|apply nth_error_None in Eb; lia]. eauto. }
  assert (HF : Forall (fun i => f i = Ok tt \/ f i = ErrStop) (seq 0 (length a))).
  { rewrite Forall_seq_nth. intros i Hi. destruct (X i Hi) as (c & d & Ec & Ed).
    rewrite (E i c d Ec Ed). apply eq_1_spec; eauto. }
  split.
  - destruct (foldM_tt f _ HF) as [-> _]. rewrite Forall_seq_nth, Forall2_nth_iff by exact HL. split.
    + intros H i c d Ec Ed. apply eq_1_spec; eauto. rewrite <- (E i c d Ec Ed). apply H. apply nth_error_Some. congruence.
    + intros H i Hi. destruct (X i Hi) as (c & d & Ec & Ed).
      rewrite (E i c d Ec Ed). apply eq_1_spec; eauto.
  - apply dec_fold. rewrite Forall_forall in HF. exact HF.
Qed.

(* sizes: only the elements of a are looked at *)
Lemma foldM_app {A S} (f : S -> A -> res S) l m s : foldM f (l ++ m) s = bind (foldM f l s) (foldM f m).
Proof. revert s. induction l as [|x l IH]; intros s; cbn [foldM app bind]; auto. destruct (f s x); cbn [bind]; auto. Qed.

Theorem eq_1_longer chk a b c : length a = length b -> expect_eq_1 chk a (b ++ c) = expect_eq_1 chk a b.
Proof.
  intros HL. unfold expect_eq_1. apply foldM_ext. intros _ i Hi. apply in_seq in Hi.
  unfold elem. rewrite (nth_error_app1 b c) by lia. reflexivity.
Qed.
Theorem eq_1_shorter chk a b x c : length a = length b -> expect_eq_1 chk a b = Ok tt ->
  expect_eq_1 chk (a ++ x :: c) b = Undef OutOfBounds.
Proof.
  intros HL H. unfold expect_eq_1. rewrite app_length, seq_app, foldM_app.
  rewrite (foldM_ext _ (fun _ i => x0 <- elem a i ;; y <- elem b i ;; chk x0 y)).
  - fold (expect_eq_1 chk a b). rewrite H. cbn [bind length seq foldM Nat.add].
    assert (E1 : elem (a ++ x :: c) (length a) = Ok x).
    { unfold elem. rewrite nth_error_app2, Nat.sub_diag by lia. reflexivity. }
    assert (E2 : elem b (length a) = Undef OutOfBounds).
    { unfold elem. destruct (nth_error b (length a)) eqn:E; auto.
      assert (nth_error b (length a) <> None) by congruence. apply nth_error_Some in H0. lia. }
    rewrite E1. cbn [bind]. rewrite E2. reflexivity.
  - intros _ i Hi. apply in_seq in Hi. unfold elem. rewrite (nth_error_app1 a) by lia. reflexivity.
Qed.

Theorem arrays_1 (a b : list binary64) : length a = length b ->
  (expect_dbl_eq_1 a b = Ok tt \/ expect_dbl_eq_1 a b = ErrStop) /\
  (expect_dbl_eq_1 a b = Ok tt <-> Forall2 (fun x y => expect_dbl_eq x y = Ok tt) a b) /\
  (expect_float_eq_1 a b = Ok tt \/ expect_float_eq_1 a b = ErrStop) /\
  (expect_float_eq_1 a b = Ok tt <-> Forall2 (fun x y => expect_float_eq x y = Ok tt) a b).
Proof.
  intros HL. destruct (eq_1_spec expect_dbl_eq a b (near_total _) HL) as [H1 H2].
  destruct (eq_1_spec expect_float_eq a b (near_total _) HL) as [H3 H4]. auto.
Qed.
Theorem arrays_2 nr (a b : list (list binary64)) : length a = length b ->
  Forall (fun c => length c = nr) a -> Forall (fun c => length c = nr) b ->
  (expect_dbl_eq_2 nr a b = Ok tt \/ expect_dbl_eq_2 nr a b = ErrStop) /\
  (expect_dbl_eq_2 nr a b = Ok tt <-> Forall2 (Forall2 (fun x y => expect_dbl_eq x y = Ok tt)) a b) /\
  (expect_float_eq_2 nr a b = Ok tt \/ expect_float_eq_2 nr a b = ErrStop) /\
  (expect_float_eq_2 nr a b = Ok tt <-> Forall2 (Forall2 (fun x y => expect_float_eq x y = Ok tt)) a b).
Proof.
  intros HL Ha Hb. destruct (eq_2_spec expect_dbl_eq nr a b (near_total _) HL Ha Hb) as [H1 H2].
  destruct (eq_2_spec expect_float_eq nr a b (near_total _) HL Ha Hb) as [H3 H4]. auto.
Qed.
Lemma size_case : length (@nil binary64) <> length (c0 :: nil) /\
  expect_dbl_eq_1 nil (c0 :: nil) = Ok tt /\ expect_dbl_eq_1 (c0 :: nil) nil = Undef OutOfBounds.
Proof. split; [discriminate|]. split; reflexivity. Qed.
Theorem int_logical :
  (forall a b : Z, expect_eq a b = if (a =? b)%Z then Ok tt else ErrStop) /\
  (forall a : bool, expect_true a = if a then Ok tt else ErrStop).
Proof. unfold expect_eq, expect_true. split; [intros a b; destruct (a =? b)%Z|intros []]; reflexivity. Qed.
