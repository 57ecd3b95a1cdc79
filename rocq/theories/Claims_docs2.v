(* C58 in real arithmetic. *)
From Coq Require Import ZifyBool ZifyNat.
From Flocq Require Import IEEE754.BinarySingleNaN IEEE754.Binary IEEE754.Bits.
From Verif Require Import TapeFacts.
From Verif Require Export Claims_docs Findings.
Import ListNotations.
Local Open Scope nat_scope.
Local Notation hd := Refine.hd.

Section Real.
Context {lg : R -> R} {C : Cfg (RNum lg)}.
Notation RN := (RNum lg).

Lemma half_one : @feq RN fhalf f1 = false. Proof. apply req_false. cbn. lra. Qed.
Lemma two_half : @feq RN f2 fhalf = false. Proof. apply req_false. cbn. lra. Qed.
Lemma two_one : @feq RN f2 f1 = false. Proof. apply req_false. cbn. lra. Qed.
Lemma two_two : @feq RN f2 f2 = true. Proof. apply req_true. reflexivity. Qed.

Lemma normal_slopes (y mu sigma : R) : (0 < sigma)%R ->
  @normal_back RN y mu sigma = [(y - mu) / sigma ^ 2; (y - mu) ^ 2 / sigma ^ 3 - 1 / sigma]%R.
Proof.
  intros H. unfold normal_back. cbn.
  match goal with |- [?a; ?b] = [?c; ?d] => assert (a = c) by (field; lra); assert (b = d) by (field; lra) end. congruence.
Qed.

Theorem normal_real env0 (s : st) (c y mu sigma : R) : @practical RN C -> reachable env0 s -> (0 < sigma)%R -> roomy s 72 ->
  exists s', @var_grad_test RN C c y mu sigma s = Ok ([(y - mu) / sigma ^ 2; (y - mu) ^ 2 / sigma ^ 3 - 1 / sigma]%R, s').
Proof.
  intros HP HR HS HM. destruct (normal_any env0 s c y mu sigma HP HR half_one two_half two_one two_two HM) as (s' & E).
  exists s'. rewrite E. rewrite normal_slopes by exact HS. reflexivity.
Qed.

Lemma density_value (y mu sigma : R) : (0 < sigma)%R ->
  ((- (1 / 2) * ln (2 * PI) - ln sigma - (y - mu) / sigma * ((y - mu) / sigma) * / 2)%R = normal_density y mu sigma)%R.
Proof.
  intros H. unfold normal_density. pose proof PI_RGT_0 as HPI. assert (0 < 2 * PI)%R as H2 by lra.
  pose proof (sqrt_lt_R0 _ H2) as HS.
  assert (H4 : (0 < sigma * sqrt (2 * PI))%R) by (apply Rmult_lt_0_compat; assumption).
  rewrite (ln_mult (1 / (sigma * sqrt (2 * PI)))); [|apply Rdiv_lt_0_compat; [lra|exact H4]|apply exp_pos].
  rewrite ln_exp. replace (1 / (sigma * sqrt (2 * PI)))%R with (/ (sigma * sqrt (2 * PI)))%R by (unfold Rdiv; ring).
  rewrite ln_Rinv by exact H4. rewrite (ln_mult sigma) by assumption.
  assert (ln (sqrt (2 * PI)) = (/ 2 * ln (2 * PI))%R) as ->.
  { rewrite <- (Rpower_sqrt (2 * PI)) by assumption. unfold Rpower. rewrite ln_exp. reflexivity. }
  field. lra.
Qed.

Theorem normal_gradient env0 (s : st) (y mu sigma : R) : @practical RN C -> reachable env0 s -> (s_lvl s < 10)%Z -> (0 < sigma)%R ->
  roomy s 65 -> ~ exactly_full s 65 ->
  exists s', @gradient RN C (@call_fn1 RN C (@readme_f RN (- (1 / 2) * ln (2 * PI))%R y)) [mu; sigma] s =
    Ok ([normal_density y mu sigma; (y - mu) / sigma ^ 2; (y - mu) ^ 2 / sigma ^ 3 - 1 / sigma]%R, s').
Proof.
  intros HP HR HL HS HM HE.
  destruct (gradient_any env0 s (- (1 / 2) * ln (2 * PI))%R y mu sigma HP HR HL half_one two_half two_one two_two HM HE) as (s' & E).
  exists s'. etransitivity; [exact E|]. rewrite (normal_slopes y mu sigma HS). rewrite <- (density_value y mu sigma HS). reflexivity.
Qed.

(* ---- straight-line programs of any length ---- *)
Definition stepped (o : @op RN) (t ls : list (@line RN)) (w : Z) : Prop :=
  Forall (fun r => r < length t) (op_regs o) /\ op_shape o /\ neutral o = false /\
  step o (op_regs o) (map (value t) (op_regs o)) = New ls /\ words o (map (value t) (op_regs o)) = w.
Inductive steps : list (@op RN) -> list (@line RN) -> list (@line RN) -> Z -> Prop :=
  | steps_nil t : steps [] t t 0
  | steps_cons o q t ls t' w1 w : stepped o t ls w1 -> steps q (t ++ ls) t' w -> steps (o :: q) t t' (w1 + w).
Lemma steps_app q1 : forall t t1 w1 q2 t2 w2, steps q1 t t1 w1 -> steps q2 t1 t2 w2 -> steps (q1 ++ q2) t t2 (w1 + w2).
Proof.
  induction q1 as [|o q1 IH]; intros t t1 w1 q2 t2 w2 H1 H2; inversion H1; subst; cbn [app].
  - exact H2.
  - rewrite <- Z.add_assoc. econstructor; eauto.
Qed.
Lemma steps_each {A} (mk : A -> @op RN) (ln : A -> @line RN) w l : forall t, (forall a u, In a l -> stepped (mk a) (t ++ u) [ln a] w) ->
  steps (map mk l) t (t ++ map ln l) (w * zlen l).
Proof.
  induction l as [|a l IH]; intros t H; cbn [map].
  - rewrite app_nil_r, Z.mul_0_r. constructor.
  - replace (w * zlen (a :: l))%Z with (w + w * zlen l)%Z by (unfold zlen; cbn [length]; lia).
    econstructor; [specialize (H a [] (or_introl eq_refl)); rewrite app_nil_r in H; exact H|].
    replace (t ++ ln a :: map ln l) with ((t ++ [ln a]) ++ map ln l) by (rewrite <- app_assoc; reflexivity).
    apply IH. intros b u Hb. rewrite <- app_assoc. apply H. right. exact Hb.
Qed.
Lemma lines_here n l : Forall (fun r => r < n) l -> lines_at (seq 0 n) l = l.
Proof. intros H. unfold lines_at. induction H as [|r l Hr H IH]; cbn [map]; [reflexivity|]. rewrite IH, seq_nth by exact Hr. reflexivity. Qed.
Lemma steps_walk q : forall t t' w, steps q t t' w ->
  walk (calls q (seq 0 (length t'))) (seq 0 (length t)) t w (seq 0 (length t'), t').
Proof.
  induction q as [|o q IH]; intros t t' w H; inversion H; subst; cbn [calls].
  - split; [|split; [reflexivity|]]; cbn [well_formed trace].
    + apply Forall_forall. intros y Hy. rewrite seq_length. apply in_seq in Hy. lia.
    + rewrite lines_here; [reflexivity|]. apply Forall_forall. intros y Hy. apply in_seq in Hy. lia.
  - match goal with H : stepped _ _ _ _ |- _ => destruct H as (B & S & Nn & ES & EW) end.
    match goal with H : steps q _ _ _ |- _ => rename H into HQ end. eapply walk_new.
    + rewrite (lines_here _ _ B). exact ES.
    + rewrite seq_length. exact B.
    + exact S.
    + exact Nn.
    + rewrite (lines_here _ _ B). exact EW.
    + specialize (IH _ _ _ HQ). rewrite app_length, seq_app in IH. exact IH.
Qed.

Lemma stepped_var t x : stepped (OVar x) t [given x] 6.
Proof. repeat split. constructor. Qed.

(* ---- the reverse pass over a block in which one line only has an adjoint ---- *)
Lemma add_ext l : forall (f g : nat -> R), (forall x, f x = g x) -> forall x, fold_left (@add_to RN) l f x = fold_left (@add_to RN) l g x.
Proof. induction l as [|p l IH]; intros f g H x; cbn [fold_left]; [apply H|]. apply IH. intros y. unfold add_to. rewrite H. reflexivity. Qed.
Lemma add_zeros l : (forall p, In p l -> snd p = 0%R) -> forall (f : nat -> R) x, fold_left (@add_to RN) l f x = f x.
Proof.
  induction l as [|p l IH]; intros H f x; cbn [fold_left]; [reflexivity|]. rewrite IH by (intros; apply H; right; assumption).
  pose proof (H p (or_introl eq_refl)) as Hp. destruct p as [k v]. unfold add_to. cbn [fst snd] in Hp |- *. rewrite Hp. destruct (x =? k); [apply Rplus_0_r|reflexivity].
Qed.
Lemma add_away l x : (forall p, In p l -> fst p <> x) -> forall (f : nat -> R), fold_left (@add_to RN) l f x = f x.
Proof.
  induction l as [|p l IH]; intros H f; cbn [fold_left]; [reflexivity|]. rewrite IH by (intros; apply H; right; assumption).
  unfold add_to. specialize (H p (or_introl eq_refl)). replace (x =? fst p) with false by lia. reflexivity.
Qed.
Section Block.
Context (t : list (@line RN)).
Notation amounts i a := (@l_back RN (nth i t (@given RN 0%R)) a).
Lemma back_away k (f : nat -> R) x : (forall a p, In p (amounts k a) -> fst p <> x) -> @back RN t k f x = f x.
Proof. intros H. unfold back. apply add_away. apply H. Qed.
Lemma quiet m : forall a (f : nat -> R), (forall i, a <= i < a + m -> f i = 0%R) ->
  (forall i p, a <= i < a + m -> In p (amounts i 0%R) -> snd p = 0%R) -> forall x, fold_right (@back RN t) f (seq a m) x = f x.
Proof.
  induction m as [|m IH]; intros a f H0 HZ x; [reflexivity|]. cbn [seq fold_right]. set (g := fold_right (@back RN t) f (seq (S a) m)).
  assert (E : forall x, g x = f x) by (apply IH; intros; [apply H0; lia|eapply HZ; [|eassumption]; lia]).
  unfold back. rewrite (add_ext _ g f E). replace (g a) with 0%R by (rewrite E, H0 by lia; reflexivity).
  apply add_zeros. intros p Hp. apply (HZ a p); [lia|exact Hp].
Qed.
Lemma only_one lo k n (f : nat -> R) : lo <= k < lo + n -> (forall i, lo <= i < lo + n -> i <> k -> f i = 0%R) ->
  (forall i p a, lo <= i < lo + n -> In p (amounts i a) -> fst p < lo) -> (forall i p, lo <= i < lo + n -> In p (amounts i 0%R) -> snd p = 0%R) ->
  forall x, fold_right (@back RN t) f (seq lo n) x = fold_left (@add_to RN) (amounts k (f k)) f x.
Proof.
  intros Hk H0 HL HZ x. replace n with ((k - lo) + S (lo + n - k - 1)) by lia. rewrite seq_app, fold_right_app. replace (lo + (k - lo)) with k by lia.
  cbn [seq fold_right]. set (g := fold_right (@back RN t) f (seq (S k) (lo + n - k - 1))).
  assert (E : forall x, g x = f x) by (apply quiet; intros; [apply H0; lia|eapply HZ; [|eassumption]; lia]).
  assert (EB : forall x, @back RN t k g x = fold_left (@add_to RN) (amounts k (f k)) f x).
  { intros z. unfold back. rewrite (add_ext _ g f E). rewrite E. reflexivity. }
  rewrite quiet.
  - apply EB.
  - intros i Hi. rewrite EB. rewrite add_away; [apply H0; lia|]. intros p Hp. specialize (HL k p (f k) ltac:(lia) Hp). lia.
  - intros i p Hi. apply HZ. lia.
Qed.
Lemma above l (f : nat -> R) x : (forall i p a, In i l -> In p (amounts i a) -> fst p < x) -> fold_right (@back RN t) f l x = f x.
Proof.
  induction l as [|i l IH]; intros H; [reflexivity|]. cbn [fold_right]. rewrite back_away; [apply IH; intros; eapply H; [right|]; eassumption|].
  intros a p Hp. specialize (H i p a (or_introl eq_refl) Hp). lia.
Qed.
End Block.


(* line l is number j of t *)
Definition at_line (t : list (@line RN)) j l := nth_error t j = Some l.
Lemma at_app t u j l : at_line t j l -> at_line (t ++ u) j l.
Proof. unfold at_line. intros H. rewrite nth_error_app1; [exact H|]. apply nth_error_Some. congruence. Qed.
Lemma at_block t (ln : nat -> @line RN) n j i : i < n -> j = length t + i -> at_line (t ++ map ln (seq 0 n)) j (ln i).
Proof.
  intros H ->. unfold at_line. rewrite nth_error_app2 by lia. replace (length t + i - length t) with i by lia.
  rewrite nth_error_map. rewrite (nth_error_nth' _ 0) by (rewrite seq_length; exact H). rewrite seq_nth by exact H. reflexivity.
Qed.
Lemma at_value t j l : at_line t j l -> value t j = l_value l.
Proof. unfold at_line, value. intros H. apply nth_error_nth. rewrite nth_error_map, H. reflexivity. Qed.
Lemma at_nth t j l d : at_line t j l -> nth j t d = l.
Proof. apply nth_error_nth. Qed.
Lemma at_bound t j l : at_line t j l -> j < length t.
Proof. unfold at_line. intros H. apply nth_error_Some. congruence. Qed.

(* ---- arrays ---- *)
Section Arrays.
Context (a : list R) (b : R).
Notation n := (length a).
Notation A i := (nth i a 0%R).
Definition cl i := @mkLine RN (A i * 2)%R (fun w => [(i, (w * 2)%R)]).
Definition bl i := @mkLine RN (b * A i)%R (fun w => [(n, (A i * w)%R); (i, (b * w)%R)]).
Definition el i := @mkLine RN (exp (A i * 2)) (fun w => [(n + 1 + i, (w * exp (A i * 2))%R)]).
Definition pl i := @mkLine RN (b * A i * exp (A i * 2))%R (fun w => [(2 * n + 1 + i, (exp (A i * 2) * w)%R); (3 * n + 1 + i, (b * A i * w)%R)]).
Definition dl i := @mkLine RN (ln (b * A i * exp (A i * 2))) (fun w => [(4 * n + 1 + i, (w / (b * A i * exp (A i * 2)))%R)]).
Definition t1 := map (@given RN) a ++ [@given RN b].
Definition t2 := t1 ++ map cl (seq 0 n).
Definition t3 := t2 ++ map bl (seq 0 n).
Definition t4 := t3 ++ map el (seq 0 n).
Definition t5 := t4 ++ map pl (seq 0 n).
Definition t6 := t5 ++ map dl (seq 0 n).
Lemma len1 : length t1 = n + 1. Proof. unfold t1. rewrite app_length, map_length. reflexivity. Qed.
Lemma len2 : length t2 = 2 * n + 1. Proof. unfold t2. rewrite app_length, map_length, seq_length, len1. lia. Qed.
Lemma len3 : length t3 = 3 * n + 1. Proof. unfold t3. rewrite app_length, map_length, seq_length, len2. lia. Qed.
Lemma len4 : length t4 = 4 * n + 1. Proof. unfold t4. rewrite app_length, map_length, seq_length, len3. lia. Qed.
Lemma len5 : length t5 = 5 * n + 1. Proof. unfold t5. rewrite app_length, map_length, seq_length, len4. lia. Qed.
Lemma len6 : length t6 = 6 * n + 1. Proof. unfold t6. rewrite app_length, map_length, seq_length, len5. lia. Qed.
Lemma at_a i : i < n -> at_line t1 i (@given RN (A i)).
Proof.
  intros H. apply at_app. exact (map_nth_error (@given RN) i a (nth_error_nth' a 0%R H)).
Qed.
Lemma at_b : at_line t1 n (@given RN b).
Proof.
  assert (L : length (map (@given RN) a) = n) by exact (map_length (@given RN) a).
  unfold at_line, t1. rewrite nth_error_app2 by (rewrite L; lia). rewrite L, Nat.sub_diag. reflexivity.
Qed.
Lemma at_c i : i < n -> at_line t2 (n + 1 + i) (cl i).
Proof. intros H. apply at_block; [exact H|]. rewrite len1. reflexivity. Qed.
Lemma at_ba i : i < n -> at_line t3 (2 * n + 1 + i) (bl i).
Proof. intros H. apply at_block; [exact H|]. rewrite len2. reflexivity. Qed.
Lemma at_e i : i < n -> at_line t4 (3 * n + 1 + i) (el i).
Proof. intros H. apply at_block; [exact H|]. rewrite len3. reflexivity. Qed.
Lemma at_p i : i < n -> at_line t5 (4 * n + 1 + i) (pl i).
Proof. intros H. apply at_block; [exact H|]. rewrite len4. reflexivity. Qed.
Lemma at_d i : i < n -> at_line t6 (5 * n + 1 + i) (dl i).
Proof. intros H. apply at_block; [exact H|]. rewrite len5. reflexivity. Qed.

Lemma array_steps : steps (@array_ops RN n a b) [] t6 (6 * zlen a + 6 + 9 * zlen a + 8 * zlen a + 7 * zlen a + 8 * zlen a + 7 * zlen a).
Proof.
  assert (LS : zlen (seq 0 n) = zlen a) by (unfold zlen; rewrite seq_length; reflexivity).
  unfold array_ops.
  replace (6 * zlen a + 6 + 9 * zlen a + 8 * zlen a + 7 * zlen a + 8 * zlen a + 7 * zlen a)%Z with
    (6 * zlen a + ((6 + 0) + (9 * zlen (seq 0 n) + (8 * zlen (seq 0 n) + (7 * zlen (seq 0 n) + (8 * zlen (seq 0 n) + 7 * zlen (seq 0 n)))))))%Z by lia.
  apply steps_app with (t1 := map (@given RN) a).
  { apply (steps_each (@OVar RN) (@given RN) 6 a []). intros. apply stepped_var. }
  apply steps_app with (t1 := t1).
  { econstructor; [apply stepped_var|constructor]. }
  apply steps_app with (t1 := t2).
  { apply steps_each. intros i u Hi. apply in_seq in Hi. assert (H : at_line (t1 ++ u) i (@given RN (A i))) by (apply at_app, at_a; lia).
    split; [repeat constructor; apply (at_bound _ _ _ H)|]. split; [exact Logic.I|]. split; [exact two_one|].
    cbn [op_regs map]. rewrite (at_value _ _ _ H). cbn [step words]. unfold dv_records, fne. rewrite two_one. split; reflexivity. }
  apply steps_app with (t1 := t3).
  { apply steps_each. intros i u Hi. apply in_seq in Hi. assert (H : at_line (t2 ++ u) i (@given RN (A i))) by (apply at_app, at_app, at_a; lia).
    assert (H2 : at_line (t2 ++ u) n (@given RN b)) by apply at_app, at_app, at_b.
    split; [repeat constructor; eapply at_bound; eassumption|]. split; [exact Logic.I|]. split; [reflexivity|].
    cbn [op_regs map]. rewrite (at_value _ _ _ H), (at_value _ _ _ H2). split; reflexivity. }
  apply steps_app with (t1 := t4).
  { apply steps_each. intros i u Hi. apply in_seq in Hi. assert (H : at_line (t3 ++ u) (n + 1 + i) (cl i)) by (apply at_app, at_app, at_c; lia).
    split; [repeat constructor; eapply at_bound; eassumption|]. split; [exact Logic.I|]. split; [reflexivity|].
    cbn [op_regs map]. rewrite (at_value _ _ _ H). split; reflexivity. }
  apply steps_app with (t1 := t5).
  { apply steps_each. intros i u Hi. apply in_seq in Hi. assert (H : at_line (t4 ++ u) (2 * n + 1 + i) (bl i)) by (apply at_app, at_app, at_ba; lia).
    assert (H2 : at_line (t4 ++ u) (3 * n + 1 + i) (el i)) by (apply at_app, at_e; lia).
    split; [repeat constructor; eapply at_bound; eassumption|]. split; [exact Logic.I|]. split; [reflexivity|].
    cbn [op_regs map]. rewrite (at_value _ _ _ H), (at_value _ _ _ H2). split; reflexivity. }
  { apply steps_each. intros i u Hi. apply in_seq in Hi. assert (H : at_line (t5 ++ u) (4 * n + 1 + i) (pl i)) by (apply at_app, at_p; lia).
    split; [repeat constructor; eapply at_bound; eassumption|]. split; [exact Logic.I|]. split; [reflexivity|].
    cbn [op_regs map]. rewrite (at_value _ _ _ H). split; reflexivity. }
Qed.

(* the adjoint of d(k) comes back to c(k) as 1 *)
Lemma array_reverse k j : k < n -> j < n -> (0 < b * A k)%R ->
  @reverse RN t6 (@seed RN (5 * n + 1 + k)) (n + 1 + j) = (if j =? k then 1 else 0)%R.
Proof.
  intros Hk Hj HP. unfold reverse. rewrite len6.
  replace (6 * n + 1) with (S n + (n + (n + (n + (n + n))))) by lia. rewrite !seq_app, !fold_right_app.
  replace (0 + S n) with (n + 1) by lia. replace (n + 1 + n) with (2 * n + 1) by lia. replace (2 * n + 1 + n) with (3 * n + 1) by lia.
  replace (3 * n + 1 + n) with (4 * n + 1) by lia. replace (4 * n + 1 + n) with (5 * n + 1) by lia.
  assert (Nd : forall i, i < n -> forall d, nth (5 * n + 1 + i) t6 d = dl i) by (intros i Hi d; apply at_nth, at_d, Hi).
  assert (Np : forall i, i < n -> forall d, nth (4 * n + 1 + i) t6 d = pl i) by (intros i Hi d; apply at_nth, at_app, at_p, Hi).
  assert (Ne : forall i, i < n -> forall d, nth (3 * n + 1 + i) t6 d = el i) by (intros i Hi d; apply at_nth, at_app, at_app, at_e, Hi).
  assert (Nb : forall i, i < n -> forall d, nth (2 * n + 1 + i) t6 d = bl i) by (intros i Hi d; apply at_nth, at_app, at_app, at_app, at_ba, Hi).
  assert (Nc : forall i, i < n -> forall d, nth (n + 1 + i) t6 d = cl i) by (intros i Hi d; apply at_nth, at_app, at_app, at_app, at_app, at_c, Hi).
  (* d *)
  set (F1 := fold_right (@back RN t6) (@seed RN (5 * n + 1 + k)) (seq (5 * n + 1) n)).
  set (P := (b * A k * exp (A k * 2))%R). assert (HE : (0 < exp (A k * 2))%R) by apply exp_pos. assert (HPP : (0 < P)%R) by (apply Rmult_lt_0_compat; assumption).
  assert (E1 : forall x, x < 5 * n + 1 -> F1 x = if x =? 4 * n + 1 + k then (1 / P)%R else 0%R).
  { intros x Hx. transitivity (fold_left (@add_to RN) (l_back (dl k) 1%R) (@seed RN (5 * n + 1 + k)) x).
    2:{ cbn [dl l_back fold_left]. unfold add_to, seed. cbn [fst snd]. replace (x =? 5 * n + 1 + k) with false by lia.
        destruct (x =? 4 * n + 1 + k); [apply Rplus_0_l|reflexivity]. }
    unfold F1. rewrite (only_one t6 (5 * n + 1) (5 * n + 1 + k)).
    - rewrite Nd by exact Hk. unfold seed at 1. rewrite Nat.eqb_refl. reflexivity.
    - lia.
    - intros i Hi Hne. unfold seed. replace (i =? 5 * n + 1 + k) with false by lia. reflexivity.
    - intros i p w Hi. replace i with (5 * n + 1 + (i - (5 * n + 1))) by lia. rewrite Nd by lia. cbn [dl l_back In]. intros [<-|[]]. cbn [fst]. lia.
    - intros i p Hi. replace i with (5 * n + 1 + (i - (5 * n + 1))) by lia. rewrite Nd by lia. cbn [dl l_back In]. intros [<-|[]]. cbn [snd]. unfold Rdiv. apply Rmult_0_l. }
  (* product *)
  set (F2 := fold_right (@back RN t6) F1 (seq (4 * n + 1) n)).
  assert (E2 : forall x, x < 4 * n + 1 -> F2 x = if x =? 3 * n + 1 + k then (b * A k * (1 / P))%R else if x =? 2 * n + 1 + k then (exp (A k * 2) * (1 / P))%R else 0%R).
  { intros x Hx. transitivity (fold_left (@add_to RN) (l_back (pl k) (1 / P)%R) F1 x).
    2:{ cbn [pl l_back fold_left]. unfold add_to. cbn [fst snd]. rewrite E1 by lia. replace (x =? 4 * n + 1 + k) with false by lia.
        destruct (x =? 3 * n + 1 + k) eqn:X3; destruct (x =? 2 * n + 1 + k) eqn:X2; try lia; cbn; try (apply Rplus_0_l). reflexivity. }
    unfold F2. rewrite (only_one t6 (4 * n + 1) (4 * n + 1 + k)).
    - rewrite Np by exact Hk. rewrite (E1 (4 * n + 1 + k)) by lia. rewrite Nat.eqb_refl. reflexivity.
    - lia.
    - intros i Hi Hne. rewrite E1 by lia. replace (i =? 4 * n + 1 + k) with false by lia. reflexivity.
    - intros i p w Hi. replace i with (4 * n + 1 + (i - (4 * n + 1))) by lia. rewrite Np by lia. cbn [pl l_back In]. intros [<-|[<-|[]]]; cbn [fst]; lia.
    - intros i p Hi. replace i with (4 * n + 1 + (i - (4 * n + 1))) by lia. rewrite Np by lia. cbn [pl l_back In]. intros [<-|[<-|[]]]; cbn [snd]; apply Rmult_0_r. }
  (* exp(c) *)
  set (F3 := fold_right (@back RN t6) F2 (seq (3 * n + 1) n)).
  assert (E3 : forall x, x < 2 * n + 1 -> F3 x = if x =? n + 1 + k then (b * A k * (1 / P) * exp (A k * 2))%R else 0%R).
  { intros x Hx. transitivity (fold_left (@add_to RN) (l_back (el k) (b * A k * (1 / P))%R) F2 x).
    2:{ cbn [el l_back fold_left]. unfold add_to. cbn [fst snd]. rewrite E2 by lia. replace (x =? 3 * n + 1 + k) with false by lia. replace (x =? 2 * n + 1 + k) with false by lia.
        destruct (x =? n + 1 + k); [apply Rplus_0_l|reflexivity]. }
    unfold F3. rewrite (only_one t6 (3 * n + 1) (3 * n + 1 + k)).
    - rewrite Ne by exact Hk. rewrite (E2 (3 * n + 1 + k)) by lia. rewrite Nat.eqb_refl. reflexivity.
    - lia.
    - intros i Hi Hne. rewrite E2 by lia. replace (i =? 3 * n + 1 + k) with false by lia. replace (i =? 2 * n + 1 + k) with false by lia. reflexivity.
    - intros i p w Hi. replace i with (3 * n + 1 + (i - (3 * n + 1))) by lia. rewrite Ne by lia. cbn [el l_back In]. intros [<-|[]]; cbn [fst]; lia.
    - intros i p Hi. replace i with (3 * n + 1 + (i - (3 * n + 1))) by lia. rewrite Ne by lia. cbn [el l_back In]. intros [<-|[]]; cbn [snd]; apply Rmult_0_l. }
  (* b * a, c, b and a add nothing to c *)
  rewrite above; [rewrite above; [rewrite above|]|].
  - rewrite E3 by lia. replace (n + 1 + j =? n + 1 + k) with (j =? k) by lia. destruct (j =? k); [|reflexivity].
    unfold P. match goal with |- @eq _ ?x ?y => change (@eq R x y) end. field. repeat split; try lra; intros Z; rewrite Z in HP; rewrite ?Rmult_0_r, ?Rmult_0_l in HP; lra.
  - intros i p w Hi. apply in_seq in Hi. replace i with (2 * n + 1 + (i - (2 * n + 1))) by lia. rewrite Nb by lia. cbn [bl l_back In]. intros [<-|[<-|[]]]; cbn [fst]; lia.
  - intros i p w Hi. apply in_seq in Hi. replace i with (n + 1 + (i - (n + 1))) by lia. rewrite Nc by lia. cbn [cl l_back In]. intros [<-|[]]; cbn [fst]; lia.
  - intros i p w Hi. apply in_seq in Hi. assert (G : exists v, at_line t6 i (@given RN v)).
    { destruct (Nat.eq_dec i n) as [->|]; [exists b; do 5 apply at_app; apply at_b|]. exists (A i). do 5 apply at_app. apply at_a. lia. }
    destruct G as (v & G). rewrite (at_nth _ _ _ _ G). intros [].
Qed.

Theorem array_real env0 (s : st) k : @practical RN C -> reachable env0 s -> k < n -> (0 < b * A k)%R -> roomy s (6 + 45 * zlen a) ->
  exists s', @array_test RN C n a b k s = Ok (map (fun j => if j =? k then 1 else 0)%R (seq 0 n), s').
Proof.
  intros HP HR Hk HB HM. destruct (steps_walk _ _ _ _ array_steps) as (WF & EC & ET). rewrite len6 in WF, EC, ET. change (seq 0 (@length (@line RN) [])) with (@nil nat) in WF, EC, ET.
  destruct (straight_rows s (@array_ops RN n a b) (6 * n + 1) t6 HP (reach_snd env0 s HP HR) WF) as (env & s1 & E1 & Q).
  { rewrite EC. match goal with |- roomy _ ?z => replace z with (6 + 45 * zlen a)%Z by (change (@zlen (@F RN) a) with (@zlen R a); lia) end. exact HM. }
  { exact ET. }
  destruct (Q (seq (n + 1) n) [5 * n + 1 + k]) as (hx & hy & Ex & Ey & _ & G).
  { apply Forall_forall. intros i Hi. apply in_seq in Hi. lia. }
  { constructor; [lia|constructor]. }
  destruct (one_reg _ _ _ _ _ Ey) as (h & -> & R9).
  destruct (G (5 * n + 1 + k) h eq_refl eq_refl) as (s2 & EG & EA).
  assert (ER : @regs RN env (seq (n + 1) n) s2 = Ok (hx, s2)). { apply regs_go. exact (proj2 (regs_at _ _ _ _ _ Ex)). }
  exists s2. unfold array_test. rewrite (mbind_ok _ _ _ _ _ E1), (mbind_ok _ _ _ _ _ R9), (mbind_ok _ _ _ _ _ EG), (mbind_ok _ _ _ _ _ ER), EA.
  do 2 f_equal. replace (seq (n + 1) n) with (map (fun j => n + 1 + j) (seq 0 n)).
  - rewrite map_map. apply map_ext_in. intros j Hj. apply in_seq in Hj. apply array_reverse; [exact Hk|lia|exact HB].
  - clear. generalize (n + 1) as m. induction n as [|q IH]; intros m; [reflexivity|]. rewrite !seq_S, map_app, IH. reflexivity.
Qed.
End Arrays.

(* ---- matmul ---- *)
Lemma add_keys (ka : nat -> nat) (v : nat -> R) l : forall (f : nat -> R) x,
  fold_left (@add_to RN) (map (fun c => (ka c, v c)) l) f x = (f x + rsum (map (fun c => if ka c =? x then v c else 0%R) l))%R.
Proof.
  induction l as [|c l IH]; intros f x; cbn [map fold_left].
  - cbn. lra.
  - rewrite IH. unfold add_to at 1. cbn [fst snd]. rewrite (Nat.eqb_sym x (ka c)). unfold rsum. cbn [fold_right]. fold (rsum (map (fun c0 => if ka c0 =? x then v c0 else 0%R) l)).
    destruct (ka c =? x); cbn; lra.
Qed.
Lemma one_term (v : nat -> R) p c0 : forall lo, lo <= c0 < lo + p -> rsum (map (fun c => if c =? c0 then v c else 0%R) (seq lo p)) = v c0.
Proof.
  assert (Z : forall q lo, c0 < lo -> rsum (map (fun c => if c =? c0 then v c else 0%R) (seq lo q)) = 0%R).
  { induction q as [|q IH]; intros lo H; [reflexivity|]. cbn [seq map]. unfold rsum. cbn [fold_right]. fold (rsum (map (fun c => if c =? c0 then v c else 0%R) (seq (S lo) q))).
    rewrite IH by lia. replace (lo =? c0) with false by lia. lra. }
  induction p as [|p IH]; intros lo H; [lia|]. cbn [seq map]. unfold rsum. cbn [fold_right]. fold (rsum (map (fun c => if c =? c0 then v c else 0%R) (seq (S lo) p))).
  destruct (Nat.eq_dec lo c0) as [->|].
  - rewrite Nat.eqb_refl, Z by lia. lra.
  - rewrite IH by lia. replace (lo =? c0) with false by lia. lra.
Qed.
Lemma no_terms (l : list nat) : rsum (map (fun _ : nat => 0%R) l) = 0%R.
Proof. induction l as [|c l IH]; [reflexivity|]. cbn [map]. unfold rsum. cbn [fold_right]. fold (rsum (map (fun _ : nat => 0%R) l)). rewrite IH. lra. Qed.
Lemma combine_maps {A B D} (f : A -> B) (g : A -> D) l : combine (map f l) (map g l) = map (fun a => (f a, g a)) l.
Proof. induction l as [|a l IH]; [reflexivity|]. cbn [map combine]. rewrite IH. reflexivity. Qed.
(* numbering the entries of an m by n matrix column by column *)
Lemma columns_seq m n : forall lo, seq lo (m * n) = flat_map (fun j => map (fun i => lo + (i + j * m)) (seq 0 m)) (seq 0 n).
Proof.
  induction n as [|n IH]; intros lo.
  - rewrite Nat.mul_0_r. reflexivity.
  - replace (m * S n) with (m * n + m) by lia. rewrite seq_app, IH, seq_S, flat_map_app. f_equal. cbn [flat_map]. rewrite app_nil_r.
    assert (G : forall q k, seq k q = map (fun i => k + i) (seq 0 q)).
    { induction q as [|q IHq]; intros k; [reflexivity|]. rewrite !seq_S, map_app, IHq. reflexivity. }
    rewrite (G m). apply map_ext. intros i. lia.
Qed.
Lemma entry_nth m n i j : i < m -> j < n -> nth_error (entries m n) (i + j * m) = Some (i, j).
Proof.
  intros Hi Hj. assert (H : forall n lo j, j < n -> nth_error (flat_map (fun j => map (fun i => (i, j)) (seq 0 m)) (seq lo n)) (i + j * m) = Some (i, lo + j)).
  2:{ apply (H n 0 j Hj). }
  clear - Hi. induction n as [|n IH]; intros lo j Hj; [lia|]. cbn [seq flat_map]. destruct j as [|j].
  - rewrite nth_error_app1 by (rewrite map_length, seq_length; lia). rewrite nth_error_map.
    rewrite (nth_error_nth' _ 0) by (rewrite seq_length; lia). rewrite seq_nth by lia. cbn [option_map].
    replace (0 + (i + 0 * m)) with i by lia. rewrite Nat.add_0_r. reflexivity.
  - rewrite nth_error_app2 by (rewrite map_length, seq_length; nia). rewrite map_length, seq_length.
    replace (i + S j * m - m) with (i + j * m) by nia. rewrite IH by lia. rewrite Nat.add_succ_r. reflexivity.
Qed.
Lemma entries_length m n : length (entries m n) = m * n.
Proof.
  unfold entries. generalize 0 at 2 as lo. induction n as [|n IH]; intros lo; cbn [seq flat_map]; [rewrite Nat.mul_0_r; reflexivity|].
  rewrite app_length, map_length, seq_length, IH. lia.
Qed.

Section Matmul.
Context (m p n : nat) (a b : list R) (La : length a = m * p) (Lb : length b = p * n) (Bm : (Z.of_nat m <= max_int)%Z) (Bp : (Z.of_nat p <= max_int)%Z) (Bn : (Z.of_nat n <= max_int)%Z).
Definition zl (e : nat * nat) := let (i, j) := e in
  @mkLine RN (rdot (row 0%R m p i a) (col 0%R p j b))
    (fun w => combine (row 0 m p i (seq 0 (m * p))) (map (Rmult w) (col 0%R p j b)) ++ combine (col 0 p j (seq (m * p) (p * n))) (map (Rmult w) (row 0%R m p i a))).
Definition m0 := map (@given RN) a ++ map (@given RN) b.
Definition m1 := m0 ++ map zl (entries m n).
Lemma lenm0 : length m0 = m * p + p * n.
Proof. unfold m0. rewrite app_length. rewrite <- La, <- Lb. f_equal; apply map_length. Qed.
Lemma lenm1 : length m1 = m * p + p * n + m * n.
Proof. unfold m1. rewrite app_length, map_length, entries_length, lenm0. reflexivity. Qed.
Lemma given_values (l : list R) : map (@l_value RN) (map (@given RN) l) = l.
Proof. induction l as [|x l IH]; [reflexivity|]. cbn [map]. rewrite IH. reflexivity. Qed.
Lemma m0_values : map (value m0) (seq 0 (m * p + p * n)) = a ++ b.
Proof.
  assert (E : map (@l_value RN) m0 = a ++ b) by (unfold m0; rewrite map_app, !given_values; reflexivity).
  rewrite <- E. rewrite <- lenm0. clear E. unfold value. generalize m0 as t. intros t.
  apply (nth_ext _ _ (@f0 RN) (@f0 RN)); [rewrite !map_length, seq_length; reflexivity|].
  intros k Hk. rewrite map_length, seq_length in Hk. rewrite (nth_indep _ _ (nth 0 (map l_value t) f0)) by (rewrite map_length, seq_length; exact Hk).
  rewrite (map_nth (fun i => nth i (map l_value t) f0)), seq_nth by exact Hk. reflexivity.
Qed.
Lemma matmul_steps : steps (@matmul_ops RN m p n a b) [] m1 (6 * zlen a + (6 * zlen b + ((4 + zlen a + zlen b + 10 * Z.of_nat (m * n)) + 0))).
Proof.
  unfold matmul_ops. apply steps_app with (t1 := map (@given RN) a).
  { apply (steps_each (@OVar RN) (@given RN) 6 a []). intros. apply stepped_var. }
  apply steps_app with (t1 := m0).
  { apply (steps_each (@OVar RN) (@given RN) 6 b). intros. apply stepped_var. }
  assert (SE : seq 0 (m * p) ++ seq (m * p) (p * n) = seq 0 (m * p + p * n)) by (rewrite seq_app; reflexivity).
  econstructor; [|unfold m1; constructor]. split; [|split; [|split; [reflexivity|]]].
  - cbn [op_regs]. rewrite SE. apply Forall_forall. intros r Hr. apply in_seq in Hr. rewrite lenm0. lia.
  - cbn [op_shape]. rewrite !seq_length. auto.
  - cbn [op_regs step words]. rewrite SE, m0_values. rewrite <- SE. rewrite !seq_length. split.
    + f_equal.
      assert (F1 : forall X (u v : list X) k, length u = k -> firstn k (u ++ v) = u) by (intros X u v k <-; rewrite firstn_app, Nat.sub_diag, firstn_all; apply app_nil_r).
      assert (F2 : forall X (u v : list X) k, length u = k -> skipn k (u ++ v) = v) by (intros X u v k <-; rewrite skipn_app, Nat.sub_diag, skipn_all; reflexivity).
      rewrite (F1 nat) by apply seq_length. rewrite (F2 nat) by apply seq_length.
      change (@F RN) with R. rewrite (F1 R a b) by exact La. rewrite (F2 R a b) by exact La. reflexivity.
    + unfold zlen. rewrite !seq_length, La, Lb. reflexivity.
Qed.

Lemma pair_eq i c r l : i < m -> r < m -> (i + c * m =? r + l * m) = ((i =? r) && (c =? l))%bool.
Proof.
  clear. intros Hi Hr. destruct (Nat.eq_dec i r) as [->|H]; destruct (Nat.eq_dec c l) as [->|H2].
  - rewrite !Nat.eqb_refl. reflexivity.
  - replace (c =? l) with false by lia. rewrite andb_false_r. apply Nat.eqb_neq. nia.
  - replace (i =? r) with false by lia. apply Nat.eqb_neq. lia.
  - replace (i =? r) with false by lia. apply Nat.eqb_neq. nia.
Qed.
Lemma pair_eqp i c r l : i < p -> r < p -> (i + c * p =? r + l * p) = ((i =? r) && (c =? l))%bool.
Proof.
  clear. intros Hi Hr. destruct (Nat.eq_dec i r) as [->|H]; destruct (Nat.eq_dec c l) as [->|H2].
  - rewrite !Nat.eqb_refl. reflexivity.
  - replace (c =? l) with false by lia. rewrite andb_false_r. apply Nat.eqb_neq. nia.
  - replace (i =? r) with false by lia. apply Nat.eqb_neq. lia.
  - replace (i =? r) with false by lia. apply Nat.eqb_neq. nia.
Qed.
Lemma amounts_z i j (w : R) : i < m -> j < n -> @l_back RN (zl (i, j)) w =
  map (fun c => (i + c * m, (w * nth (c + j * p)%nat b 0)%R)) (seq 0 p) ++ map (fun c => (m * p + (c + j * p), (w * nth (i + c * m)%nat a 0)%R)) (seq 0 p).
Proof.
  intros Hi Hj. cbn [zl l_back]. unfold row, col. rewrite !map_map, !combine_maps. f_equal; apply map_ext_in; intros c Hc; apply in_seq in Hc; f_equal; rewrite seq_nth; try reflexivity; nia.
Qed.
Lemma entry_back k : k < m * n -> exists i j, k = i + j * m /\ i < m /\ j < n.
Proof.
  intros H. assert (m <> 0) by (intros ->; lia). exists (k mod m), (k / m). split; [rewrite (Nat.div_mod k m) at 1 by assumption; lia|].
  split; [apply Nat.mod_upper_bound; assumption|]. apply Nat.div_lt_upper_bound; assumption.
Qed.
Lemma at_z i j : i < m -> j < n -> at_line m1 (m * p + p * n + (i + j * m)) (zl (i, j)).
Proof.
  intros Hi Hj. unfold at_line, m1. rewrite nth_error_app2 by (rewrite lenm0; lia). rewrite lenm0.
  replace (m * p + p * n + (i + j * m) - (m * p + p * n)) with (i + j * m) by lia. rewrite nth_error_map, entry_nth by assumption. reflexivity.
Qed.
Lemma matmul_reverse i j x : i < m -> j < n -> x < m * p + p * n ->
  @reverse RN m1 (@seed RN (m * p + p * n + (i + j * m))) x =
  (rsum (map (fun c => if i + c * m =? x then nth (c + j * p)%nat b 0 else 0) (seq 0 p)) +
   rsum (map (fun c => if m * p + (c + j * p) =? x then nth (i + c * m)%nat a 0 else 0) (seq 0 p)))%R.
Proof.
  intros Hi Hj Hx. unfold reverse. rewrite lenm1, seq_app, fold_right_app. cbn [plus]. set (K := m * p + p * n) in *.
  assert (KM : i + j * m < m * n) by nia.
  rewrite above.
  - rewrite (only_one m1 K (K + (i + j * m))).
    + rewrite (at_nth _ _ _ _ (at_z i j Hi Hj)). rewrite amounts_z by assumption. rewrite fold_left_app, !add_keys.
      unfold seed. rewrite Nat.eqb_refl. replace (x =? K + (i + j * m)) with false by lia.
      change (@f0 RN) with 0%R. change (@f1 RN) with 1%R. rewrite Rplus_0_l. f_equal; f_equal; apply map_ext; intros c; rewrite Rmult_1_l; reflexivity.
    + lia.
    + intros k Hk Hne. unfold seed. replace (k =? K + (i + j * m)) with false by lia. reflexivity.
    + intros k q w Hk. destruct (entry_back (k - K)) as (i' & j' & E & Hi' & Hj'); [lia|]. replace k with (K + (i' + j' * m)) by lia.
      rewrite (at_nth _ _ _ _ (at_z i' j' Hi' Hj')), amounts_z by assumption. rewrite in_app_iff, !in_map_iff.
      unfold K. intros [(c & <- & Hc)|(c & <- & Hc)]; apply in_seq in Hc; cbn [fst]; nia.
    + intros k q Hk. destruct (entry_back (k - K)) as (i' & j' & E & Hi' & Hj'); [lia|]. replace k with (K + (i' + j' * m)) by lia.
      rewrite (at_nth _ _ _ _ (at_z i' j' Hi' Hj')), amounts_z by assumption. rewrite in_app_iff, !in_map_iff.
      intros [(c & <- & Hc)|(c & <- & Hc)]; cbn [snd]; apply Rmult_0_l.
  - intros k q w Hk. apply in_seq in Hk. assert (G : exists v, at_line m1 k (@given RN v)).
    { assert (G0 : exists v, nth_error m0 k = Some (@given RN v)).
      { unfold m0. rewrite <- map_app. destruct (nth_error (a ++ b) k) as [v|] eqn:EV.
        - exists v. exact (map_nth_error (@given RN) k _ EV).
        - apply nth_error_None in EV. rewrite app_length, La, Lb in EV. lia. }
      destruct G0 as (v & G0). exists v. apply at_app. exact G0. }
    destruct G as (v & G). rewrite (at_nth _ _ _ _ G). intros [].
Qed.
Lemma matmul_row i j : i < m -> j < n -> map (@reverse RN m1 (@seed RN (m * p + p * n + (i + j * m)))) (seq 0 (m * p + p * n)) =
  flat_map (fun l => map (fun r => if Nat.eqb r i then nth (l + j * p)%nat b 0%R else 0%R) (seq 0 m)) (seq 0 p) ++
  flat_map (fun c => map (fun l => if Nat.eqb c j then nth (i + l * m)%nat a 0%R else 0%R) (seq 0 p)) (seq 0 n).
Proof.
  intros Hi Hj. rewrite seq_app, map_app. f_equal.
  - rewrite (columns_seq m p 0). rewrite flat_map_concat_map, concat_map, map_map, <- flat_map_concat_map.
    rewrite !flat_map_concat_map. f_equal. apply map_ext_in. intros l Hl. rewrite map_map. apply map_ext_in. intros r Hr. apply in_seq in Hl, Hr.
    rewrite matmul_reverse by nia. rewrite ?Nat.add_0_l.
    transitivity (rsum (map (fun c => if (i =? r) && (c =? l) then nth (c + j * p)%nat b 0 else 0) (seq 0 p)) + rsum (map (fun _ : nat => 0) (seq 0 p)))%R.
    + f_equal; f_equal; apply map_ext_in; intros c Hc; apply in_seq in Hc; [rewrite pair_eq by lia; reflexivity|].
      replace (m * p + (c + j * p) =? r + l * m) with false by nia. reflexivity.
    + rewrite no_terms, Rplus_0_r. rewrite (Nat.eqb_sym r i). destruct (i =? r); cbn [andb]; [|apply no_terms].
      apply (one_term (fun c => nth (c + j * p)%nat b 0%R) p l 0). lia.
  - rewrite (columns_seq p n (0 + m * p)). rewrite flat_map_concat_map, concat_map, map_map, <- flat_map_concat_map.
    rewrite !flat_map_concat_map. f_equal. apply map_ext_in. intros c Hc. rewrite map_map. apply map_ext_in. intros l Hl. apply in_seq in Hl, Hc.
    rewrite matmul_reverse by nia. rewrite ?Nat.add_0_l.
    transitivity (rsum (map (fun _ : nat => 0) (seq 0 p)) + rsum (map (fun c' => if (j =? c) && (c' =? l) then nth (i + c' * m)%nat a 0 else 0) (seq 0 p)))%R.
    + f_equal; f_equal; apply map_ext_in; intros c' Hc'; apply in_seq in Hc'.
      * replace (i + c' * m =? m * p + (l + c * p)) with false by nia. reflexivity.
      * replace (m * p + (c' + j * p) =? m * p + (l + c * p)) with (c' + j * p =? l + c * p) by lia. rewrite pair_eqp by lia. rewrite andb_comm. reflexivity.
    + rewrite no_terms, Rplus_0_l. rewrite (Nat.eqb_sym c j). destruct (j =? c); cbn [andb]; [|apply no_terms].
      apply (one_term (fun c' => nth (i + c' * m)%nat a 0%R) p l 0). lia.
Qed.

Theorem matmul_real env0 (s : st) : @practical RN C -> reachable env0 s ->
  roomy s (4 + 7 * (Z.of_nat (m * p) + Z.of_nat (p * n)) + 10 * Z.of_nat (m * n)) ->
  exists s', @matmul_test RN C m p n a b s = Ok (matmul_back m p n a b, s').
Proof.
  intros HP HR HM. destruct (steps_walk _ _ _ _ matmul_steps) as (WF & EC & ET). rewrite lenm1 in WF, EC, ET.
  change (seq 0 (@length (@line RN) [])) with (@nil nat) in WF, EC, ET.
  destruct (straight_rows s (@matmul_ops RN m p n a b) (m * p + p * n + m * n) m1 HP (reach_snd env0 s HP HR) WF) as (env & s1 & E1 & Q).
  { rewrite EC. match goal with |- roomy _ ?z => replace z with (4 + 7 * (Z.of_nat (m * p) + Z.of_nat (p * n)) + 10 * Z.of_nat (m * n))%Z end; [exact HM|].
    unfold zlen. change (@length (@F RN)) with (@length R). rewrite La, Lb. lia. }
  { exact ET. }
  destruct (Q (seq 0 (m * p + p * n)) (seq (m * p + p * n) (m * n))) as (hx & hy & Ex & Ey & (s' & EM) & _).
  { apply Forall_forall. intros i Hi. apply in_seq in Hi. lia. }
  { apply Forall_forall. intros i Hi. apply in_seq in Hi. lia. }
  exists s'. unfold matmul_test. rewrite (mbind_ok _ _ _ _ _ E1), (mbind_ok _ _ _ _ _ Ex), (mbind_ok _ _ _ _ _ Ey), EM. do 2 f_equal.
  unfold matmul_back. rewrite (columns_seq m n (m * p + p * n)). rewrite !flat_map_concat_map, concat_map, map_map. f_equal. apply map_ext_in. intros j Hj.
  rewrite map_map. apply map_ext_in. intros i Hi. apply in_seq in Hi, Hj. apply matmul_row; lia.
Qed.
End Matmul.

(* ---- the right-hand side of the ODE example ---- *)
Section Ode.
Context (t y1 y2 p1 p2 p3 : R) (Ht : t <> 1%R).
Lemma param_at : @rhs_at lg (@param_rhs RN) [p1; p2; p3] 2 t [y1; y2].
Proof.
  unfold rhs_at, param_rhs. cbn. repeat split; try lia; repeat constructor; try (apply req_false; exact Ht).
Qed.
Lemma param_words : @rhs_words lg (@param_rhs RN) [p1; p2; p3] t [y1; y2] = 74%Z.
Proof.
  unfold rhs_words, param_rhs. cbn [length repeat app fwords words nth]. unfold fne. replace (@feq RN t f1) with false by (symmetry; apply req_false; exact Ht). reflexivity.
Qed.
Lemma param_fval u1 u2 q1 q2 q3 : @rhs_fval lg (@param_rhs RN) t 0 [u1; u2] [q1; q2; q3] = u2 /\
  @rhs_fval lg (@param_rhs RN) t 1 [u1; u2] [q1; q2; q3] = sin (q1 * q2 * q3 * t).
Proof. split; reflexivity. Qed.

Lemma same_slope (f : R -> R) x (d e : R) : is_derive f x d -> is_derive f x e -> d = e.
Proof. intros A B. apply is_derive_unique in A, B. congruence. Qed.

Lemma same_pair (a b c d : R) : a = c -> b = d -> [a; b] = [c; d].
Proof. congruence. Qed.

Theorem param_real env0 (s : @st RN) (v1 v2 v3 w1 w2 w3 : R) : @practical RN C -> reachable env0 s -> (s_lvl s < 10)%Z ->
  roomy s 74 -> ~ exactly_full s 74 ->
  let k := (cos (p1 * p2 * p3 * t) * t)%R in
  exists s', @set_sens_rhs RN C t [y1; y2] [[v1; w1]; [v2; w2]; [v3; w3]] (@mkRhs RN false 3 [p1; p2; p3] (@rhs_fn RN C (@param_rhs RN))) s =
    Ok ([[w1; k * (p2 * p3)]; [w2; k * (p1 * p3)]; [w3; k * (p1 * p2)]]%R, s').
Proof.
  intros HP HR HL HM HE k.
  destruct (callback_parameters_real env0 s t [y1; y2] [p1; p2; p3] [[v1; w1]; [v2; w2]; [v3; w3]] (@param_rhs RN) false HP HR HL) as (r & s' & E & (LR & HA) & _).
  - cbn. lia.
  - reflexivity.
  - cbn. lia.
  - repeat constructor.
  - exact param_at.
  - rewrite param_words. exact HM.
  - rewrite param_words. exact HE.
  - exists s'. etransitivity; [exact E|]. do 2 f_equal.
    assert (ROW : forall j v w e, nth j [[v1; w1]; [v2; w2]; [v3; w3]] [] = [v; w] -> j < 3 ->
      is_derive (fun u => @rhs_fval lg (@param_rhs RN) t 0 [y1; y2] (hold j u 0 [p1; p2; p3])) (nth j [p1; p2; p3] 0%R) 0%R ->
      is_derive (fun u => @rhs_fval lg (@param_rhs RN) t 1 [y1; y2] (hold j u 0 [p1; p2; p3])) (nth j [p1; p2; p3] 0%R) e -> @nth (list R) j r [] = [w; e]).
    { intros j v w e EV Hj D0 D1. destruct (HA j Hj) as [L2 H2]. cbn [Nat.ltb Nat.leb Nat.sub] in H2. rewrite EV in H2.
      destruct (H2 0 ltac:(cbn; lia)) as (J & e0 & HJ & He0 & HX). destruct (H2 1 ltac:(cbn; lia)) as (J1 & e1 & HJ1 & He1 & HX1).
      replace (j <? (if false then length [y1; y2] else 0)) with false in He0, He1 by reflexivity. rewrite Nat.sub_0_r in He0, He1.
      pose proof (same_slope _ _ _ _ He0 D0) as X0. pose proof (same_slope _ _ _ _ He1 D1) as X1.
      assert (A00 : J 0 = 0%R). { eapply same_slope; [apply (HJ 0); cbn; lia|]. apply (is_derive_ext (fun _ => y2)); [reflexivity|apply @is_derive_const]. }
      assert (A01 : J 1 = 1%R). { eapply same_slope; [apply (HJ 1); cbn; lia|]. apply (is_derive_ext (fun u => u)); [reflexivity|apply @is_derive_id]. }
      assert (A10 : J1 0 = 0%R). { eapply same_slope; [apply (HJ1 0); cbn; lia|]. apply (is_derive_ext (fun _ => sin (p1 * p2 * p3 * t))); [reflexivity|apply @is_derive_const]. }
      assert (A11 : J1 1 = 0%R). { eapply same_slope; [apply (HJ1 1); cbn; lia|]. apply (is_derive_ext (fun _ => sin (p1 * p2 * p3 * t))); [reflexivity|apply @is_derive_const]. }
      assert (TWO : forall l : list R, length l = 2 -> l = [nth 0 l 0%R; nth 1 l 0%R]) by (intros [|? [|? [|? ?]]]; try discriminate; reflexivity).
      rewrite (TWO (@nth (list R) j r []) L2). cbn [nth length seq map] in HX, HX1. unfold rsum in HX, HX1. cbn [fold_right] in HX, HX1.
      rewrite A00, A01, X0 in HX. rewrite A10, A11, X1 in HX1. apply same_pair; [etransitivity; [exact HX|lra]|etransitivity; [exact HX1|lra]]. }
    destruct r as [|r0 [|r1 [|r2 [|r3 l]]]]; try discriminate LR.
    f_equal; [|f_equal; [|f_equal]].
    + apply (ROW 0 v1 w1); [reflexivity|lia| |].
      * apply (is_derive_ext (fun _ => y2)); [reflexivity|apply @is_derive_const].
      * apply (is_derive_ext (fun u => sin (u * p2 * p3 * t))%R); [reflexivity|]. auto_derive; [exact Logic.I|]. unfold k. cbn [nth]. ring.
    + apply (ROW 1 v2 w2); [reflexivity|lia| |].
      * apply (is_derive_ext (fun _ => y2)); [reflexivity|apply @is_derive_const].
      * apply (is_derive_ext (fun u => sin (p1 * u * p3 * t))%R); [reflexivity|]. auto_derive; [exact Logic.I|]. unfold k. cbn [nth]. ring.
    + apply (ROW 2 v3 w3); [reflexivity|lia| |].
      * apply (is_derive_ext (fun _ => y2)); [reflexivity|apply @is_derive_const].
      * apply (is_derive_ext (fun u => sin (p1 * p2 * u * t))%R); [reflexivity|]. auto_derive; [exact Logic.I|]. unfold k. cbn [nth]. ring.
Qed.
End Ode.
End Real.

(* At t = 1. *)
Section One.
Context (L : Libm).
Lemma ode_one : let d1 := b64_of_bits 4607182418800017408 in let d2 := b64_of_bits 4611686018427387904 in let d3 := b64_of_bits 4613937818241073152 in
  let ode_at t := @set_sens_rhs (B64 L) (demo_std (B64 L)) t [d1; d2] [[d1; d2]; [d1; d2]; [d1; d2]]
    (@mkRhs (B64 L) false 3 [d1; d2; d3] (@rhs_fn (B64 L) (demo_std (B64 L)) (@param_rhs (B64 L)))) st_init in
  ends (ode_at d1) = Undefined ShapeMismatch /\ ends (ode_at d2) = Returns.
Proof. split; vm_compute; reflexivity. Qed.
End One.
