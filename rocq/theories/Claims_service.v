(* Lemmas of C57. *)
From Verif Require Export Service.
Local Open Scope nat_scope.

(* nothing live has a number not given out yet *)
Definition tidy (w : world) : Prop := Forall (fun n => n < w_made w) (w_live w).

Section Service.
Context (luck : nat -> bool).

Lemma live_in n w : In n (w_live w) -> live (Obj n) w = true.
Proof. intros H. cbn [live]. apply existsb_exists. exists n. rewrite Nat.eqb_refl. auto. Qed.
Lemma use_ok hs w : Forall (fun h => live h w = true) hs -> use hs w = Done tt w.
Proof.
  intros H. unfold use. replace (forallb _ hs) with true; [reflexivity|]. symmetry. apply forallb_forall. rewrite Forall_forall in H. exact H.
Qed.
Lemma call_ok hs m l c : Forall (fun h => live h (mkWorld m l c) = true) hs -> call luck hs (mkWorld m l c) = Done (luck c) (mkWorld m l (S c)).
Proof. intros H. unfold call, wbind. rewrite (use_ok _ _ H). reflexivity. Qed.
Lemma make_ok hs m l c : Forall (fun h => live h (mkWorld m l c) = true) hs ->
  make luck hs (mkWorld m l c) = if luck c then Done (Obj m) (mkWorld (S m) (m :: l) (S c)) else Done Null (mkWorld m l (S c)).
Proof. intros H. unfold make, wbind. rewrite (call_ok _ _ _ _ H). reflexivity. Qed.
Lemma release_ok n m l c : In n l -> release (Obj n) (mkWorld m l c) = Done tt (mkWorld m (remove Nat.eq_dec n l) c).
Proof. intros H. unfold release. rewrite (live_in n (mkWorld m l c) H). reflexivity. Qed.
Lemma remove_skip n x l : n <> x -> remove Nat.eq_dec n (x :: l) = x :: remove Nat.eq_dec n l.
Proof. intros H. cbn [remove]. destruct (Nat.eq_dec n x); congruence. Qed.
Lemma remove_here n l : ~ In n l -> remove Nat.eq_dec n (n :: l) = l.
Proof. intros H. cbn [remove]. destruct (Nat.eq_dec n n); [|congruence]. apply notin_remove. exact H. Qed.

Lemma wbind_done {A B} (m : W A) (k : A -> W B) w a w' : m w = Done a w' -> wbind m k w = k a w'.
Proof. intros H. unfold wbind. rewrite H. reflexivity. Qed.

Ltac alive := repeat constructor; apply live_in; cbn [w_live]; repeat (first [left; reflexivity|right]).
Ltac go_make := erewrite wbind_done; [|rewrite make_ok; [reflexivity|alive]].

(* what the creation leaves, when everything not checked succeeds *)
Definition made (ns m : nat) : service := mkService (Obj m) (Obj (S m)) (Obj (S (S m))) (Obj (S (S (S m)))) (Obj (S (S (S (S m)))))
  (if 0 <? ns then Obj (S (S (S (S (S m))))) else Unset) ns.
Definition made_live (ns m : nat) (l : list nat) : list nat :=
  (if 0 <? ns then [S (S (S (S (S m))))] else []) ++ S (S (S (S m))) :: S (S (S m)) :: S (S m) :: S m :: m :: l.
Definition unchecked (ns c : nat) : Prop := luck c = true /\ luck (2 + c) = true /\ luck (3 + c) = true /\ (0 < ns -> luck (8 + c) = true).

Lemma new_ok ns m l c : unchecked ns c ->
  new_service luck ns (mkWorld m l c) = (if luck (1 + c) && luck (4 + c) && luck (5 + c) then
    Done (made ns m) (mkWorld (if 0 <? ns then S (S (S (S (S (S m))))) else S (S (S (S (S m))))) (made_live ns m l) (if 0 <? ns then 10 + c else 8 + c)) else Halted).
Proof.
  intros (L0 & L2 & L3 & L8). cbn [Nat.add] in *. unfold new_service.
  unfold wbind at 1. rewrite make_ok by alive. rewrite L0.
  unfold wbind at 1. rewrite make_ok by alive. destruct (luck (S c)) eqn:L1; [|reflexivity]. cbn [is_null].
  unfold wbind at 1. rewrite make_ok by alive. rewrite L2.
  unfold wbind at 1. rewrite make_ok by alive. rewrite L3.
  unfold wbind at 1. rewrite make_ok by alive. destruct (luck (S (S (S (S c))))) eqn:L4; [|reflexivity]. cbn [is_null].
  unfold wbind at 1. rewrite call_ok by alive. destruct (luck (S (S (S (S (S c)))))) eqn:L5; [|reflexivity]. cbn [negb andb].
  unfold wbind at 1. rewrite call_ok by alive.
  unfold wbind at 1. rewrite call_ok by alive.
  unfold made, made_live. destruct ns as [|ns]; [reflexivity|]. cbn [Nat.ltb Nat.leb].
  unfold wbind at 1. rewrite make_ok by alive. rewrite L8 by lia.
  unfold wbind at 1. rewrite use_ok by alive.
  unfold wbind at 1. rewrite call_ok by alive. reflexivity.
Qed.

Lemma free_made ns m m' l c : Forall (fun n => n < m) l -> free_service (made ns m) (mkWorld m' (made_live ns m l) c) = Done tt (mkWorld m' l c).
Proof.
  intros HL. rewrite Forall_forall in HL. unfold free_service, made, made_live. cbn [v_mem v_ls v_mat v_y v_yS v_ctx v_sens].
  assert (NI : forall k, m <= k -> ~ In k l) by (intros k Hk Hi; specialize (HL k Hi); lia).
  destruct ns as [|ns]; cbn [Nat.ltb Nat.leb app].
  - do 4 (erewrite wbind_done by (apply release_ok; repeat (first [left; reflexivity|right]));
      rewrite remove_here by (cbn [In]; intros X; repeat (destruct X as [X|X]; [lia|]); (eapply NI; [|exact X]; lia))).
    cbn [wbind wret]. unfold wbind, wret. rewrite release_ok by (left; reflexivity). rewrite remove_here by (apply NI; lia). reflexivity.
  - do 4 (erewrite wbind_done by (apply release_ok; repeat (first [left; reflexivity|right]));
      rewrite remove_skip by lia; rewrite remove_here by (cbn [In]; intros X; repeat (destruct X as [X|X]; [lia|]); (eapply NI; [|exact X]; lia))).
    erewrite wbind_done by (apply release_ok; left; reflexivity).
    rewrite remove_here by (cbn [In]; intros X; destruct X as [X|X]; [lia|]; (eapply NI; [|exact X]; lia)).
    rewrite release_ok by (left; reflexivity). rewrite remove_here by (apply NI; lia). reflexivity.
Qed.

(* it ends well: in a world that P holds of, or by stop 1 *)
Definition ends_well {A} (P : world -> Prop) (o : outcome A) : Prop := match o with Done _ w => P w | Halted => True | Dangling => False end.
Lemma well_bind {A B} (P Q : world -> Prop) (m : W A) (k : A -> W B) w : ends_well P (m w) -> (forall a w', P w' -> ends_well Q (k a w')) -> ends_well Q (wbind m k w).
Proof. unfold wbind. destruct (m w); cbn [ends_well]; auto. Qed.

Lemma outputs_ok ns m m' l : forall nout c, ends_well (fun w' => exists c', w' = mkWorld m' (made_live ns m l) c') (outputs luck (made ns m) nout (mkWorld m' (made_live ns m l) c)).
Proof.
  induction nout as [|n IH]; intros c; cbn [outputs]; [unfold wret, ends_well; eexists; reflexivity|].
  unfold wbind at 1. rewrite call_ok by (unfold made, made_live; destruct (0 <? ns); alive). destruct (luck c); cbn [negb]; [|exact I].
  apply (well_bind (fun w' => exists c', w' = mkWorld m' (made_live ns m l) c')); [|intros _ w' [c' ->]; apply IH]. change (v_sens (made ns m)) with ns. destruct (0 <? ns) eqn:E; [|unfold wret, ends_well; eexists; reflexivity].
  unfold wbind at 1. rewrite call_ok by (unfold made, made_live; rewrite E; alive). rewrite use_ok by (unfold made, made_live; rewrite E; alive). unfold ends_well. eexists. reflexivity.
Qed.

Theorem solve_neither ns nout w : tidy w -> unchecked ns (w_calls w) -> ends_well (fun w' => w_live w' = w_live w) (solve luck neither ns nout w).
Proof.
  destruct w as [m l c]. unfold tidy. cbn [w_calls w_live w_made]. intros HT HU. unfold solve. unfold wbind at 1. rewrite (new_ok _ _ _ _ HU).
  destruct (_ && _ && _); [|exact I]. cbn [neither fin_old fin_result].
  unfold wbind at 1, wret at 1. unfold wbind at 1, wret at 1.
  match goal with |- context [mkWorld ?a (made_live ns m l) ?b] => generalize a b end. intros m' c1.
  set (T := fun w' => exists c', w' = mkWorld m' (made_live ns m l) c').
  assert (LM : forall c, ends_well T (call luck [v_mem (made ns m)] (mkWorld m' (made_live ns m l) c))).
  { unfold T. intros k. rewrite call_ok; [unfold wret, ends_well; eexists; reflexivity|]. unfold made, made_live. cbn [v_mem]. destruct (0 <? ns); alive. }
  apply (well_bind T); [destruct (0 <? ns); [|unfold T, wret, ends_well; eexists; reflexivity]; apply (well_bind T); [apply LM|intros _ w' H; exact H]|]. intros _ ? [c2 ->].
  apply (well_bind T); [apply LM|]. intros _ ? [c3 ->]. apply (well_bind T); [apply LM|]. intros _ ? [c4 ->].
  apply (well_bind T); [apply outputs_ok|]. intros _ ? [c5 ->]. rewrite free_made by exact HT. reflexivity.
Qed.

(* with everything in its favour it does return *)
Theorem solve_returns ns nout w : tidy w -> (forall i, luck i = true) -> exists w', solve luck neither ns nout w = Done tt w' /\ w_live w' = w_live w.
Proof.
  intros HT HL. pose proof (solve_neither ns nout w HT ltac:(repeat split; auto)) as H.
  assert (NH : forall A (m : W A) w, (forall w, m w <> Halted) -> m w <> Halted) by auto.
  assert (NC : forall hs w, call luck hs w <> Halted) by (intros hs v; unfold call, wbind, use; destruct (forallb _ hs); discriminate).
  assert (NM : forall hs w, make luck hs w <> Halted).
  { intros hs v. unfold make, wbind. pose proof (NC hs v). destruct (call luck hs v) as [b v'| |]; try congruence. destruct b; discriminate. }
  assert (NB : forall A B (m : W A) (k : A -> W B), (forall w, m w <> Halted) -> (forall a w, k a w <> Halted) -> forall w, wbind m k w <> Halted).
  { intros A B m k H1 H2 v. unfold wbind. pose proof (H1 v). destruct (m v); try congruence; auto. }
  assert (NR : forall h w, release h w <> Halted) by (intros h v; unfold release; destruct h; try discriminate; destruct (live _ _); discriminate).
  assert (NF : forall v w, free_service v w <> Halted).
  { intros v. unfold free_service. repeat (apply NB; [first [apply NR|destruct (0 <? _); [apply NR|discriminate]]|intros _]). apply NR. }
  assert (NO : forall v n w, outputs luck v n w <> Halted).
  { intros v. induction n as [|n IH]; intros w0; cbn [outputs]; [discriminate|]. unfold wbind at 1. pose proof (NC [v_mem v; v_y v] w0) as X.
    destruct (call luck _ w0) as [b w1| |] eqn:E; try congruence. assert (b = true).
    { unfold call, wbind, use in E. destruct (forallb _ _); [|discriminate]. rewrite HL in E. congruence. } subst b. cbn [negb].
    apply NB; [|intros _; apply IH]. destruct (0 <? _); [|discriminate]. apply NB; [apply NC|]. intros _ w2. unfold use. destruct (forallb _ _); discriminate. }
  assert (X : solve luck neither ns nout w <> Halted).
  { destruct w as [m l c]. unfold solve. unfold wbind at 1. rewrite new_ok by (repeat split; auto). rewrite !HL. cbn [andb neither fin_old fin_result].
    match goal with |- ?k ?w <> _ => generalize w end. repeat (apply NB; [first [apply NC|discriminate|apply NO|destruct (0 <? ns); [apply NB; [apply NC|discriminate]|discriminate]]|intros _]). apply NF. }
  destruct (solve luck neither ns nout w) as [[] w'| |]; cbn [ends_well] in H; [eexists; eauto|congruence|tauto].
Qed.

(* finalising the old value of serv, or the result of the function *)
Theorem solve_fin fin ns nout w : fin_old fin || fin_result fin = true -> tidy w -> (forall i, luck i = true) -> solve luck fin ns nout w = Dangling.
Proof.
  destruct w as [m l c]. unfold tidy. cbn [w_calls w_live w_made]. intros HF HT HU. unfold solve. unfold wbind at 1. rewrite new_ok by (repeat split; auto).
  rewrite !HU. cbn [andb]. destruct (fin_old fin); [reflexivity|]. cbn [orb] in HF. rewrite HF.
  unfold wbind at 1, wret at 1. unfold wbind at 1. rewrite free_made by exact HT.
  rewrite Forall_forall in HT.
  assert (D : forall a b, call luck [v_mem (made ns m)] (mkWorld a l b) = Dangling).
  { intros a b. unfold call, wbind, use, made. cbn [v_mem forallb live w_live].
    replace (existsb _ l) with false; [reflexivity|]. symmetry. apply not_true_is_false. intros X. apply existsb_exists in X.
    destruct X as (x & Hx & E). apply Nat.eqb_eq in E. specialize (HT x Hx). lia. }
  destruct (0 <? ns).
  - unfold wbind at 1. unfold wbind at 1. rewrite D. reflexivity.
  - unfold wbind at 1, wret at 1. unfold wbind at 1. rewrite D. reflexivity.
Qed.

(* a creation that fails and is not checked *)
Theorem solve_unchecked fin ns nout w : luck (w_calls w) = false \/ luck (w_calls w) = true /\ luck (1 + w_calls w) = true /\ luck (2 + w_calls w) = false ->
  solve luck fin ns nout w = Dangling.
Proof.
  destruct w as [m l c]. cbn [w_calls Nat.add]. intros [L0|(L0 & L1 & L2)]; unfold solve, new_service.
  - unfold wbind at 1. unfold wbind at 1. rewrite make_ok by alive. rewrite L0. reflexivity.
  - unfold wbind at 1. unfold wbind at 1. rewrite make_ok by alive. rewrite L0. unfold wbind at 1. rewrite make_ok by alive. rewrite L1. cbn [is_null].
    unfold wbind at 1. rewrite make_ok by alive. rewrite L2. unfold wbind at 1, make, wbind at 1, call, wbind at 1, use. cbn [forallb live]. rewrite andb_false_r. reflexivity.
Qed.
End Service.
