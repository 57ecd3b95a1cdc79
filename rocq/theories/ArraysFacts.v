(* Two-dimensional assignment is the one-dimensional one, column after column. *)
From Verif Require Import TapeFacts.
From Coq Require Import ZifyBool ZifyNat.
From Verif Require Export Arrays Claims_session.

Section ArraysFacts.
Context {N : Num} {RL : RepLaws N} {C : Cfg N}.

Lemma mbind_assoc {A B D} (m : M A) (f : A -> M B) (g : B -> M D) s :
  mbind (mbind m f) g s = mbind m (fun a => mbind (f a) g) s.
Proof. unfold mbind. destruct (m s) as [[a s']| | |]; reflexivity. Qed.

Lemma mbind_ext {A B} (m : M A) (f g : A -> M B) s : (forall a s', f a s' = g a s') -> mbind m f s = mbind m g s.
Proof. intros H. unfold mbind. destruct (m s) as [[a s']| | |]; cbn [bind]; auto. Qed.

Lemma set_1d_app hs1 : forall ds1 hs2 ds2 s, length hs1 = length ds1 ->
  set_var_1d (hs1 ++ hs2) (ds1 ++ ds2) s = mbind (set_var_1d hs1 ds1) (fun _ => set_var_1d hs2 ds2) s.
Proof.
  induction hs1 as [|h hs1 IH]; intros [|d ds1] hs2 ds2 s H; try discriminate; cbn [app set_var_1d].
  - reflexivity.
  - rewrite mbind_assoc. apply mbind_ext. intros _ s'. apply IH. simpl in H. congruence.
Qed.

Lemma set_2d_1d cols from : Forall2 (fun hs ds => length hs = length ds) cols from -> forall s,
  set_var_2d cols from s = set_var_1d (concat cols) (concat from) s.
Proof.
  induction 1 as [|hs ds cols from HL HF IH]; intros s; cbn [set_var_2d concat]; [reflexivity|].
  rewrite set_1d_app by exact HL. apply mbind_ext. intros _ s'. apply IH.
Qed.

Lemma set_1d_0d_app hs1 d : forall hs2 s,
  set_var_1d_from_0d (hs1 ++ hs2) d s = mbind (set_var_1d_from_0d hs1 d) (fun _ => set_var_1d_from_0d hs2 d) s.
Proof.
  induction hs1 as [|h hs1 IH]; intros hs2 s; cbn [app set_var_1d_from_0d]; [reflexivity|].
  rewrite mbind_assoc. apply mbind_ext. intros _ s'. apply IH.
Qed.

Lemma set_2d_0d_1d cols d : forall s, set_var_2d_from_0d cols d s = set_var_1d_from_0d (concat cols) d s.
Proof.
  induction cols as [|hs cols IH]; intros s; cbn [set_var_2d_from_0d concat]; [reflexivity|].
  rewrite set_1d_0d_app. apply mbind_ext. intros _ s'. apply IH.
Qed.

Lemma assign_1d env s hs ds : practical -> reachable env s -> Forall (alive s) hs -> NoDup hs -> length ds = length hs ->
  exists s', set_var_1d hs ds s = Ok (tt, s') /\ s_head s' = s_head s /\ t_head (s_tape s') = t_head (s_tape s) /\
    mapM (var_val s') hs = Ok ds /\
    forall x, alive s x -> same_adj s s' x /\ same_op s s' x /\ (~ In x hs -> same_val s s' x).
Proof.
  intros HP HR HA HN HL. destruct (reach_valid env s HP HR) as [HV _].
  destruct (set_1d_frame hs ds s HV HA HN HL) as (s' & A & _ & B & _ & D & E & G). exists s'. auto.
Qed.

Lemma assign_1d_0d env s hs d : practical -> reachable env s -> Forall (alive s) hs ->
  exists s', set_var_1d_from_0d hs d s = Ok (tt, s') /\ s_head s' = s_head s /\ t_head (s_tape s') = t_head (s_tape s) /\
    (forall x, In x hs -> var_val s' x = Ok d) /\
    forall x, alive s x -> same_adj s s' x /\ same_op s s' x /\ (~ In x hs -> same_val s s' x).
Proof.
  intros HP HR HA. destruct (reach_valid env s HP HR) as [HV _].
  destruct (set_1d_from_0d_frame hs d s HV HA) as (s' & A & _ & B & _ & D & E & G). exists s'. auto.
Qed.

Lemma assign_2d env s cols from : practical -> reachable env s -> Forall (alive s) (concat cols) ->
  NoDup (concat cols) -> Forall2 (fun hs ds => length hs = length ds) cols from ->
  exists s', set_var_2d cols from s = Ok (tt, s') /\ s_head s' = s_head s /\ t_head (s_tape s') = t_head (s_tape s) /\
    mapM (var_val s') (concat cols) = Ok (concat from) /\
    forall x, alive s x -> same_adj s s' x /\ same_op s s' x /\ (~ In x (concat cols) -> same_val s s' x).
Proof.
  intros HP HR HA HN HF. rewrite (set_2d_1d cols from HF). apply (assign_1d env); auto.
  clear - HF. induction HF as [|? ? ? ? H ? IH]; [reflexivity|]. cbn [concat]. rewrite !app_length. congruence.
Qed.

Lemma assign_2d_0d env s cols d : practical -> reachable env s -> Forall (alive s) (concat cols) ->
  exists s', set_var_2d_from_0d cols d s = Ok (tt, s') /\ s_head s' = s_head s /\ t_head (s_tape s') = t_head (s_tape s) /\
    (forall x, In x (concat cols) -> var_val s' x = Ok d) /\
    forall x, alive s x -> same_adj s s' x /\ same_op s s' x /\ (~ In x (concat cols) -> same_val s s' x).
Proof. intros HP HR HA. rewrite set_2d_0d_1d. apply (assign_1d_0d env); auto. Qed.

(* value_of reads and changes nothing *)
Lemma value_of_spec s v : value_of v s = match v with
  | inl h => x <- var_val s h ;; Ok (x, s) | inr d => Ok (d, s) end.
Proof. destruct v; reflexivity. Qed.

End ArraysFacts.
