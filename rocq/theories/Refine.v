(* The refinement relation between the concrete state (variable table, tape
   words, nested heads) and the abstract graph, and its preservation by the
   state primitives. *)
From Verif Require Import TapeFacts.
From Verif Require Export Graph.
From Coq Require Import ZifyBool ZifyNat.

Section Refine.
Context {N : Num} {RL : RepLaws N} {C : Cfg N}.

Definition nwidth (nd : node) : Z := bwidth (n_body nd).

Definition body_ok (g : graph) (k : nat) (nd : node) : Prop :=
  match n_body nd with
  | BRec ops _ => Forall (fun j => (j < k)%nat) ops
  | BMat i j a b =>
      Z.of_nat i + 1 <= max_int /\ Z.of_nat j + 1 <= max_int /\
      (exists ar, nth_error (g_arrs g) a = Some ar /\ a_loc ar + alen ar <= n_loc nd) /\
      (exists ar, nth_error (g_arrs g) b = Some ar /\ a_loc ar + alen ar <= n_loc nd)
  end.

Definition arr_ok (g : graph) (ar : arr) : Prop :=
  Z.of_nat (a_m ar) <= max_int /\ Z.of_nat (a_n ar) <= max_int /\
  match a_c ar with
  | AVar ids => length ids = (a_m ar * a_n ar)%nat /\
                Forall (fun j => (j < gsize g)%nat /\ gloc g j < a_loc ar) ids
  | ADat ds => length ds = (a_m ar * a_n ar)%nat
  end.

Definition split_at (nodes : list node) (arrs : list arr) (m : mark) : Prop :=
  (forall k nd, nth_error nodes k = Some nd ->
     ((k < mk_n m)%nat -> n_loc nd + nwidth nd <= mk_top m) /\
     ((mk_n m <= k)%nat -> mk_top m <= n_loc nd)) /\
  (forall k ar, nth_error arrs k = Some ar ->
     ((k < mk_a m)%nat -> a_loc ar + alen ar <= mk_top m) /\
     ((mk_a m <= k)%nat -> mk_top m <= a_loc ar)).

Fixpoint marks_ok (nodes : list node) (arrs : list arr) (l : list mark) (n a : nat) (top : Z) : Prop :=
  match l with
  | [] => True
  | m :: r => (mk_n m <= n)%nat /\ (mk_a m <= a)%nat /\ 1 <= mk_top m <= top /\
              split_at nodes arrs m /\ marks_ok nodes arrs r (mk_n m) (mk_a m) (mk_top m)
  end.

(* layout and references of the graph *)
Record gwf (g : graph) : Prop := {
  w_top : 1 <= g_top g <= g_peak g;
  w_node : forall k nd, nth_error (g_nodes g) k = Some nd ->
     1 <= n_loc nd /\ n_loc nd + nwidth nd <= g_top g /\ body_ok g k nd;
  w_order : forall k k' nd nd', (k < k')%nat ->
     nth_error (g_nodes g) k = Some nd -> nth_error (g_nodes g) k' = Some nd' ->
     n_loc nd + nwidth nd <= n_loc nd';
  w_arr : forall a ar, nth_error (g_arrs g) a = Some ar ->
     1 <= a_loc ar /\ a_loc ar + alen ar <= g_top g /\ arr_ok g ar;
  w_sep : forall k nd a ar, nth_error (g_nodes g) k = Some nd -> nth_error (g_arrs g) a = Some ar ->
     n_loc nd + nwidth nd <= a_loc ar \/ a_loc ar + alen ar <= n_loc nd;
  w_nest : marks_ok (g_nodes g) (g_arrs g) (g_nest g) (gsize g) (length (g_arrs g)) (g_top g)
}.

Definition arr_at (g : graph) (mem : Z -> W) (ar : arr) : Prop :=
  ints_at mem (a_loc ar) [Z.of_nat (a_m ar); Z.of_nat (a_n ar)] /\
  match a_c ar with
  | AVar ids => ints_at mem (a_loc ar + 2) (map (gloc g) ids)
  | ADat ds => reals_at mem (a_loc ar + 2) ds
  end.

Fixpoint nest_at (s : st) (l : list mark) : Prop :=
  match l with
  | [] => True
  | m :: r => s_nv s (zlen l) = Z.of_nat (mk_n m) + 1 /\ s_nt s (zlen l) = mk_top m /\ nest_at s r
  end.

Record Rel (s : st) (g : graph) : Prop := {
  r_wf : gwf g;
  r_head : s_head s = Z.of_nat (gsize g) + 1;
  r_n : Z.of_nat (gsize g) <= s_n s <= max_int;
  r_i : forall k, (k < gsize g)%nat -> v_i (s_varis s (Z.of_nat k + 1)) = gloc g k;
  r_ch : forall k, Z.of_nat k + 1 <= s_n s -> v_chain (s_varis s (Z.of_nat k + 1)) = g_ch g k;
  r_ch0 : forall k, s_n s < Z.of_nat k + 1 -> g_ch g k = ChDummy;
  r_twf : twf (s_tape s);
  r_thead : t_head (s_tape s) = g_top g;
  r_size : size_ok (t_size (s_tape s)) (g_peak g);
  r_mem : forall k nd, nth_error (g_nodes g) k = Some nd ->
     rec_at (t_mem (s_tape s)) (n_loc nd) (n_val nd) (g_adj g k) (zops g (n_body nd)) (bdata (n_body nd));
  r_arr : forall a ar, nth_error (g_arrs g) a = Some ar -> arr_at g (t_mem (s_tape s)) ar;
  r_lvl : s_lvl s = zlen (g_nest g);
  r_lvl10 : (length (g_nest g) <= 10)%nat;
  r_nest : nest_at s (g_nest g)
}.

Lemma nest_at_ext s s' l : s_nv s' = s_nv s -> s_nt s' = s_nt s -> nest_at s l -> nest_at s' l.
Proof.
  intros H1 H2. induction l as [|m r IH]; simpl; auto.
  rewrite H1, H2. intros (A & B & D). auto.
Qed.

(* handle of a node *)
Definition hd (k : nat) : Z := Z.of_nat k + 1.

Lemma nth_error_lt {A} (l : list A) k x : nth_error l k = Some x -> (k < length l)%nat.
Proof. intros H. apply nth_error_Some. congruence. Qed.

Lemma lt_nth_error {A} (l : list A) k : (k < length l)%nat -> exists x, nth_error l k = Some x.
Proof. intros H. apply nth_error_Some in H. destruct (nth_error l k) as [x|]; [eauto|congruence]. Qed.

Lemma bwidth_zops g b : bwidth b = rec_len (zops g b) (bdata b).
Proof.
  unfold rec_len, zlen. destruct b; simpl; [rewrite map_length|]; unfold zlen; simpl; lia.
Qed.

Lemma bwidth_pos b : 6 <= bwidth b.
Proof. destruct b; simpl; unfold zlen; lia. Qed.

Lemma alen_pos ar : 2 <= alen ar.
Proof. unfold alen, zlen. destruct (a_c ar); lia. Qed.

Lemma gsize_top g : gwf g -> 6 * Z.of_nat (gsize g) < g_top g.
Proof.
  intros H.
  assert (A : forall k nd, nth_error (g_nodes g) k = Some nd -> 1 + 6 * Z.of_nat k <= n_loc nd).
  { induction k as [|k IH]; intros nd E.
    - pose proof (w_node g H _ _ E). lia.
    - destruct (lt_nth_error (g_nodes g) k) as [nd' E']; [apply nth_error_lt in E; lia|].
      specialize (IH _ E'). pose proof (w_order g H k (S k) nd' nd ltac:(lia) E' E).
      pose proof (bwidth_pos (n_body nd')). unfold nwidth in *. lia. }
  unfold gsize. destruct (length (g_nodes g)) as [|n] eqn:E.
  - pose proof (w_top g H). lia.
  - destruct (lt_nth_error (g_nodes g) n) as [nd E']; [lia|].
    pose proof (A _ _ E'). pose proof (w_node g H _ _ E').
    pose proof (bwidth_pos (n_body nd)). unfold nwidth in *. lia.
Qed.

Section Use.
Variables (s : st) (g : graph).
Hypothesis R : Rel s g.

Lemma rel_vget k : (k < gsize g)%nat ->
  vget s (hd k) = Ok {| v_i := gloc g k; v_chain := g_ch g k |}.
Proof.
  intros H. pose proof (r_n s g R). unfold vget, hd.
  replace ((1 <=? Z.of_nat k + 1) && (Z.of_nat k + 1 <=? s_n s)) with true by lia.
  rewrite <- (r_i s g R k H), <- (r_ch s g R k) by lia. destruct (s_varis s _); reflexivity.
Qed.

Lemma top_int : g_top g <= max_int + 1.
Proof. rewrite <- (r_thead s g R). destruct (r_twf s g R) as (A & B & _). lia. Qed.

Lemma loc_int k : (k < gsize g)%nat -> is_int32 (gloc g k) = true.
Proof.
  intros H. destruct (lt_nth_error _ _ H) as [nd E]. unfold gloc. rewrite E.
  destruct (w_node g (r_wf s g R) _ _ E) as (A & B & _). pose proof (bwidth_pos (n_body nd)).
  pose proof top_int. unfold nwidth in *. unfold is_int32, min_int. lia.
Qed.

Lemma zops_int k nd : nth_error (g_nodes g) k = Some nd ->
  Forall (fun z => is_int32 z = true) (zops g (n_body nd)).
Proof.
  intros E. destruct (w_node g (r_wf s g R) _ _ E) as (A & B & D).
  pose proof (nth_error_lt _ _ _ E) as Hk.
  unfold body_ok in D. destruct (n_body nd) as [ops ds|i j a b] eqn:Eb; simpl.
  - apply Forall_map. eapply Forall_impl; [|exact D]. intros x Hx.
    cbv beta in Hx. apply loc_int. unfold gsize. lia.
  - destruct D as (D1 & D2 & (ar & D3 & D4) & (ar' & D5 & D6)).
    pose proof (w_arr g (r_wf s g R) _ _ D3). pose proof (w_arr g (r_wf s g R) _ _ D5).
    pose proof (alen_pos ar). pose proof (alen_pos ar'). pose proof top_int.
    unfold galoc. rewrite D3, D5.
    repeat constructor; unfold is_int32, min_int; lia.
Qed.

Lemma rel_rec k nd : nth_error (g_nodes g) k = Some nd ->
  rec_in (s_tape s) (n_loc nd) (n_val nd) (g_adj g k) (zops g (n_body nd)) (bdata (n_body nd)).
Proof.
  intros E. destruct (w_node g (r_wf s g R) _ _ E) as (A & B & D).
  unfold rec_in. rewrite <- (bwidth_zops g).
  destruct (r_twf s g R) as (T1 & T2 & T3). pose proof (r_thead s g R). unfold nwidth in *.
  split; [lia|]. split; [lia|]. split; [lia|]. split.
  - eapply zops_int; eauto.
  - apply (r_mem s g R); auto.
Qed.

Lemma gloc_eq k nd : nth_error (g_nodes g) k = Some nd -> gloc g k = n_loc nd.
Proof. unfold gloc; intros ->; auto. Qed.
Lemma gval_eq k nd : nth_error (g_nodes g) k = Some nd -> gval g k = n_val nd.
Proof. unfold gval; intros ->; auto. Qed.

Lemma rel_val_at k : (k < gsize g)%nat -> val_at (s_tape s) (gloc g k) = Ok (gval g k).
Proof.
  intros H. destruct (lt_nth_error _ _ H) as [nd E]. rewrite (gloc_eq _ _ E), (gval_eq _ _ E).
  eapply rec_val. apply (rel_rec _ _ E).
Qed.

Lemma rel_adj_at k : (k < gsize g)%nat -> adj_at (s_tape s) (gloc g k) = Ok (g_adj g k).
Proof.
  intros H. destruct (lt_nth_error _ _ H) as [nd E]. rewrite (gloc_eq _ _ E).
  eapply rec_adj. apply (rel_rec _ _ E).
Qed.

Lemma rel_var_val k : (k < gsize g)%nat -> var_val s (hd k) = Ok (gval g k).
Proof. intros H. unfold var_val. rewrite rel_vget by auto. simpl. apply rel_val_at; auto. Qed.

Lemma rel_var_adj k : (k < gsize g)%nat -> var_adj s (hd k) = Ok (g_adj g k).
Proof. intros H. unfold var_adj. rewrite rel_vget by auto. simpl. apply rel_adj_at; auto. Qed.

Lemma rel_vi_index k : (k < gsize g)%nat -> vi_index s (hd k) = Ok (gloc g k).
Proof. intros H. unfold vi_index. rewrite rel_vget by auto. reflexivity. Qed.

Definition live (ks : list nat) : Prop := Forall (fun k => (k < gsize g)%nat) ks.

Lemma rel_map {B} (f : Z -> res B) (h : nat -> B) ks :
  (forall k, (k < gsize g)%nat -> f (hd k) = Ok (h k)) -> live ks ->
  mapM f (map hd ks) = Ok (map h ks).
Proof.
  intros H. induction 1 as [|k t Hk Ht IH]; simpl; auto.
  rewrite H by auto. simpl. rewrite IH. reflexivity.
Qed.

Lemma rel_maploc {B} (f : Z -> res B) (h : nat -> B) ks :
  (forall k, (k < gsize g)%nat -> f (gloc g k) = Ok (h k)) -> live ks ->
  mapM f (map (gloc g) ks) = Ok (map h ks).
Proof.
  intros H. induction 1 as [|k t Hk Ht IH]; simpl; auto.
  rewrite H by auto. simpl. rewrite IH. reflexivity.
Qed.
End Use.

(* ---- writing a value or an adjoint ---- *)

(* memory changed only in the stretch [lo, hi) inside record k *)
Lemma rec_other g k nd lo hi (m m' : Z -> W) :
  gwf g -> nth_error (g_nodes g) k = Some nd ->
  n_loc nd <= lo -> hi <= n_loc nd + nwidth nd ->
  (forall j, j < lo \/ hi <= j -> m' j = m j) ->
  (forall k' nd' v a, k' <> k -> nth_error (g_nodes g) k' = Some nd' ->
     rec_at m (n_loc nd') v a (zops g (n_body nd')) (bdata (n_body nd')) ->
     rec_at m' (n_loc nd') v a (zops g (n_body nd')) (bdata (n_body nd'))) /\
  (forall a ar, nth_error (g_arrs g) a = Some ar -> arr_at g m ar -> arr_at g m' ar).
Proof.
  intros H E Hlo Hhi Hm. split.
  - intros k' nd' v a Hk E' Hr. eapply rec_at_frame; [|exact Hr].
    rewrite <- bwidth_zops. intros j Hj. apply Hm. unfold nwidth in *.
    destruct (Nat.lt_trichotomy k' k) as [L|[L|L]]; [|lia|].
    + pose proof (w_order g H _ _ _ _ L E' E). unfold nwidth in *. lia.
    + pose proof (w_order g H _ _ _ _ L E E'). unfold nwidth in *. lia.
  - intros a ar E' [A1 A2].
    assert (D : forall j, a_loc ar <= j < a_loc ar + alen ar -> m' j = m j).
    { intros j Hj. apply Hm. destruct (w_sep g H _ _ _ _ E E'); lia. }
    pose proof (alen_pos ar). unfold arr_at. split.
    + eapply ints_at_frame; [|exact A1]. intros j Hj. apply D. unfold zlen in Hj; simpl in Hj. lia.
    + unfold alen in *. destruct (a_c ar).
      * eapply ints_at_frame; [|exact A2]. intros j Hj. apply D.
        unfold zlen in *. rewrite map_length in Hj. lia.
      * eapply reals_at_frame; [|exact A2]. intros j Hj. apply D. lia.
Qed.

Lemma gwf_set_gadj g f : gwf g -> gwf (set_gadj g f).
Proof.
  intros H. destruct H. constructor; auto.
Qed.
Lemma gwf_set_gch g f : gwf g -> gwf (set_gch g f).
Proof.
  intros H. destruct H. constructor; auto.
Qed.

Lemma rel_set_adj s g k x : Rel s g -> (k < gsize g)%nat ->
  exists t', set_adj_at (s_tape s) (gloc g k) x = Ok t' /\
             Rel (set_tape s t') (set_gadj g (nupd (g_adj g) k x)).
Proof.
  intros R Hk. destruct (lt_nth_error _ _ Hk) as [nd E]. rewrite (gloc_eq g _ _ E).
  destruct (w_node g (r_wf s g R) _ _ E) as (A & B & D).
  destruct (r_twf s g R) as (T1 & T2 & T3). pose proof (r_thead s g R) as HT.
  pose proof (bwidth_pos (n_body nd)). unfold nwidth in *.
  unfold set_adj_at.
  destruct (set_real_at_ok (s_tape s) (n_loc nd + 2) x) as (t' & W1 & (W2 & W3 & W4) & W5); try lia.
  exists t'. split; auto.
  destruct (rec_other g k nd (n_loc nd + 2) (n_loc nd + 2 + 2) (t_mem (s_tape s)) (t_mem t')
              (r_wf s g R) E) as [O1 O2]; auto; unfold nwidth; try lia.
  destruct R as [q1 q2 q3 q4 q5 q6 q7 q8 q9 q10 q11 q12 q13 q14]. constructor; auto.
  - apply gwf_set_gadj; auto.
  - unfold twf; simpl. rewrite W2, W3. split; [auto|]. split; [auto|].
    intros j Hj. rewrite W4 by lia. apply T3; auto.
  - simpl. congruence.
  - simpl. rewrite W3. auto.
  - intros k' nd' E'. cbn [g_nodes set_gadj g_adj] in *. simpl s_tape.
    change (zops (set_gadj g (nupd (g_adj g) k x))) with (zops g).
    unfold nupd. destruct (Nat.eqb_spec k' k) as [->|Hne].
    + assert (nd' = nd) by congruence. subst nd'.
      destruct (q10 _ _ E) as (M1 & M2 & M3 & M4). unfold rec_at. split; [|split; [|split]].
      * eapply real_at_frame; [|exact M1]. intros j Hj. apply W4. lia.
      * exact W5.
      * eapply ints_at_frame; [|exact M3]. intros j Hj. apply W4. lia.
      * eapply reals_at_frame; [|exact M4]. intros j Hj. apply W4.
        assert (0 <= zlen (zops g (n_body nd))) by apply zlen_nonneg. lia.
    + apply (O1 k'); auto.
  - intros a ar E'. apply (O2 a ar E'). apply (q11 a ar E').
  - eapply nest_at_ext; [| |exact q14]; auto.
Qed.

Lemma rel_set_var_adj s g k x : Rel s g -> (k < gsize g)%nat ->
  exists s', set_var_adj (hd k) x s = Ok s' /\ Rel s' (set_gadj g (nupd (g_adj g) k x)).
Proof.
  intros R Hk. unfold set_var_adj. rewrite (rel_vget s g R) by auto. simpl.
  destruct (rel_set_adj s g k x R Hk) as (t' & E & R'). rewrite E. simpl. eauto.
Qed.

(* add_adj on the tape = addto on the graph *)
Lemma rel_add_adj s g k x : Rel s g -> (k < gsize g)%nat ->
  exists t', add_adj (s_tape s) (gloc g k, x) = Ok t' /\
             Rel (set_tape s t') (set_gadj g (addto (g_adj g) (k, x))).
Proof.
  intros R Hk. unfold add_adj. simpl. rewrite (rel_adj_at s g R) by auto. simpl.
  apply (rel_set_adj s g k _ R Hk).
Qed.

Lemma rel_add_adjs s g l : Rel s g -> live g (map fst l) ->
  exists t', foldM add_adj (map (fun p => (gloc g (fst p), snd p)) l) (s_tape s) = Ok t' /\
             Rel (set_tape s t') (set_gadj g (apply_effect l (g_adj g))).
Proof.
  revert s g; induction l as [|[k x] l IH]; intros s g R H; simpl in *.
  - exists (s_tape s). split; auto. destruct s, g; exact R.
  - inversion H as [|? ? Hk Hl]; subst.
    destruct (rel_add_adj s g k x R Hk) as (t' & E & R'). rewrite E. simpl.
    destruct (IH _ _ R') as (t2 & E2 & R2); [exact Hl|].
    exists t2. split; [exact E2|]. exact R2.
Qed.

Definition set_gval (g : graph) (k : nat) (d : F) : graph :=
  set_gnodes g (map (fun p : nat * node => if Nat.eqb (fst p) k
                      then {| n_val := d; n_body := n_body (snd p); n_loc := n_loc (snd p) |}
                      else snd p)
                    (combine (seq 0 (gsize g)) (g_nodes g))).

Lemma nth_error_combine_seq {A} (l : list A) b k :
  nth_error (combine (seq b (length l)) l) k =
  match nth_error l k with Some x => Some (b + k, x)%nat | None => None end.
Proof.
  revert b k; induction l as [|x l IH]; intros b [|k]; simpl; auto.
  - rewrite Nat.add_0_r. reflexivity.
  - rewrite IH. destruct (nth_error l k); auto. replace (b + S k)%nat with (S b + k)%nat by lia. reflexivity.
Qed.

Lemma set_gval_nth g k d j :
  nth_error (g_nodes (set_gval g k d)) j =
  match nth_error (g_nodes g) j with
  | Some nd => Some (if Nat.eqb j k
                then {| n_val := d; n_body := n_body nd; n_loc := n_loc nd |} else nd)
  | None => None
  end.
Proof.
  unfold set_gval, gsize; simpl. rewrite nth_error_map, nth_error_combine_seq.
  destruct (nth_error (g_nodes g) j); reflexivity.
Qed.

(* ---- graph growth: facts preserved ---- *)

Lemma gloc_app g nodes' ch adj arrs n j : (j < gsize g)%nat ->
  gloc (push_top g n (g_nodes g ++ nodes') adj arrs ch) j = gloc g j.
Proof.
  intros H. unfold gloc, push_top; simpl. rewrite nth_error_app1; auto.
Qed.

Lemma split_at_app nodes arrs m nodes' arrs' :
  split_at nodes arrs m -> (mk_n m <= length nodes)%nat -> (mk_a m <= length arrs)%nat ->
  (forall nd, In nd nodes' -> mk_top m <= n_loc nd) ->
  (forall ar, In ar arrs' -> mk_top m <= a_loc ar) ->
  split_at (nodes ++ nodes') (arrs ++ arrs') m.
Proof.
  intros [S1 S2] Hn Ha H1 H2. split.
  - intros k nd E. destruct (Nat.lt_ge_cases k (length nodes)) as [L|L].
    + rewrite nth_error_app1 in E by auto. apply S1; auto.
    + rewrite nth_error_app2 in E by auto. apply nth_error_In in E.
      split; [lia|]. intros _. auto.
  - intros k ar E. destruct (Nat.lt_ge_cases k (length arrs)) as [L|L].
    + rewrite nth_error_app1 in E by auto. apply S2; auto.
    + rewrite nth_error_app2 in E by auto. apply nth_error_In in E.
      split; [lia|]. intros _. auto.
Qed.

Lemma marks_ok_app nodes arrs l n a top nodes' arrs' n' a' top' :
  marks_ok nodes arrs l n a top -> (n <= length nodes)%nat -> (a <= length arrs)%nat ->
  (n <= n')%nat -> (a <= a')%nat -> top <= top' ->
  (forall nd, In nd nodes' -> top <= n_loc nd) ->
  (forall ar, In ar arrs' -> top <= a_loc ar) ->
  marks_ok (nodes ++ nodes') (arrs ++ arrs') l n' a' top'.
Proof.
  revert n a top n' a' top'; induction l as [|m r IH]; simpl; auto.
  intros n a top n' a' top' (M1 & M2 & M3 & M4 & M5) Hn Ha Hn' Ha' Ht H1 H2.
  split; [lia|]. split; [lia|]. split; [lia|]. split.
  - apply split_at_app; auto; try lia; intros x Hx; first [specialize (H1 x Hx)|specialize (H2 x Hx)]; lia.
  - eapply IH; eauto; try lia; intros x Hx; first [specialize (H1 x Hx)|specialize (H2 x Hx)]; lia.
Qed.

Lemma body_ok_grow g g' k nd :
  (forall a ar, nth_error (g_arrs g) a = Some ar -> nth_error (g_arrs g') a = Some ar) ->
  body_ok g k nd -> body_ok g' k nd.
Proof.
  intros H. unfold body_ok. destruct (n_body nd); auto.
  intros (A & B & (ar & D & E) & (ar' & D' & E')).
  split; [auto|]. split; [auto|]. split; eauto.
Qed.

(* a body that may be appended *)
Definition new_ok (g : graph) (b : body) : Prop :=
  match b with
  | BRec ops _ => live g ops
  | BMat i j a b => Z.of_nat i + 1 <= max_int /\ Z.of_nat j + 1 <= max_int /\
                    (a < length (g_arrs g))%nat /\ (b < length (g_arrs g))%nat
  end.

Lemma gwf_new g v b ch : gwf g -> new_ok g b -> gwf (a_new g v b ch).
Proof.
  intros H Hb. pose proof (bwidth_pos b) as Hw.
  assert (NE : forall k nd, nth_error (g_nodes g ++ [mkNode v b (g_top g)]) k = Some nd ->
     nth_error (g_nodes g) k = Some nd \/ (k = gsize g /\ nd = mkNode v b (g_top g))).
  { intros k nd E. destruct (Nat.lt_ge_cases k (gsize g)) as [L|L].
    - rewrite nth_error_app1 in E by exact L. auto.
    - rewrite nth_error_app2 in E by exact L. fold (gsize g) in E.
      destruct (k - gsize g)%nat as [|[|z]] eqn:Ez; simpl in E; inversion E.
      right. split; [lia|auto]. }
  pose proof (w_top g H) as HT.
  constructor; unfold a_new; cbn [g_top g_peak g_nodes g_arrs g_nest push_top].
  - lia.
  - intros k nd E. destruct (NE _ _ E) as [E'|[-> ->]].
    + destruct (w_node g H _ _ E') as (A & B & D). split; [auto|]. split; [lia|].
      eapply body_ok_grow; [|exact D]. auto.
    + unfold nwidth; simpl. split; [lia|]. split; [lia|].
      unfold body_ok; simpl. destruct b as [ops ds|i j a0 b0]; simpl in Hb.
      * exact Hb.
      * destruct Hb as (B1 & B2 & B3 & B4).
        destruct (lt_nth_error _ _ B3) as [ar E3]. destruct (lt_nth_error _ _ B4) as [ar' E4].
        split; [auto|]. split; [auto|]. split; [exists ar|exists ar']; split; auto.
        -- apply (w_arr g H) in E3. lia.
        -- apply (w_arr g H) in E4. lia.
  - intros k k' nd nd' L E E'. destruct (NE _ _ E) as [F|[-> ->]], (NE _ _ E') as [F'|[-> ->]].
    + eapply (w_order g H); eauto.
    + pose proof (w_node g H _ _ F). simpl. lia.
    + apply nth_error_lt in F'. fold (gsize g) in F'. lia.
    + lia.
  - intros a ar E. destruct (w_arr g H _ _ E) as (A & B & D). split; [auto|]. split; [lia|].
    destruct D as (D1 & D2 & D3). split; [auto|]. split; [auto|].
    destruct (a_c ar); auto. destruct D3 as [D3 D4]. split; auto.
    eapply Forall_impl; [|exact D4]. intros j [J1 J2]. fold (a_new g v b ch).
    unfold gsize; simpl. rewrite app_length; simpl. fold (gsize g). split; [lia|].
    unfold a_new. rewrite gloc_app by auto. auto.
  - intros k nd a ar E Ea. destruct (NE _ _ E) as [F|[-> ->]].
    + eapply (w_sep g H); eauto.
    + right. simpl. apply (w_arr g H) in Ea. lia.
  - pose proof (w_nest g H) as M.
    rewrite <- (app_nil_r (g_arrs g)).
    eapply marks_ok_app; eauto; unfold gsize; simpl; try rewrite !app_length; simpl; try lia.
    intros nd [<-|[]]. simpl. lia.
Qed.

Definition newarr_ok (g : graph) (m n : nat) (c : acont) : Prop :=
  Z.of_nat m <= max_int /\ Z.of_nat n <= max_int /\
  match c with
  | AVar ids => length ids = (m * n)%nat /\ live g ids
  | ADat ds => length ds = (m * n)%nat
  end.

Lemma live_loc g k : gwf g -> (k < gsize g)%nat -> 1 <= gloc g k < g_top g.
Proof.
  intros H L. destruct (lt_nth_error _ _ L) as [nd E]. rewrite (gloc_eq g _ _ E).
  pose proof (w_node g H _ _ E). pose proof (bwidth_pos (n_body nd)). unfold nwidth in *. lia.
Qed.

Lemma gwf_arr g m n c : gwf g -> newarr_ok g m n c -> gwf (a_arr g m n c).
Proof.
  intros H (Hm & Hn & Hc). set (ar0 := mkArr m n c (g_top g)).
  pose proof (alen_pos ar0) as Hw.
  assert (NE : forall k ar, nth_error (g_arrs g ++ [ar0]) k = Some ar ->
     nth_error (g_arrs g) k = Some ar \/ (k = length (g_arrs g) /\ ar = ar0)).
  { intros k nd E. destruct (Nat.lt_ge_cases k (length (g_arrs g))) as [L|L].
    - rewrite nth_error_app1 in E by exact L. auto.
    - rewrite nth_error_app2 in E by exact L.
      destruct (k - length (g_arrs g))%nat as [|[|z]] eqn:Ez; simpl in E; inversion E.
      right. split; [lia|auto]. }
  pose proof (w_top g H) as HT.
  constructor; unfold a_arr; cbn [g_top g_peak g_nodes g_arrs g_nest push_top]; fold ar0.
  - lia.
  - intros k nd E. destruct (w_node g H _ _ E) as (A & B & D). split; [auto|]. split; [lia|].
    eapply body_ok_grow; [|exact D]. simpl. intros a ar Ea. rewrite nth_error_app1; auto.
    eapply nth_error_lt; eauto.
  - intros k k' nd nd' L E E'. eapply (w_order g H); eauto.
  - intros a ar E. destruct (NE _ _ E) as [E'|[-> ->]].
    + destruct (w_arr g H _ _ E') as (A & B & D). split; [auto|]. split; [lia|].
      destruct D as (D1 & D2 & D3). split; [auto|]. split; [auto|]. exact D3.
    + split; [simpl; lia|]. split; [simpl; lia|]. split; [auto|]. split; [auto|]. simpl.
      destruct c; auto. destruct Hc as [Hc1 Hc2]. split; auto.
      eapply Forall_impl; [|exact Hc2]. intros j J. split; auto.
      pose proof (live_loc g j H J). unfold gloc in *; simpl. lia.
  - intros k nd a ar E Ea. destruct (NE _ _ Ea) as [F|[-> ->]].
    + eapply (w_sep g H); eauto.
    + left. simpl. apply (w_node g H) in E. lia.
  - pose proof (w_nest g H) as M.
    rewrite <- (app_nil_r (g_nodes g)).
    eapply marks_ok_app; eauto; unfold gsize; simpl; try rewrite !app_length; simpl; try lia.
    intros ar [<-|[]]. simpl. lia.
Qed.

(* ---- allocating slots of the variable table ---- *)

Lemma grow_varis_ok fuel s n :
  1 <= s_n s <= max_int -> 1 <= s_head s <= s_n s + 1 ->
  s_head s + n - 1 <= cap -> max_int < s_n s * 2 ^ Z.of_nat fuel ->
  exists s', grow_varis fuel s n = Ok s' /\ s_n s <= s_n s' <= max_int /\
    s_head s + n <= s_n s' + 1 /\
    s_head s' = s_head s /\ s_tape s' = s_tape s /\ s_lvl s' = s_lvl s /\
    s_nv s' = s_nv s /\ s_nt s' = s_nt s /\
    (forall j, 1 <= j <= s_n s -> s_varis s' j = s_varis s j) /\
    (forall j, s_n s < j <= s_n s' -> s_varis s' j = vari0).
Proof.
  revert s; induction fuel as [|k IH]; intros s Hn Hh Hc Hf; cbn [grow_varis].
  - replace (2 ^ Z.of_nat 0) with 1 in Hf by reflexivity. lia.
  - destruct (s_n s - s_head s + 1 <? n) eqn:E.
    2:{ exists s. repeat split; auto; lia. }
    rewrite i32_ok by (unfold cap, max_int, min_int in *; lia). cbn [bind].
    edestruct (IH (set_varis s (2 * s_n s)
        (fun j => if (1 <=? j) && (j <=? s_n s) then s_varis s j else vari0)))
      as (s' & E1 & A1 & A2 & A3 & A4 & A5 & A6 & A7 & A8 & A9); cbn [s_n s_head set_varis]; auto.
    + unfold cap, max_int in *; lia.
    + lia.
    + rewrite Nat2Z.inj_succ, Z.pow_succ_r in Hf by lia.
      rewrite (Z.mul_comm 2), <- Z.mul_assoc. exact Hf.
    + cbn [s_n s_head set_varis s_tape s_lvl s_nv s_nt s_varis] in *.
      exists s'. split; [exact E1|]. repeat split; auto; try lia.
      * intros j Hj. rewrite A8 by lia.
        replace ((1 <=? j) && (j <=? s_n s)) with true by lia. reflexivity.
      * intros j Hj. destruct (Z.le_gt_cases j (2 * s_n s)).
        -- rewrite A8 by lia. replace ((1 <=? j) && (j <=? s_n s)) with false by lia. reflexivity.
        -- apply A9. lia.
Qed.

(* enough slots never needs a size beyond int32: the tape fills up first *)
Lemma alloc_vari_ok s g : cfg_ok C -> Rel s g ->
  exists s', alloc_vari_stack_1 s = Ok s' /\ Rel s' g /\ s_tape s' = s_tape s /\
             s_head s' = s_head s /\ s_head s <= s_n s'.
Proof.
  intros [HC1 HC2] R. unfold alloc_vari_stack_1, alloc_vari_stack_n.
  set (s1 := if s_n s =? 0 then _ else _).
  pose proof (r_n s g R) as Hn. pose proof (r_head s g R) as Hh.
  assert (F : s_n s <= s_n s1 <= max_int /\ 1 <= s_n s1 /\ s_head s1 = s_head s /\
    s_tape s1 = s_tape s /\ s_lvl s1 = s_lvl s /\ s_nv s1 = s_nv s /\ s_nt s1 = s_nt s /\
    (forall j, 1 <= j <= s_n s -> s_varis s1 j = s_varis s j) /\
    (forall j, s_n s < j <= s_n s1 -> s_varis s1 j = vari0)).
  { subst s1. destruct (s_n s =? 0) eqn:E; simpl.
    - unfold init_tape_size, min_rec_size in HC2. repeat split; auto; try lia.
    - repeat split; auto; lia. }
  destruct F as (F1 & F2 & F3 & F4 & F5 & F6 & F7 & F8 & F9).
  destruct (grow_varis_ok alloc_fuel s1 1) as (s' & E1 & A1 & A2 & A3 & A4 & A5 & A6 & A7 & A8 & A9).
  - lia.
  - lia.
  - pose proof (gsize_top g (r_wf s g R)). pose proof (top_int s g R). unfold cap, max_int in *. lia.
  - change (2 ^ Z.of_nat alloc_fuel) with 1099511627776. unfold max_int. lia.
  - exists s'. split; [exact E1|]. split; [|split; [congruence|split; lia]].
    assert (OLD : forall j, 1 <= j <= s_n s -> s_varis s' j = s_varis s j).
    { intros j Hj. rewrite A8 by lia. apply F8. lia. }
    assert (NEW : forall j, s_n s < j <= s_n s' -> s_varis s' j = vari0).
    { intros j Hj. destruct (Z.le_gt_cases j (s_n s1)).
      - rewrite A8 by lia. apply F9. lia.
      - apply A9. lia. }
    destruct R as [q1 q2 q3 q4 q5 q6 q7 q8 q9 q10 q11 q12 q13 q14].
    rewrite F4 in A4.
    constructor; try rewrite A4; auto; try lia; try congruence.
    + intros k Hk. rewrite OLD by lia. auto.
    + intros k Hk. destruct (Z.le_gt_cases (Z.of_nat k + 1) (s_n s)).
      * rewrite OLD by lia. auto.
      * rewrite NEW by lia. simpl. symmetry. apply q6. lia.
    + intros k Hk. apply q6. lia.
    + eapply nest_at_ext; [| |exact q14]; congruence.
Qed.

(* ---- pushing a record and taking a slot ---- *)

Lemma rec_old g nodes' arrs' m m' :
  gwf g -> same_on m m' 1 (g_top g) ->
  (forall k nd v a, nth_error (g_nodes g) k = Some nd ->
     rec_at m (n_loc nd) v a (zops g (n_body nd)) (bdata (n_body nd)) ->
     rec_at m' (n_loc nd) v a (zops {| g_nodes := g_nodes g ++ nodes'; g_adj := g_adj g;
        g_arrs := g_arrs g ++ arrs'; g_ch := g_ch g; g_nest := g_nest g; g_top := g_top g;
        g_peak := g_peak g |} (n_body nd)) (bdata (n_body nd))) /\
  (forall a ar, nth_error (g_arrs g) a = Some ar -> arr_at g m ar ->
     arr_at {| g_nodes := g_nodes g ++ nodes'; g_adj := g_adj g;
        g_arrs := g_arrs g ++ arrs'; g_ch := g_ch g; g_nest := g_nest g; g_top := g_top g;
        g_peak := g_peak g |} m' ar).
Proof.
  intros H Hm. split.
  - intros k nd v a E Hr. destruct (w_node g H _ _ E) as (A & B & D).
    pose proof (nth_error_lt _ _ _ E) as L.
    match goal with |- rec_at _ _ _ _ (zops ?g' _) _ => assert (Z : zops g' (n_body nd) = zops g (n_body nd)) end.
    { unfold body_ok in D. destruct (n_body nd) as [ops ds|i j a0 b0]; simpl.
      - apply map_ext_in. intros x Hx. rewrite Forall_forall in D. specialize (D x Hx).
        unfold gloc; simpl. rewrite nth_error_app1; auto. lia.
      - destruct D as (_ & _ & (ar & D1 & _) & (ar' & D2 & _)). unfold galoc; simpl.
        rewrite !nth_error_app1; auto; eapply nth_error_lt; eauto. }
    rewrite Z. eapply rec_at_frame; [|exact Hr]. rewrite <- bwidth_zops.
    eapply same_on_sub; eauto. 
  - intros a ar E [A1 A2]. destruct (w_arr g H _ _ E) as (B1 & B2 & B3 & B4 & B5).
    pose proof (alen_pos ar). unfold arr_at. split.
    + eapply ints_at_frame; [|exact A1]. eapply same_on_sub; eauto. unfold zlen; simpl. lia.
    + unfold alen in *. destruct (a_c ar).
      * destruct B5 as [_ B5].
        match goal with |- ints_at _ _ ?l => assert (Z : l = map (gloc g) ids) end.
        { apply map_ext_in. intros x Hx. rewrite Forall_forall in B5. destruct (B5 x Hx) as [B6 _].
          unfold gloc; simpl. rewrite nth_error_app1; auto. }
        rewrite Z. eapply ints_at_frame; [|exact A2]. eapply same_on_sub; eauto; try lia.
        unfold zlen in *. rewrite map_length. lia.
      * eapply reals_at_frame; [|exact A2]. eapply same_on_sub; eauto; lia.
Qed.

(* what a record push does *)
Definition pushes (ov : Prop) (push : tape -> res (Z * tape)) (t : tape) (v : F) (ops : list Z) (ds : list F) :=
  wp ov (push t) (fun p => fst p = t_head t /\ pushed t (snd p) (rec_len ops ds) /\
                           rec_at (t_mem (snd p)) (t_head t) v f0 ops ds).

Lemma rel_new_vari (ov : Prop) push s g v b :
  cfg_ok C -> Rel s g -> new_ok g b ->
  pushes ov push (s_tape s) v (zops g b) (bdata b) ->
  wp ov (new_vari_with push s) (fun p =>
    fst p = hd (gsize g) /\ Rel (snd p) (a_new g v b None)).
Proof.
  intros HC R Hb HP. unfold new_vari_with.
  destruct (alloc_vari_ok s g HC R) as (s1 & E1 & R1 & T1 & H1 & H2).
  rewrite E1. cbn [bind]. apply wp_bind. rewrite T1. eapply wp_mono; [exact HP|auto|].
  intros [id t] (P1 & P2 & P3). cbn [fst snd] in *.
  rewrite (r_thead s g R) in P1, P3. rewrite <- T1 in P2.
  pose proof (r_head s1 g R1) as Hh. pose proof (r_n s1 g R1) as Hn.
  unfold vget, vput. cbn [s_n s_head set_tape s_varis].
  replace ((1 <=? s_head s1) && (s_head s1 <=? s_n s1)) with true by lia. cbn [bind].
  cbn [s_head set_varis set_tape]. pose proof (r_wf s1 g R1) as HW.
  pose proof (gsize_top g HW) as HG. pose proof (top_int s1 g R1) as HG2.
  rewrite i32_ok by (unfold min_int, max_int in *; lia). cbn [bind wp fst snd].
  split; [unfold hd; lia|].
  destruct P2 as (Q1 & Q2 & Q3 & Q4 & Q5).
  rewrite <- (bwidth_zops g) in *.
  pose proof (rec_old g [mkNode v b (g_top g)] [] (t_mem (s_tape s1)) (t_mem t) HW) as [O1 O2].
  { intros j Hj. apply Q4. rewrite (r_thead s1 g R1). exact Hj. }
  assert (LEN : gsize (a_new g v b None) = S (gsize g)).
  { unfold gsize; simpl. rewrite app_length; simpl. lia. }
  pose proof (gwf_new g v b None HW Hb) as HW'.
  destruct R1 as [q1 q2 q3 q4 q5 q6 q7 q8 q9 q10 q11 q12 q13 q14].
  assert (GL : forall k, (k < gsize g)%nat -> gloc (a_new g v b None) k = gloc g k).
  { intros k Hk. unfold a_new. apply gloc_app; auto. }
  constructor; cbn [s_head s_n s_varis s_tape s_lvl s_nv s_nt set_shead set_varis set_tape]; auto.
  - rewrite LEN. lia.
  - rewrite LEN. lia.
  - intros k Hk. rewrite LEN in Hk. unfold upd.
    destruct (Z.of_nat k + 1 =? s_head s1) eqn:Ek.
    + simpl. assert (k = gsize g) by lia. subst k. rewrite P1.
      unfold gloc; simpl. rewrite nth_error_app2 by auto. unfold gsize. rewrite Nat.sub_diag. reflexivity.
    + rewrite q4 by lia. rewrite GL by lia. reflexivity.
  - intros k Hk. unfold upd. destruct (Z.of_nat k + 1 =? s_head s1) eqn:Ek.
    + simpl. rewrite <- q5 by lia. f_equal. f_equal. lia.
    + rewrite q5 by lia. reflexivity.
  - rewrite Q2, q8. reflexivity.
  - simpl. rewrite <- q8. apply Q5; auto. pose proof (w_top g HW). lia.
  - intros k nd E. cbn [a_new push_top g_nodes] in E.
    destruct (Nat.lt_ge_cases k (gsize g)) as [L|L].
    + rewrite nth_error_app1 in E by exact L.
      assert (g_adj (a_new g v b None) k = g_adj g k) as ->.
      { simpl. unfold nupd. destruct (Nat.eqb_spec k (gsize g)); [lia|auto]. }
      specialize (O1 k nd (n_val nd) (g_adj g k) E (q10 _ _ E)).
      unfold zops, gloc, galoc in *. cbn [a_new push_top g_nodes g_arrs] in *.
      rewrite app_nil_r in O1. exact O1.
    + rewrite nth_error_app2 in E by exact L. fold (gsize g) in E.
      destruct (k - gsize g)%nat as [|[|z]] eqn:Ez; simpl in E; inversion E. subst nd.
      assert (k = gsize g) by lia. subst k.
      assert (g_adj (a_new g v b None) (gsize g) = f0) as ->.
      { simpl. unfold nupd. rewrite Nat.eqb_refl. auto. }
      simpl n_loc. simpl n_val. simpl n_body.
      assert (ZZ : zops (a_new g v b None) b = zops g b).
      { destruct b as [ops ds|i j a0 b0]; simpl.
        - apply map_ext_in. intros x Hx. simpl in Hb. unfold live in Hb. rewrite Forall_forall in Hb.
          specialize (Hb x Hx). apply GL. auto.
        - reflexivity. }
      rewrite ZZ. exact P3.
  - intros a ar E. cbn [a_new push_top g_arrs] in E. specialize (O2 a ar E (q11 _ _ E)).
    unfold arr_at, gloc in *. cbn [a_new push_top g_nodes] in *. exact O2.
  - eapply nest_at_ext; [| |exact q14]; auto.
Qed.

Lemma rel_set_chain s g k ch : Rel s g -> (k < gsize g)%nat ->
  exists s', set_chain (hd k) ch s = Ok (tt, s') /\ Rel s' (set_gch g (nupd (g_ch g) k ch)).
Proof.
  intros R Hk. unfold set_chain, mput. rewrite (rel_vget s g R) by auto. cbn [bind].
  pose proof (r_n s g R). unfold vput, hd.
  replace ((1 <=? Z.of_nat k + 1) && (Z.of_nat k + 1 <=? s_n s)) with true by lia. cbn [bind].
  eexists; split; [reflexivity|].
  destruct R as [q1 q2 q3 q4 q5 q6 q7 q8 q9 q10 q11 q12 q13 q14].
  constructor; cbn [s_head s_n s_varis s_tape s_lvl s_nv s_nt set_varis]; auto.
  - apply gwf_set_gch; auto.
  - intros j Hj. unfold upd. destruct (Z.of_nat j + 1 =? Z.of_nat k + 1) eqn:E.
    + simpl. assert (j = k) by lia. subst j. reflexivity.
    + rewrite q4 by auto. reflexivity.
  - intros j Hj. unfold upd. simpl. unfold nupd. destruct (Z.of_nat j + 1 =? Z.of_nat k + 1) eqn:E.
    + simpl. assert (j = k) by lia. subst j. rewrite Nat.eqb_refl. reflexivity.
    + rewrite q5 by auto. destruct (Nat.eqb_spec j k); [lia|reflexivity].
  - intros j Hj. simpl. unfold nupd. destruct (Nat.eqb_spec j k); [lia|]. apply q6. auto.
  - eapply nest_at_ext; [| |exact q14]; auto.
Qed.

End Refine.
