(* C59: the slopes of the whole are the chain rule. *)
From Coq Require Import Reals Lra ZifyBool ZifyNat.
From Coquelicot Require Import Coquelicot.
From Verif Require Export Claims_acc3.
Import ListNotations.
Local Open Scope R_scope.

Lemma dot_spread (sl : list (nat * R)) a (z : nat -> R) : forall (f : nat -> R) n, (forall p, In p sl -> (fst p < n)%nat) ->
  sumto (fun i => spread sl a f i * z i) n = sumto (fun i => f i * z i) n + a * tangent sl z.
Proof.
  induction sl as [|[j s] sl IH]; intros f n H.
  - cbn. lra.
  - cbn [tangent spread fold_left fst snd]. change (fold_left _ sl ?g) with (spread sl a g).
    rewrite IH by (intros p Hp; apply H; right; exact Hp).
    assert (Hj : (j < n)%nat) by exact (H (j, s) (or_introl eq_refl)).
    assert (E : sumto (fun i => (if Nat.eqb i j then f i + s * a else f i) * z i) n = sumto (fun i => f i * z i) n + s * a * z j); [|rewrite E; lra].
    clear -Hj. induction n as [|n IH]; [lia|]. cbn [sumto]. destruct (Nat.eqb_spec n j) as [->|N].
    + assert (Q : sumto (fun i => (if Nat.eqb i j then f i + s * a else f i) * z i) j = sumto (fun i => f i * z i) j); [|rewrite Q; lra].
      clear. assert (G : forall m, (m <= j)%nat -> sumto (fun i => (if Nat.eqb i j then f i + s * a else f i) * z i) m = sumto (fun i => f i * z i) m).
      { induction m as [|m IH]; intros Hm; [reflexivity|]. cbn [sumto]. rewrite IH by lia. destruct (Nat.eqb_spec m j); [lia|reflexivity]. }
      apply G. lia.
    + rewrite IH by lia. lra.
Qed.
Theorem chain_rule (w : list (list (nat * R))) (z : nat -> R) y : (y < length w)%nat ->
  (forall k p, In p (nth k w []) -> (fst p < k)%nat) ->
  (forall k, nth k w [] <> [] -> z k = tangent (nth k w []) z) ->
  z y = sumto (fun i => match nth i w [] with [] => slope_of w y i * z i | _ => 0 end) (length w).
Proof.
  intros HY HB HZ. set (n := length w) in *.
  set (part := fun k => fold_right (fun k f => spread (nth k w []) (f k) f) (unit_at y) (seq k (n - k))).
  assert (PS : forall k, (k < n)%nat -> part k = spread (nth k w []) (part (S k) k) (part (S k))).
  { intros k Hk. unfold part at 1. replace (n - k)%nat with (S (n - S k)) by lia. reflexivity. }
  assert (PK : forall k i, (k <= n)%nat -> (k <= i)%nat -> part k i = part 0%nat i).
  { induction k as [|k IH]; intros i Hk Hi; [reflexivity|]. rewrite <- IH by lia. rewrite (PS k) by lia.
    symmetry. apply spread_away. intros Q. apply in_map_iff in Q. destruct Q as (p & E & Hp). apply HB in Hp. lia. }
  set (leaf := fun i => match nth i w [] with [] => part 0%nat i * z i | _ => 0 end).
  assert (INV : forall m, (m <= n)%nat -> sumto (fun i => part (n - m)%nat i * z i) (n - m) + (sumto leaf n - sumto leaf (n - m)) = z y).
  { induction m as [|m IH]; intros Hm.
    - rewrite Nat.sub_0_r. unfold part. rewrite Nat.sub_diag. cbn [seq fold_right].
      assert (U : forall k, sumto (fun i => unit_at y i * z i) k = if Nat.ltb y k then z y else 0).
      { induction k as [|k IHk]; [reflexivity|]. cbn [sumto]. rewrite IHk. unfold unit_at.
        destruct (Nat.eqb_spec k y) as [E|N]; destruct (Nat.ltb_spec y k); destruct (Nat.ltb_spec y (S k)); try lia; rewrite ?E; lra. }
      rewrite U. destruct (Nat.ltb_spec y n); [lra|lia].
    - rewrite <- IH by lia. clear IH. set (k := (n - S m)%nat). replace (n - m)%nat with (S k) by (unfold k; lia).
      assert (Hk : (k < n)%nat) by (unfold k; lia). cbn [sumto]. rewrite (PS k Hk).
      rewrite dot_spread by (intros p Hp; exact (HB k p Hp)). assert (EL : leaf k = match nth k w [] with [] => part 0%nat k * z k | _ => 0 end) by reflexivity. rewrite EL. clear EL.
      destruct (nth k w []) as [|q sl] eqn:EW.
      + rewrite <- (PK k k) by lia. rewrite (PS k Hk), EW. cbn [spread fold_left tangent]. lra.
      + assert (EZ : z k = tangent (nth k w []) z) by (apply HZ; rewrite EW; discriminate). rewrite EW in EZ. rewrite <- EZ. lra. }
  specialize (INV n (le_n n)). rewrite Nat.sub_diag in INV. cbn [sumto] in INV. rewrite <- INV. rewrite Rplus_0_l, Rminus_0_r.
  unfold leaf, part, slope_of, accumulate. rewrite Nat.sub_0_r. reflexivity.
Qed.
