(* Vocabulary for procedures with array arguments, independent of the model. *)
From Coq Require Export Reals ZArith List.
From Coq Require Import Lra Lia.
From Coquelicot Require Export Coquelicot.
From Verif Require Export RSpec.
Import ListNotations.
Local Open Scope R_scope.

(* values of the variables xs (now ws) when variable x has value t; a variable
   may occur several times *)
Definition with_var (xs : list Z) (ws : list R) (x : Z) (t : R) : list R :=
  map (fun p => if Z.eqb (fst p) x then t else snd p) (combine xs ws).

(* sum of the coefficients cs standing at the places of xs where x occurs *)
Definition weight (xs : list Z) (cs : list R) (x : Z) : R :=
  rsum (map (fun p => if Z.eqb (fst p) x then snd p else 0) (combine xs cs)).

(* row i of an m-by-k and column j of a k-by-n matrix, stored by columns *)
Definition row {A} (d : A) (m k i : nat) (l : list A) : list A := map (fun c => nth (i + c * m) l d) (seq 0 k).
Definition col {A} (d : A) (k j : nat) (l : list A) : list A := map (fun r => nth (r + j * k) l d) (seq 0 k).

(* ---- facts ---- *)

Lemma weight_cons x0 xs c cs x : weight (x0 :: xs) (c :: cs) x = (if Z.eqb x0 x then c else 0) + weight xs cs x.
Proof. reflexivity. Qed.

Lemma weight_app xs ys cs ds x : length xs = length cs -> weight (xs ++ ys) (cs ++ ds) x = weight xs cs x + weight ys ds x.
Proof.
  revert cs. induction xs as [|x0 xs IH]; intros [|c cs] H; try discriminate H; cbn [app].
  - change (weight [] [] x) with 0. lra.
  - rewrite !weight_cons, IH by (cbn [length] in H; lia). lra.
Qed.

Lemma weight_rdot xs : forall cs x, length xs = length cs ->
  weight xs cs x = rdot cs (map (fun z => if Z.eqb z x then 1 else 0) xs).
Proof.
  induction xs as [|x0 xs IH]; intros [|c cs] x H; try discriminate H; [reflexivity|].
  rewrite weight_cons, IH by (cbn [length] in H; lia). cbn [map]. unfold rdot at 2. cbn [combine map rsum fold_right fst snd].
  fold (rsum (map (fun p => fst p * snd p) (combine cs (map (fun z => if Z.eqb z x then 1 else 0) xs)))).
  change (rsum (map (fun p => fst p * snd p) (combine cs (map (fun z => if Z.eqb z x then 1 else 0) xs)))) with
    (rdot cs (map (fun z => if Z.eqb z x then 1 else 0) xs)). destruct (Z.eqb x0 x); lra.
Qed.

(* with coefficients one: the number of occurrences *)
Lemma weight_ones xs x : weight xs (map (fun _ => 1) xs) x = INR (count_occ Z.eq_dec xs x).
Proof.
  induction xs as [|x0 xs IH]; [reflexivity|]. cbn [map]. rewrite weight_cons, IH. cbn [count_occ].
  destruct (Z.eq_dec x0 x) as [->|Hne].
  - rewrite Z.eqb_refl, S_INR. lra.
  - destruct (Z.eqb_spec x0 x); [congruence|]. lra.
Qed.

Lemma weight_none xs : forall cs x, ~ In x xs -> weight xs cs x = 0.
Proof.
  induction xs as [|x0 xs IH]; intros [|c cs] x H; try reflexivity. rewrite weight_cons, IH by (intros Hx; apply H; right; auto).
  destruct (Z.eqb_spec x0 x) as [->|]; [exfalso; apply H; left; auto|lra].
Qed.

(* distinct variables: the coefficient at the place of x *)
Lemma weight_nth xs : forall cs i x, NoDup xs -> nth_error xs i = Some x -> length xs = length cs -> weight xs cs x = nth i cs 0.
Proof.
  induction xs as [|x0 xs IH]; intros [|c cs] i x HN HI HL; try discriminate HL; [destruct i; discriminate|].
  inversion HN; subst. destruct i as [|i]; cbn [nth_error nth] in *.
  - assert (x0 = x) by congruence. subst. rewrite weight_cons, Z.eqb_refl, weight_none by auto. lra.
  - rewrite weight_cons. rewrite (IH cs i x) by (auto; cbn [length] in HL; lia).
    destruct (Z.eqb_spec x0 x) as [->|]; [|lra]. exfalso. apply H1. eapply nth_error_In; eauto.
Qed.

Lemma with_var_len xs ws x t : length xs = length ws -> length (with_var xs ws x t) = length xs.
Proof. intros H. unfold with_var. rewrite map_length, combine_length. lia. Qed.

Lemma with_var_app xs ys ws us x t : length xs = length ws ->
  with_var (xs ++ ys) (ws ++ us) x t = with_var xs ws x t ++ with_var ys us x t.
Proof.
  intros H. unfold with_var. revert ws H. induction xs as [|x0 xs IH]; intros [|w ws] H; try discriminate H; [reflexivity|].
  cbn [app combine map]. rewrite IH by (cbn [length] in H; lia). reflexivity.
Qed.

Lemma with_var_nth xs : forall ws x t i, length xs = length ws -> (i < length xs)%nat ->
  nth i (with_var xs ws x t) 0 = if Z.eqb (nth i xs 0%Z) x then t else nth i ws 0.
Proof.
  induction xs as [|x0 xs IH]; intros [|w ws] x t i H Hi; try discriminate H; cbn [length] in *; [lia|].
  destruct i as [|i]; cbn [with_var combine map nth fst snd]; [reflexivity|]. apply (IH ws x t i); lia.
Qed.

Lemma row_len {A} (d : A) m k i l : length (row d m k i l) = k.
Proof. unfold row. rewrite map_length, seq_length. reflexivity. Qed.
Lemma col_len {A} (d : A) k j l : length (col d k j l) = k.
Proof. unfold col. rewrite map_length, seq_length. reflexivity. Qed.

Lemma with_var_pick (f : nat -> nat) k xs ws x t : length xs = length ws -> (forall c, (c < k)%nat -> (f c < length xs)%nat) ->
  map (fun c => nth (f c) (with_var xs ws x t) 0) (seq 0 k) =
  with_var (map (fun c => nth (f c) xs 0%Z) (seq 0 k)) (map (fun c => nth (f c) ws 0) (seq 0 k)) x t.
Proof.
  intros HL Hf. unfold with_var at 2.
  assert (E : forall l, (forall c, In c l -> (f c < length xs)%nat) -> map (fun c => nth (f c) (with_var xs ws x t) 0) l =
    map (fun p => if Z.eqb (fst p) x then t else snd p) (combine (map (fun c => nth (f c) xs 0%Z) l) (map (fun c => nth (f c) ws 0) l))).
  { induction l as [|c l IH]; intros H; [reflexivity|]. cbn [map combine]. rewrite IH by (intros c' Hc; apply H; right; auto).
    cbn [fst snd]. rewrite with_var_nth by (auto; apply H; left; auto). reflexivity. }
  apply E. intros c Hc. apply in_seq in Hc. apply Hf. lia.
Qed.

Lemma with_var_row m k i xs ws x t : length xs = length ws -> length xs = (m * k)%nat -> (i < m)%nat ->
  row 0 m k i (with_var xs ws x t) = with_var (row 0%Z m k i xs) (row 0 m k i ws) x t.
Proof. intros HL HM Hi. apply with_var_pick; auto. intros c Hc. rewrite HM. nia. Qed.

Lemma with_var_col k n j xs ws x t : length xs = length ws -> length xs = (k * n)%nat -> (j < n)%nat ->
  col 0 k j (with_var xs ws x t) = with_var (col 0%Z k j xs) (col 0 k j ws) x t.
Proof. intros HL HM Hi. apply with_var_pick; auto. intros c Hc. rewrite HM. nia. Qed.

(* entry (i,j) of a product *)
Lemma mm_at m k n a b i j : (i < m)%nat -> (j < n)%nat ->
  nth (i + j * m) (mm_fun m k n a b) 0 = rdot (row 0 m k i a) (col 0 k j b).
Proof.
  intros Hi Hj. unfold mm_fun.
  set (f := fun j => map (fun i => rsum (map (fun l => nth (i + l * m) a 0 * nth (l + j * k) b 0) (seq 0 k))) (seq 0 m)).
  assert (LF : forall j, length (f j) = m) by (intros; unfold f; rewrite map_length, seq_length; auto).
  assert (E : forall l c, (c < length l)%nat -> nth (i + c * m) (flat_map f l) 0 = nth i (f (nth c l O)) 0).
  { induction l as [|a0 l IH]; intros c Hc; cbn [length] in Hc; [lia|]. cbn [flat_map].
    destruct c as [|c]; cbn [nth].
    - rewrite app_nth1 by (rewrite LF; lia). f_equal. lia.
    - rewrite app_nth2 by (rewrite LF; nia). rewrite LF. replace (i + S c * m - m)%nat with (i + c * m)%nat by nia. apply IH. lia. }
  rewrite E by (rewrite seq_length; auto). rewrite seq_nth by auto. unfold f.
  rewrite (nth_indep _ 0 (rsum (map (fun l => nth (O + l * m) a 0 * nth (l + (0 + j) * k) b 0) (seq 0 k)))) by (rewrite map_length, seq_length; auto).
  rewrite (map_nth (fun i => rsum (map (fun l => nth (i + l * m) a 0 * nth (l + (0 + j) * k) b 0) (seq 0 k))) (seq 0 m) O i).
  rewrite seq_nth by auto. cbn [plus]. unfold rdot, row, col. apply f_equal.
  clear LF E f. induction (seq 0 k) as [|c l IH]; [reflexivity|]. cbn [map combine fst snd]. rewrite IH. reflexivity.
Qed.
