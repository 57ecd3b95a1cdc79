(* C34: the eleventh level.  C13 in any arithmetic: what the steps of unused variables
   leave behind. *)
From Coq Require Import ZifyBool ZifyNat.
From Flocq Require Import IEEE754.BinarySingleNaN IEEE754.Binary IEEE754.Bits.
From Verif Require Import TapeFacts.
From Verif Require Export Claims_session Claims_reverse2 Claims_idle Findings UnusedSpec.
Import ListNotations.
Local Open Scope nat_scope.

Section Depth.
Context {N : Num} {RL : RepLaws N} {C : Cfg N}.

Theorem depth env0 s : practical -> reachable env0 s -> (0 <= s_lvl s <= 10)%Z /\
  ((s_lvl s < 10)%Z -> exists s', begin_nested s = Ok (tt, s')) /\
  (s_lvl s = 10%Z -> begin_nested s = Undef OutOfBounds /\
     (forall f xs, gradient f xs s = Undef OutOfBounds) /\ forall f xs, jacobian f xs s = Undef OutOfBounds).
Proof.
  intros HP HR. destruct (reach_valid env0 s HP HR) as [(g & R & HG) HH].
  assert (H0 : (0 <= s_lvl s <= 10)%Z).
  { rewrite (r_lvl s g R). pose proof (r_lvl10 s g R). unfold zlen. lia. }
  split; auto. split.
  - intros HL. destruct (begin_upto_ten env0 s HP HR HL) as (s' & E & _). eauto.
  - intros HL. assert (E : begin_nested s = Undef OutOfBounds).
    { unfold begin_nested, mput, nest_get. rewrite HL. reflexivity. }
    split; [exact E|]. split; intros f xs; unfold gradient, jacobian, mbind at 1; rewrite E; reflexivity.
Qed.
End Depth.

Section Unused.
Context {N : Num}.

Lemma add_away (l : list (nat * F)) : forall (f : nat -> F) i, ~ In i (map fst l) -> fold_left add_to l f i = f i.
Proof.
  induction l as [|[j c] l IH]; intros f i H; [reflexivity|]. cbn [fold_left]. cbn [map fst In] in H.
  rewrite IH by tauto. unfold add_to. cbn [fst snd]. destruct (Nat.eqb_spec i j); [subst; tauto|reflexivity].
Qed.

Lemma add_zero (l : list (nat * F)) : Forall (fun p => fadd f0 (snd p) = f0) l -> forall (f : nat -> F) i, f i = f0 -> fold_left add_to l f i = f0.
Proof.
  induction 1 as [|[j c] l H _ IH]; intros f i Hi; [exact Hi|]. cbn [fold_left]. apply IH.
  unfold add_to. cbn [fst snd] in *. destruct (Nat.eqb i j); [rewrite Hi; exact H|exact Hi].
Qed.

Lemma unused_stays (t : list line) u : upward t u -> silent t u -> forall n (f : nat -> F),
  (forall i, u i = false -> f i = f0) -> n <= length t ->
  forall i, u i = false -> fold_right (back t) f (seq (length t - n) n) i = f0.
Proof.
  intros HC HS. induction n as [|n IH]; intros f HF Hn i Hi; [exact (HF i Hi)|].
  replace (seq (length t - S n) (S n)) with ((length t - S n) :: seq (length t - n) n)
    by (cbn [seq]; do 2 f_equal; lia).
  cbn [fold_right]. unfold back at 1. set (k := length t - S n). set (h := fold_right (back t) f (seq (length t - n) n)).
  assert (HF1 : forall i, u i = false -> h i = f0) by (intros j Hj; apply IH; auto; lia).
  destruct (nth_error t k) as [l|] eqn:El; [|apply nth_error_None in El; lia].
  rewrite (nth_error_nth t k (given f0) El). destruct (u k) eqn:Eu.
  - rewrite add_away; [auto|]. intros Hin. rewrite (HC k l (h k) i Eu El Hin) in Hi. discriminate.
  - rewrite (HF1 k Eu). apply add_zero; [exact (HS k l Eu El)|auto].
Qed.

Lemma unused_line (t : list line) u y i : u y = true -> upward t u -> silent t u -> u i = false -> reverse t (seed y) i = f0.
Proof.
  intros HY HC HS Hi. unfold reverse. replace 0 with (length t - length t) at 1 by lia.
  apply (unused_stays t u); auto. intros j Hj. unfold seed. destruct (Nat.eqb_spec j y); [congruence|reflexivity].
Qed.
End Unused.

Section Calls.
Context {N : Num} {RL : RepLaws N} {C : Cfg N}.
Theorem unused_gradient env0 s env (ws xs : list F) (f : fn) y ys t u :
  practical -> reachable env0 s -> (s_lvl s < 10)%Z -> Forall (alive s) env -> mapM (var_val s) env = Ok ws ->
  let t0 := map given (ws ++ xs) in let rs := seq 0 (length ws + length xs) in let w := (6 * zlen xs + cost f rs t0)%Z in
  well_formed f rs t0 -> roomy s w -> ~ exactly_full s w -> trace f rs t0 = Some (y :: ys, t) ->
  u y = true -> upward t u -> silent t u ->
  exists v ds s', gradient (fun xv => call_fn1 f (env ++ xv)) xs s = Ok (v :: ds, s') /\ length ds = length xs /\
    forall i, i < length xs -> u (length ws + i) = false -> nth_error ds i = Some f0.
Proof.
  intros HP HR HL HA HV t0 rs w HW HM HE HT HY HC HS.
  destruct (gradient_reverse s env ws xs f y ys t HP (reach_snd env0 s HP HR) HL HA HV HW HM HE HT) as (s' & E).
  eexists. eexists. exists s'. split; [exact E|]. split; [rewrite map_length, seq_length; reflexivity|].
  intros i Hi Hu. rewrite nth_error_map. rewrite (nth_error_nth' (seq (length ws) (length xs)) 0) by (rewrite seq_length; lia).
  rewrite seq_nth by lia. cbn [option_map]. f_equal. exact (unused_line t u y _ HY HC HS Hu).
Qed.
End Calls.

(* C13 in binary64: x*x overflows, the unused square of it has an infinite partial *)
Definition big600 : binary64 := b64_of_bits (1623 * 2 ^ 52).
Lemma unused_nan (L : Libm) :
  let r := seen L [COp (@OVar (B64 L) big600); COp (OVV BMul 0 0); COp (OVV BMul 1 1); COp (@OVar (B64 L) B64.c1); CGrad 3; CAdj 0] in
  length r = 1 /\ all_nan r = true.
Proof. vm_compute. split; reflexivity. Qed.
