(* C51, C52.
   Vocabulary (beyond that of Properties_deriv).
   BranchSpec.v: [fn], user functions made of library calls, tests and returned
   registers; [call_fn f env] runs one, [call_fn1] keeps the first result; [fval f ws] its results on plain
   numbers; [fdom f ws]: on the way taken from ws every call is inside its domain and
   no test compares equal numbers; [fregs f ws]: only existing registers are named;
   [fwords f ws]: tape words taken on that way; [exactly_full s w]: w more words fill
   the storage to its last word.
   CostSpec.v: [words o xs], [created o xs]: tape words and variables a call takes;
   [storage size head size']: how the storage grows. *)
From Coq Require Import ZifyBool ZifyNat.
From Flocq Require Import IEEE754.BinarySingleNaN IEEE754.Binary IEEE754.Bits.
From Verif Require Import TapeFacts.
From Verif Require Export Claims_run Properties_deriv.
Local Open Scope R_scope.

(* ---- C51 ---- *)
(* gradient of a function with branches: it returns, with the value and the partial
   derivatives of the whole function *)
Theorem C51_gradient {lg : R -> R} {C : Cfg (RNum lg)} env0 (s : @st (RNum lg)) env (ws xs : list R) (f : @fn (RNum lg)) :
  @practical (RNum lg) C -> reachable env0 s -> (s_lvl s < 10)%Z -> Forall (alive s) env -> mapM (var_val s) env = Ok ws ->
  fdom f (ws ++ xs) -> fregs f (ws ++ xs) -> fval f (ws ++ xs) <> [] ->
  roomy s (6 * zlen xs + fwords f (ws ++ xs)) -> ~ exactly_full s (6 * zlen xs + fwords f (ws ++ xs)) ->
  exists v ds s', gradient (fun xv => call_fn1 f (env ++ xv)) (xs : list (@F (RNum lg))) s = Ok (v :: ds, s') /\
    nth_error (fval f (ws ++ xs)) 0 = Some v /\ length ds = length xs /\
    forall i, (i < length xs)%nat ->
      is_derive (fun t => nth 0 (fval f (ws ++ hold i t 0 xs)) 0) (nth i xs 0) (nth i ds 0).
Proof. exact (fun HP HR => gradient_complete s env ws xs f HP (reach_sound env0 s HP HR)). Qed.
Print Assumptions C51_gradient.
Theorem C51_jacobian {lg : R -> R} {C : Cfg (RNum lg)} env0 (s : @st (RNum lg)) env (ws xs : list R) (f : @fn (RNum lg)) :
  @practical (RNum lg) C -> reachable env0 s -> (s_lvl s < 10)%Z -> Forall (alive s) env -> mapM (var_val s) env = Ok ws ->
  fdom f (ws ++ xs) -> fregs f (ws ++ xs) -> fval f (ws ++ xs) <> [] ->
  roomy s (6 * zlen xs + fwords f (ws ++ xs)) -> ~ exactly_full s (6 * zlen xs + fwords f (ws ++ xs)) ->
  exists r s', jacobian (fun xv => call_fn f (env ++ xv)) (xs : list (@F (RNum lg))) s = Ok (r, s') /\
    length r = length (fval f (ws ++ xs)) /\
    forall a v, nth_error (fval f (ws ++ xs)) a = Some v ->
      exists ds, nth_error r a = Some (v :: ds) /\ length ds = length xs /\
        forall i, (i < length xs)%nat ->
          is_derive (fun t => nth a (fval f (ws ++ hold i t 0 xs)) 0) (nth i xs 0) (nth i ds 0).
Proof. exact (fun HP HR => jacobian_complete s env ws xs f HP (reach_sound env0 s HP HR)). Qed.
Print Assumptions C51_jacobian.
(* the only storage on which they do not return: one filled to its last word (C35) *)
Theorem C51_full {lg : R -> R} {C : Cfg (RNum lg)} env0 (s : @st (RNum lg)) env (ws xs : list R) (f : @fn (RNum lg)) :
  @practical (RNum lg) C -> reachable env0 s -> (s_lvl s < 10)%Z -> Forall (alive s) env -> mapM (var_val s) env = Ok ws ->
  fdom f (ws ++ xs) -> fregs f (ws ++ xs) -> fval f (ws ++ xs) <> [] ->
  roomy s (6 * zlen xs + fwords f (ws ++ xs)) -> exactly_full s (6 * zlen xs + fwords f (ws ++ xs)) ->
  gradient (fun xv => call_fn1 f (env ++ xv)) (xs : list (@F (RNum lg))) s = Undef OutOfBounds /\
  jacobian (fun xv => call_fn f (env ++ xv)) (xs : list (@F (RNum lg))) s = Undef OutOfBounds.
Proof.
  exact (fun HP HR HL HA HW HD HG HY HM HE =>
    conj (proj1 (gradient_runs s env ws xs f HP (reach_sound env0 s HP HR) HL HA HW HD HG HY HM) HE)
         (proj1 (jacobian_runs s env ws xs f HP (reach_sound env0 s HP HR) HL HA HW HD HG HY HM) HE)).
Qed.
Print Assumptions C51_full.
(* f(x,y) = if x < y then x*y else if y >= 1 then sin(x) else y *)
Definition bf : @fn RN :=
  FTest RLt 0 1 (fun b => if b then FCall (OVV BMul 0 1) (FRet (2 :: nil)%nat)
    else @FTestC RN RGe 1 (1 : R) (fun c => if c then FCall (OUn USin 0) (FRet (2 :: nil)%nat) else FRet (1 :: nil)%nat)).
Example C51_ex : exists s', @gradient RN DM (fun xv => @call_fn1 RN DM bf xv) (2 :: 3 :: nil) rs = Ok (2 * 3 :: 3 :: 2 :: nil, s').
Proof.
  assert (H : holds RLt 2 3 = true) by (cbn; destruct (Rlt_dec 2 3); [auto|lra]).
  assert (EW : fwords bf (2 :: 3 :: nil) = 8%Z) by (cbn [bf fwords nth]; rewrite H; reflexivity).
  assert (EV : fval bf (2 :: 3 :: nil) = 2 * 3 :: nil) by (cbn [bf fval nth]; rewrite H; reflexivity).
  destruct (C51_gradient (lg := lg0) (C := DM) _ rs nil nil (2 :: 3 :: nil) bf (demo_practical _) rs_reach) as (v & ds & s' & E & Ev & Ld & D).
  - vm_compute; reflexivity.
  - constructor.
  - reflexivity.
  - cbn [bf fdom nth app]. rewrite H. split; [lra|]. cbn. auto.
  - cbn [bf fregs nth app length]. rewrite H. cbn. repeat constructor; lia.
  - cbn [app]. rewrite EV. discriminate.
  - cbn [app]. rewrite EW. apply rs_roomy. unfold zlen. cbn. lia.
  - cbn [app]. rewrite EW. unfold exactly_full, storage. intros [A _].
    replace (t_head (s_tape rs)) with 27%Z in A by (vm_compute; reflexivity).
    assert (ES : (t_size (s_tape rs) = 48)%Z) by (vm_compute; reflexivity).
    rewrite ES in A. unfold zlen in A. cbn in A. specialize (A ltac:(lia)). lia.
  - cbn [app] in *. rewrite EV in Ev. cbn [nth_error] in Ev. assert (Hv : v = 2 * 3) by congruence. clear Ev.
    destruct ds as [|d1 [|d2 [|d3 ds]]]; try discriminate Ld. exists s'. etransitivity; [exact E|]. clear E.
    pose proof (D 0%nat ltac:(cbn; lia)) as D1. pose proof (D 1%nat ltac:(cbn; lia)) as D2. cbn [nth] in D1, D2.
    assert (X1 : is_derive (fun t => nth 0 (fval bf (hold 0 t 0 (2 :: 3 :: nil))) 0) 2 3).
    { apply is_derive_ext_loc with (f := fun t => t * 3); [|auto_derive; [exact Logic.I|ring]].
      eapply filter_imp; [|apply (open_lt 3 2); lra]. cbv beta. intros t Ht. cbn [hold combine seq map length fst snd Nat.eqb bf fval nth].
      assert (Ht' : holds RLt t 3 = true) by (cbn; destruct (Rlt_dec t 3); [auto|lra]). rewrite Ht'. reflexivity. }
    assert (X2 : is_derive (fun t => nth 0 (fval bf (hold 1 t 0 (2 :: 3 :: nil))) 0) 3 2).
    { apply is_derive_ext_loc with (f := fun t => 2 * t); [|auto_derive; [exact Logic.I|ring]].
      eapply filter_imp; [|apply (open_gt 2 3); lra]. cbv beta. intros t Ht. cbn [hold combine seq map length fst snd Nat.eqb bf fval nth].
      assert (Ht' : holds RLt 2 t = true) by (cbn; destruct (Rlt_dec 2 t); [auto|lra]). rewrite Ht'. reflexivity. }
    apply is_derive_unique in D1, D2, X1, X2. assert (H1 : d1 = 3) by (etransitivity; [symmetry; exact D1|exact X1]).
    assert (H2 : d2 = 2) by (etransitivity; [symmetry; exact D2|exact X2]). rewrite Hv, H1, H2. reflexivity.
Qed.
(* x * x * x fills the storage of rs *)
Example C51_full_ex : @exactly_full RN DM rs (6 * 1 + 16) /\
  ends (@gradient RN DM (fun xv => @call_fn1 RN DM (FCall (OVV BMul 0 0) (FCall (OVV BMul 1 0) (FRet (2 :: nil)%nat))) xv) (2 :: nil) rs) = Undefined OutOfBounds.
Proof.
  split; [|vm_compute; reflexivity]. unfold exactly_full, storage.
  replace (t_head (s_tape rs)) with 27%Z by (vm_compute; reflexivity).
  replace (t_size (s_tape rs)) with 48%Z by (vm_compute; reflexivity). split; intros; [reflexivity|exfalso; lia].
Qed.
(* whenever they return, on any storage *)
Theorem C51_gradient_if {lg : R -> R} {C : Cfg (RNum lg)} env0 (s : @st (RNum lg)) env (ws xs : list R) (f : @fn (RNum lg)) r s' :
  @practical (RNum lg) C -> reachable env0 s -> Forall (alive s) env -> mapM (var_val s) env = Ok ws -> fdom f (ws ++ xs) ->
  gradient (fun xv => call_fn1 f (env ++ xv)) (xs : list (@F (RNum lg))) s = Ok (r, s') ->
  exists v ds, r = v :: ds /\ nth_error (fval f (ws ++ xs)) 0 = Some v /\ length ds = length xs /\
    forall i, (i < length xs)%nat ->
      is_derive (fun t => nth 0 (fval f (ws ++ hold i t 0 xs)) 0) (nth i xs 0) (nth i ds 0).
Proof. exact (fun HP HR => gradient_branch s env ws xs f r s' HP (reach_sound env0 s HP HR)). Qed.
Print Assumptions C51_gradient_if.
Theorem C51_jacobian_if {lg : R -> R} {C : Cfg (RNum lg)} env0 (s : @st (RNum lg)) env (ws xs : list R) (f : @fn (RNum lg)) r s' :
  @practical (RNum lg) C -> reachable env0 s -> Forall (alive s) env -> mapM (var_val s) env = Ok ws -> fdom f (ws ++ xs) ->
  jacobian (fun xv => call_fn f (env ++ xv)) (xs : list (@F (RNum lg))) s = Ok (r, s') ->
  length r = length (fval f (ws ++ xs)) /\
  forall a v, nth_error (fval f (ws ++ xs)) a = Some v ->
    exists ds, nth_error r a = Some (v :: ds) /\ length ds = length xs /\
      forall i, (i < length xs)%nat ->
        is_derive (fun t => nth a (fval f (ws ++ hold i t 0 xs)) 0) (nth i xs 0) (nth i ds 0).
Proof. exact (fun HP HR => jacobian_branch s env ws xs f r s' HP (reach_sound env0 s HP HR)). Qed.
Print Assumptions C51_jacobian_if.

(* ---- C52 ---- *)
Theorem C52_cost {N : Num} {RL : RepLaws N} {C : Cfg N} env0 s env o hs s' args xs :
  practical -> reachable env0 s -> Forall (alive s) env -> op_shape o -> neutral o = false -> exec_op env o s = Ok (hs, s') ->
  Forall2 (fun r h => nth_error env r = Some h) (op_regs o) args -> mapM (var_val s) args = Ok xs ->
  t_head (s_tape s') = (t_head (s_tape s) + words o xs)%Z /\ s_head s' = (s_head s + created o xs)%Z /\
  storage (t_size (s_tape s)) (t_head (s_tape s')) (t_size (s_tape s')).
Proof. exact (fun HP HR => call_cost s env o hs s' args xs HP (reach_snd env0 s HP HR)). Qed.
Print Assumptions C52_cost.
Section Ex52.
Context (L : Libm).
Local Notation BN := (B64 L).
Local Notation BM := (demo (B64 L)).
(* after x = 3 and y = -3: the product of (x y; y x) with the column (x, y), and |y| *)
Definition bwork52 : list (@cmd BN) := [COp (@OVar BN c3); COp (@OVar BN cm3)].
Example C52_ex : @reachable BN BM [1; 2]%Z (@state_of BN BM bwork52) /\
  @op_shape BN (OMatVV 2 2 1 [0; 1; 1; 0]%nat [0; 1]%nat) /\
  (match @exec_op BN BM [1; 2]%Z (OMatVV 2 2 1 [0; 1; 1; 0]%nat [0; 1]%nat) (@state_of BN BM bwork52) with
   | Ok (hs, s') => (hs, s_head s', t_head (s_tape s')) | _ => (nil, 0, 0)%Z end = ([3; 4], 5, 43))%Z /\
  (t_head (s_tape (@state_of BN BM bwork52)) = 13)%Z /\
  (@words BN (OMatVV 2 2 1 [0; 1; 1; 0]%nat [0; 1]%nat) [c3; cm3; cm3; c3; c3; cm3] = 30)%Z /\
  (@words BN (OUn UAbs 1) [cm3] = 7)%Z /\ (@words BN (OUn UAbs 0) [c3] = 0)%Z.
Proof.
  split; [exact (@runs_reach BN BM bwork52 ltac:(repeat constructor) ltac:(vm_compute; reflexivity))|].
  split; [cbn; unfold max_int; repeat split; lia|]. repeat split; vm_compute; reflexivity.
Qed.
End Ex52.
