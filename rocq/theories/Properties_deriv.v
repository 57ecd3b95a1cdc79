(* C08, C09, C12-C15, C17, C18, C20-C23, C26, C29, C37-C40: derivatives, in exact
   real arithmetic ([RNum lg]; lg stands for log_gamma and is arbitrary).
   Vocabulary.
   RSpec.v: the functions the calls denote ([un_fun], [bin_fun], [denote]), their
   domains ([un_dom], [vv_dom], [vd_dom], [dv_dom], [prog_dom]), plain evaluation
   of a sequence of calls ([eval]) and evaluation with register x held at t
   ([eval_with], [hold]).  ArrSpec.v: [row], [col], [weight xs cs x] (sum of the
   coefficients cs standing where xs has x).
   [is_derive f v d]: f is differentiable at v with derivative d (Coquelicot).
   [reachable], [alive], [practical], [roomy s n] (the tape stays below 2^30 words
   when n more are used): as in Properties_storage.
   [passes s s' h x d] (Claims_each.v): h is the result of a call made in s, s'
   the state after it; whatever adjoint a the variable h has, its step in the
   gradient pass adds a*d to the adjoint of x and changes no value; when the call
   returned an existing variable h, d is 1 for h itself and 0 for others.
   [leaves xs]: one var(d) per element of xs. *)
From Coq Require Import ZifyBool ZifyNat.
From Flocq Require Import IEEE754.BinarySingleNaN IEEE754.Binary IEEE754.Bits.
From Verif Require Import TapeFacts.
From Verif Require Export Findings Claims_real Claims_abs.
Local Open Scope R_scope.

(* a program in progress, used by the examples: three variables 2, 3, 2*3 after a
   gradient pass and a nested block, then a variable 1/2 in a recycled slot *)
Definition lg0 : R -> R := fun _ => 0.
Notation RN := (RNum lg0).
Notation DM := (demo (RNum lg0)).
Definition work : list (@cmd RN) :=
  [COp (@OVar RN 2); COp (@OVar RN 3); COp (OVV BMul 0 1); CGrad 2; CBegin; COp (OUn USin 2); CGradNested 3; CEnd; COp (@OVar RN (/ 2))].
Definition rs : @st RN := @state_of RN DM work.
Example rs_reach : @reachable RN DM [1; 2; 3; 4; 4]%Z rs.
Proof. exact (@runs_reach RN DM work ltac:(repeat constructor) ltac:(vm_compute; reflexivity)). Qed.
Example rs_vals : mapM (@var_val RN rs) [1; 2; 3; 4]%Z = Ok [2; 3; 2 * 3; / 2].
Proof. vm_compute. reflexivity. Qed.
Example rs_alive : Forall (alive rs) [1; 2; 3; 4]%Z.
Proof. repeat constructor; vm_compute; try reflexivity; discriminate. Qed.
Example rs_roomy n : (n <= 1000)%Z -> roomy rs n.
Proof. intros H. split; [vm_compute; reflexivity|]. assert (E : t_head (s_tape rs) = 27%Z) by (vm_compute; reflexivity). rewrite E. lia. Qed.
Definition pr : @practical RN DM := demo_practical RN.

(* ---- C08 ---- *)
(* independent variables with values xs, then the calls q, which may also use
   older variables env with values ws *)
Theorem C08_gradient {lg : R -> R} {C : Cfg (RNum lg)} env0 (s : @st (RNum lg)) env ws xs (q : list (@op (RNum lg))) :
  @practical (RNum lg) C -> reachable env0 s -> Forall (alive s) env -> mapM (var_val s) env = Ok ws ->
  prog_dom q (ws ++ xs) -> regs_in q (length env + length xs) -> roomy s (6 * zlen xs + prog_words q) ->
  exists env' s' s1, exec (leaves xs ++ q) env s = Ok (env', s') /\ set_zero_all_adj s' = Ok (tt, s1) /\
    mapM (var_val s') env' = Ok (eval q (ws ++ xs)) /\
    forall y hy, nth_error env' y = Some hy ->
    exists s2, grad hy s1 = Ok (tt, s2) /\
    forall x, (x < length xs)%nat -> exists h d, nth_error env' (length env + x) = Some h /\ var_adj s2 h = Ok d /\
      is_derive (fun t => nth y (eval q (ws ++ hold x t 0 xs)) 0) (nth x xs 0) d.
Proof. exact (real_leaf env0 s env ws xs q). Qed.
Print Assumptions C08_gradient.
(* u = var(5), w = sin(u) * v3, z = w / u + w, with the variable v3 above *)
Definition prog2 : list (@op RN) := [OUn USin 1; OVV BMul 2 0; OVV BDiv 3 1; OVV BAdd 4 3].
Example C08_ex : @prog_dom lg0 prog2 (2 * 3 :: 5 :: nil) /\ regs_in prog2 2 /\ roomy rs (6 + prog_words prog2) /\
  Forall (alive rs) (cons 3%Z nil) /\
  forall x, (fun t => nth 5 (@eval lg0 prog2 (app (cons (2 * 3) nil) (hold 0 t 0 (cons x nil)))) 0) =
            (fun t => sin t * (2 * 3) / t + sin t * (2 * 3)).
Proof.
  split; [|split; [|split; [|split]]].
  - cbn [prog2 prog_dom op_dom op_regs at_regs map nth denote un_dom vv_dom app op_shape neutral]. repeat split. lra.
  - cbn [prog2 regs_in op_regs op_results]. repeat split; repeat constructor.
  - apply rs_roomy. vm_compute. discriminate.
  - constructor; [|constructor]. vm_compute. split; [discriminate|reflexivity].
  - reflexivity.
Qed.

(* ---- C09 ---- *)
(* x is the register of a variable the calls created (not an older one returned
   again); the derivative holds the variables created before it fixed *)
Theorem C09_intermediate {lg : R -> R} {C : Cfg (RNum lg)} env0 (s : @st (RNum lg)) env ws (p : list (@op (RNum lg))) :
  @practical (RNum lg) C -> reachable env0 s -> Forall (alive s) env -> mapM (var_val s) env = Ok ws ->
  prog_dom p ws -> regs_in p (length env) -> roomy s (prog_words p) ->
  exists env' s' s1, exec p env s = Ok (env', s') /\ set_zero_all_adj s' = Ok (tt, s1) /\
    mapM (var_val s') env' = Ok (eval p ws) /\
    forall y hy, nth_error env' y = Some hy -> exists s2, grad hy s1 = Ok (tt, s2) /\
    forall x h, nth_error env' x = Some h -> ~ alive s h -> (forall r, (r < x)%nat -> nth_error env' r <> Some h) ->
      exists t0 d, var_val s' h = Ok t0 /\ var_adj s2 h = Ok d /\ is_derive (fun t => nth y (eval_with x t p ws) 0) t0 d.
Proof. exact (real_any env0 s env ws p). Qed.
Print Assumptions C09_intermediate.
Definition prog3 : list (@op RN) := [OUn USin 0; OVV BMul 1 0; OVV BAdd 2 1].
Example C09_ex : @prog_dom lg0 prog3 (cons 2 nil) /\ regs_in prog3 1 /\ roomy rs (prog_words prog3) /\
  (* the last result as a function of the first one *)
  (fun t => nth 3 (@eval_with lg0 1 t prog3 (cons 2 nil)) 0) = (fun t => t * 2 + t).
Proof.
  split; [|split; [|split]]; [cbn; repeat split; auto|cbn; repeat constructor|apply rs_roomy; vm_compute; discriminate|reflexivity].
Qed.

(* ---- C12 ---- *)
(* hs: the variables grad was called on before, without a reset.  a: adjoints
   before the last call; D z: derivative of z with respect to h; the sum is over
   all variables created by the program. *)
Theorem C12_superposition {lg : R -> R} {C : Cfg (RNum lg)} env0 (s : @st (RNum lg)) env ws (p : list (@op (RNum lg))) env' s' x h hs hy s1 :
  @practical (RNum lg) C -> reachable env0 s ->
  Forall (alive s) env -> mapM (var_val s) env = Ok ws -> prog_dom p ws -> exec p env s = Ok (env', s') ->
  nth_error env' x = Some h -> ~ alive s h -> (forall r, (r < x)%nat -> nth_error env' r <> Some h) ->
  Forall (alive s') hs -> grads hs s' = Ok (tt, s1) -> In hy env' ->
  exists s2 t0 (a D : Z -> R), grad hy s1 = Ok (tt, s2) /\ var_val s' h = Ok t0 /\
    (forall z, alive s' z -> var_adj s1 z = Ok (a z)) /\
    (forall r z, nth_error env' r = Some z -> is_derive (fun t => nth r (eval_with x t p ws) 0) t0 (D z)) /\
    (forall z, In z (handle_range (s_head s) (s_head s')) -> In z env') /\
    var_adj s2 h = Ok (rsum (map (fun z => (if Z.eqb z hy then 1 else a z) * D z) (handle_range (s_head s) (s_head s')))).
Proof. exact (fun HP HR => grad_superposes s env ws p env' s' x h hs hy s1 HP (reach_sound env0 s HP HR)). Qed.
Print Assumptions C12_superposition.
Example C12_ex : @prog_dom lg0 prog3 (cons 2 nil) /\
  exists s' s1, @exec RN DM prog3 (cons 1%Z nil) rs = Ok ([1; 5; 6; 7]%Z, s') /\ s_head rs = 5%Z /\
    @grads RN DM [7; 6]%Z s' = Ok (tt, s1) /\ Forall (alive s') [7; 6]%Z.
Proof.
  split; [cbn; repeat split; auto|]. eexists. eexists. split; [vm_compute; reflexivity|]. split; [reflexivity|].
  split; [vm_compute; reflexivity|]. repeat constructor; vm_compute; try reflexivity; discriminate.
Qed.

(* ---- C13 ---- *)
(* [uses x p]: which registers are, or are computed from, register x *)
Theorem C13_unused {lg : R -> R} {C : Cfg (RNum lg)} env0 (s : @st (RNum lg)) env (p : list (@op (RNum lg))) env' s' x h y hy :
  @practical (RNum lg) C -> reachable env0 s ->
  Forall (alive s) env -> prog_ok' p -> exec p env s = Ok (env', s') ->
  nth_error env' x = Some h -> ~ alive s h -> (forall r, (r < x)%nat -> nth_error env' r <> Some h) ->
  nth_error env' y = Some hy -> nth y (uses x p (repeat false (length env))) true = false ->
  exists s1 s2, set_zero_all_adj s' = Ok (tt, s1) /\ grad hy s1 = Ok (tt, s2) /\ var_adj s2 h = Ok 0.
Proof. exact (fun HP HR => unused_zero s env p env' s' x h y hy HP (reach_sound env0 s HP HR)). Qed.
Print Assumptions C13_unused.
Theorem C13_older {lg : R -> R} {C : Cfg (RNum lg)} env0 (s : @st (RNum lg)) (p : list (@op (RNum lg))) env' s' h hy :
  @practical (RNum lg) C -> reachable env0 s ->
  prog_ok' p -> exec p [] s = Ok (env', s') -> alive s h -> In hy env' ->
  exists s1 s2, set_zero_all_adj s' = Ok (tt, s1) /\ grad hy s1 = Ok (tt, s2) /\ var_adj s2 h = Ok 0.
Proof. exact (fun HP HR => unread_zero s p env' s' h hy HP (reach_sound env0 s HP HR)). Qed.
Print Assumptions C13_older.
Example C13_ex : prog_ok' prog3 /\ (exists s', @exec RN DM (prog3 ++ (OUn UExp 0 :: nil)) (cons 1%Z nil) rs = Ok ([1; 5; 6; 7; 8]%Z, s')) /\
  nth 4 (uses 1 (prog3 ++ (OUn UExp 0 :: nil)) (repeat false 1)) true = false.
Proof.
  split; [repeat constructor; cbn; auto|]. split; [eexists; vm_compute; reflexivity|reflexivity].
Qed.

(* ---- C14 ---- *)
(* inv_logit below log(tiny), where the library returns exp(x): C14_inv_logit in
   Properties_more; log_gamma is C32 and inv_square C19. *)
Theorem C14_unary {lg : R -> R} {C : Cfg (RNum lg)} env0 (s : @st (RNum lg)) u x (v : R) :
  @practical (RNum lg) C -> reachable env0 s -> alive s x -> var_val s x = Ok v -> un_dom u v -> roomy s 7 ->
  exists h s' d, un_v u x s = Ok (h, s') /\ var_val s' h = Ok (@un_fun lg u v) /\ is_derive (@un_fun lg u) v d /\
    passes s s' h x d /\ forall z, alive s z -> z <> x -> passes s s' h z 0.
Proof. exact (fun HP HR => each_un s u x v HP (reach_sound env0 s HP HR)). Qed.
Print Assumptions C14_unary.
(* x = var(v); y = f(x); y%grad(): x%adj() is f'(v) *)
Theorem C14_grad {lg : R -> R} {C : Cfg (RNum lg)} env0 (s : @st (RNum lg)) u (v : R) :
  @practical (RNum lg) C -> reachable env0 s -> un_dom u v -> roomy s 13 ->
  exists x s1 h s2 s3 s4 d, new_var_val (v : @F (RNum lg)) s = Ok (x, s1) /\ un_v u x s1 = Ok (h, s2) /\
    set_zero_all_adj s2 = Ok (tt, s3) /\ grad h s3 = Ok (tt, s4) /\
    var_val s2 h = Ok (@un_fun lg u v) /\ var_adj s4 x = Ok d /\ is_derive (@un_fun lg u) v d.
Proof. exact (real_un env0 s u v). Qed.
Print Assumptions C14_grad.
Example C14_ex : alive rs 4 /\ @var_val RN rs 4 = Ok (/ 2) /\ roomy rs 13 /\
  un_dom UAsin (/ 2) /\ un_dom UAtanh (/ 2) /\ un_dom ULogit (/ 2) /\ un_dom UAcosh 2 /\ un_dom UTan 0.
Proof.
  split; [split; vm_compute; [discriminate|reflexivity]|]. split; [vm_compute; reflexivity|].
  split; [apply rs_roomy; lia|]. cbn [un_dom]. rewrite cos_0. repeat split; lra.
Qed.

(* ---- C15, C17 ---- *)
(* Missing from the full claims, and false: the neutral constants (C16_refuted,
   left out by [neutral]) and the exponent -2 (C19, left out by [vd_dom]). *)
Theorem C15_var_var {lg : R -> R} {C : Cfg (RNum lg)} env0 (s : @st (RNum lg)) b x y (v w : R) :
  @practical (RNum lg) C -> reachable env0 s -> alive s x -> alive s y ->
  var_val s x = Ok v -> var_val s y = Ok w -> vv_dom b v w -> roomy s 8 ->
  exists h s', bin_vv b x y s = Ok (h, s') /\ var_val s' h = Ok (bin_fun b v w) /\
    (x <> y -> exists d e, is_derive (fun t => bin_fun b t w) v d /\ is_derive (fun t => bin_fun b v t) w e /\
       passes s s' h x d /\ passes s s' h y e) /\
    (x = y -> exists d, is_derive (fun t => bin_fun b t t) v d /\ passes s s' h x d) /\
    forall z, alive s z -> z <> x -> z <> y -> passes s s' h z 0.
Proof. exact (fun HP HR => each_vv s b x y v w HP (reach_sound env0 s HP HR)). Qed.
Print Assumptions C15_var_var.
Theorem C15_var_real_partial {lg : R -> R} {C : Cfg (RNum lg)} env0 (s : @st (RNum lg)) b x (c v : R) :
  @practical (RNum lg) C -> reachable env0 s -> alive s x -> var_val s x = Ok v ->
  vd_dom b v c -> @neutral (RNum lg) (@OVD (RNum lg) b 0 c) = false -> roomy s 9 ->
  exists h s' d, bin_vd b x (c : @F (RNum lg)) s = Ok (h, s') /\ var_val s' h = Ok (bin_fun b v c) /\
    is_derive (fun t => bin_fun b t c) v d /\ passes s s' h x d /\
    forall z, alive s z -> z <> x -> passes s s' h z 0.
Proof. exact (fun HP HR => each_vd s b x c v HP (reach_sound env0 s HP HR)). Qed.
Print Assumptions C15_var_real_partial.
Theorem C15_real_var_partial {lg : R -> R} {C : Cfg (RNum lg)} env0 (s : @st (RNum lg)) b (c : R) x (v : R) :
  @practical (RNum lg) C -> reachable env0 s -> alive s x -> var_val s x = Ok v ->
  dv_dom b c v -> @neutral (RNum lg) (@ODV (RNum lg) b c 0) = false -> roomy s 9 ->
  exists h s' d, bin_dv b (c : @F (RNum lg)) x s = Ok (h, s') /\ var_val s' h = Ok (bin_fun b c v) /\
    is_derive (fun t => bin_fun b c t) v d /\ passes s s' h x d /\
    forall z, alive s z -> z <> x -> passes s s' h z 0.
Proof. exact (fun HP HR => each_dv s b c x v HP (reach_sound env0 s HP HR)). Qed.
Print Assumptions C15_real_var_partial.
(* x = var(v); y = var(w); z = x op y; z%grad() *)
Theorem C15_grad_var_var {lg : R -> R} {C : Cfg (RNum lg)} env0 (s : @st (RNum lg)) b (v w : R) :
  @practical (RNum lg) C -> reachable env0 s -> vv_dom b v w -> roomy s 20 ->
  exists x s1 y s2 h s3 s4 s5 d e, new_var_val (v : @F (RNum lg)) s = Ok (x, s1) /\ new_var_val (w : @F (RNum lg)) s1 = Ok (y, s2) /\
    bin_vv b x y s2 = Ok (h, s3) /\ set_zero_all_adj s3 = Ok (tt, s4) /\ grad h s4 = Ok (tt, s5) /\
    var_val s3 h = Ok (bin_fun b v w) /\
    var_adj s5 x = Ok d /\ is_derive (fun t => bin_fun b t w) v d /\
    var_adj s5 y = Ok e /\ is_derive (fun t => bin_fun b v t) w e.
Proof. exact (real_vv env0 s b v w). Qed.
Print Assumptions C15_grad_var_var.
Theorem C15_grad_var_real_partial {lg : R -> R} {C : Cfg (RNum lg)} env0 (s : @st (RNum lg)) b (v c : R) :
  @practical (RNum lg) C -> reachable env0 s -> vd_dom b v c -> @neutral (RNum lg) (@OVD (RNum lg) b 0 c) = false -> roomy s 15 ->
  exists x s1 h s2 s3 s4 d, new_var_val (v : @F (RNum lg)) s = Ok (x, s1) /\ bin_vd b x (c : @F (RNum lg)) s1 = Ok (h, s2) /\
    set_zero_all_adj s2 = Ok (tt, s3) /\ grad h s3 = Ok (tt, s4) /\
    var_val s2 h = Ok (bin_fun b v c) /\ var_adj s4 x = Ok d /\ is_derive (fun t => bin_fun b t c) v d.
Proof. exact (real_vd env0 s b v c). Qed.
Print Assumptions C15_grad_var_real_partial.
Theorem C15_grad_real_var_partial {lg : R -> R} {C : Cfg (RNum lg)} env0 (s : @st (RNum lg)) b (v c : R) :
  @practical (RNum lg) C -> reachable env0 s -> dv_dom b c v -> @neutral (RNum lg) (@ODV (RNum lg) b c 0) = false -> roomy s 15 ->
  exists x s1 h s2 s3 s4 d, new_var_val (v : @F (RNum lg)) s = Ok (x, s1) /\ bin_dv b (c : @F (RNum lg)) x s1 = Ok (h, s2) /\
    set_zero_all_adj s2 = Ok (tt, s3) /\ grad h s3 = Ok (tt, s4) /\
    var_val s2 h = Ok (bin_fun b c v) /\ var_adj s4 x = Ok d /\ is_derive (fun t => bin_fun b c t) v d.
Proof. exact (real_dv env0 s b v c). Qed.
Print Assumptions C15_grad_real_var_partial.
Example C15_ex : alive rs 3 /\ alive rs 4 /\ vv_dom BDiv 6 (/ 2) /\ vd_dom BDiv 6 5 /\ dv_dom BDiv 5 6 /\
  @neutral RN (@OVD RN BMul 0 5) = false /\ @neutral RN (@ODV RN BAdd 5 0) = false.
Proof.
  split; [split; vm_compute; [discriminate|reflexivity]|]. split; [split; vm_compute; [discriminate|reflexivity]|].
  cbn [vv_dom vd_dom dv_dom neutral feq f0 f1 RNum]. rewrite !req_false. repeat split; lra.
Qed.
(* the power operator: the three theorems above with b = BPow; rpow is the power
   for integer exponents and any base, and exp(y ln x) for x > 0 *)
Example C17_ex : vv_dom BPow 3 (/ 2) /\ vd_dom BPow 3 (/ 2) /\ vd_dom BPow (-3) 2 /\ vd_dom BPow (-3) (-1) /\ dv_dom BPow 3 (-2) /\
  @neutral RN (@OVD RN BPow 0 1) = false.
Proof.
  cbn [vv_dom vd_dom dv_dom neutral]. repeat split; try lra.
  - right. exists 2%Z. split; [lra|]. left; lra.
  - right. exists (-1)%Z. split; [lra|]. left; lra.
Qed.
(* the same read for the power operator *)
Theorem C17_var_var {lg : R -> R} {C : Cfg (RNum lg)} env0 (s : @st (RNum lg)) x y (v w : R) :
  @practical (RNum lg) C -> reachable env0 s -> alive s x -> alive s y -> x <> y ->
  var_val s x = Ok v -> var_val s y = Ok w -> 0 < v -> roomy s 8 ->
  exists h s', bin_vv BPow x y s = Ok (h, s') /\ var_val s' h = Ok (Rpower v w) /\
    passes s s' h x (w * Rpower v (w - 1)) /\ passes s s' h y (Rpower v w * ln v).
Proof. exact (real_pow_vv env0 s x y v w). Qed.
Print Assumptions C17_var_var.
(* positive base, exponent other than -2 *)
Theorem C17_var_real_partial {lg : R -> R} {C : Cfg (RNum lg)} env0 (s : @st (RNum lg)) x (v c : R) :
  @practical (RNum lg) C -> reachable env0 s -> alive s x -> var_val s x = Ok v -> 0 < v -> c <> -2 -> roomy s 9 ->
  exists h s', bin_vd BPow x (c : @F (RNum lg)) s = Ok (h, s') /\ var_val s' h = Ok (Rpower v c) /\
    passes s s' h x (c * Rpower v (c - 1)).
Proof. exact (real_pow_vd env0 s x v c). Qed.
Print Assumptions C17_var_real_partial.
(* any base, integer exponent other than -2; a zero base needs an exponent >= 0 *)
Theorem C17_var_int_partial {lg : R -> R} {C : Cfg (RNum lg)} env0 (s : @st (RNum lg)) x (v : R) (z : Z) :
  @practical (RNum lg) C -> reachable env0 s -> alive s x -> var_val s x = Ok v -> v <> 0 \/ (0 <= z)%Z -> z <> (-2)%Z -> roomy s 9 ->
  exists h s', bin_vd BPow x (IZR z : @F (RNum lg)) s = Ok (h, s') /\ var_val s' h = Ok (powerRZ v z) /\
    passes s s' h x (IZR z * powerRZ v (z - 1)).
Proof. exact (real_pow_int env0 s x v z). Qed.
Print Assumptions C17_var_int_partial.
Theorem C17_real_var {lg : R -> R} {C : Cfg (RNum lg)} env0 (s : @st (RNum lg)) (c : R) x (v : R) :
  @practical (RNum lg) C -> reachable env0 s -> alive s x -> var_val s x = Ok v -> 0 < c -> roomy s 9 ->
  exists h s', bin_dv BPow (c : @F (RNum lg)) x s = Ok (h, s') /\ var_val s' h = Ok (Rpower c v) /\
    passes s s' h x (Rpower c v * ln c).
Proof. exact (real_pow_dv env0 s c x v). Qed.
Print Assumptions C17_real_var.

(* ---- C18 ---- *)
(* a zero constant is left out: hypot(0,x) is wrong (C18_refuted) and hypot(x,0)
   is one of the calls of C16 *)
Theorem C18_hypot_var_var {lg : R -> R} {C : Cfg (RNum lg)} env0 (s : @st (RNum lg)) x y (v w : R) :
  @practical (RNum lg) C -> reachable env0 s -> alive s x -> alive s y -> x <> y ->
  var_val s x = Ok v -> var_val s y = Ok w -> v <> 0 \/ w <> 0 -> roomy s 8 ->
  exists h s', bin_vv BHypot x y s = Ok (h, s') /\ var_val s' h = Ok (sqrt (v * v + w * w)) /\
    passes s s' h x (v / sqrt (v * v + w * w)) /\ passes s s' h y (w / sqrt (v * v + w * w)) /\
    forall z, alive s z -> z <> x -> z <> y -> passes s s' h z 0.
Proof. exact (real_hypot_vv env0 s x y v w). Qed.
Print Assumptions C18_hypot_var_var.
Theorem C18_hypot_real_partial {lg : R -> R} {C : Cfg (RNum lg)} env0 (s : @st (RNum lg)) x (v c : R) :
  @practical (RNum lg) C -> reachable env0 s -> alive s x -> var_val s x = Ok v -> c <> 0 -> roomy s 9 ->
  (exists h s', bin_vd BHypot x (c : @F (RNum lg)) s = Ok (h, s') /\ var_val s' h = Ok (sqrt (v * v + c * c)) /\
    passes s s' h x (v / sqrt (v * v + c * c)) /\ forall z, alive s z -> z <> x -> passes s s' h z 0) /\
  (exists h s', bin_dv BHypot (c : @F (RNum lg)) x s = Ok (h, s') /\ var_val s' h = Ok (sqrt (c * c + v * v)) /\
    passes s s' h x (v / sqrt (c * c + v * v)) /\ forall z, alive s z -> z <> x -> passes s s' h z 0).
Proof. exact (real_hypot_vd env0 s x v c). Qed.
Print Assumptions C18_hypot_real_partial.
Example C18_ex : alive rs 1 /\ alive rs 4 /\ @var_val RN rs 1 = Ok 2 /\ @var_val RN rs 4 = Ok (/ 2) /\ roomy rs 9.
Proof.
  split; [split; vm_compute; [discriminate|reflexivity]|]. split; [split; vm_compute; [discriminate|reflexivity]|].
  split; [vm_compute; reflexivity|]. split; [vm_compute; reflexivity|]. apply rs_roomy. lia.
Qed.

(* ---- C20 ---- *)
Theorem C20_sum {lg : R -> R} {C : Cfg (RNum lg)} env0 (s : @st (RNum lg)) xs (ws : list R) :
  @practical (RNum lg) C -> reachable env0 s -> Forall (alive s) xs -> mapM (var_val s) xs = Ok ws -> roomy s (6 + zlen xs) ->
  exists h s', sum_v xs s = Ok (h, s') /\ var_val s' h = Ok (rsum ws) /\
    forall x, alive s x -> passes s s' h x (INR (count_occ Z.eq_dec xs x)).
Proof. exact (fun HP HR => each_sum s xs ws HP (reach_sound env0 s HP HR)). Qed.
Print Assumptions C20_sum.

(* ---- C21 ---- *)
Theorem C21_norm2 {lg : R -> R} {C : Cfg (RNum lg)} env0 (s : @st (RNum lg)) xs (ws : list R) :
  @practical (RNum lg) C -> reachable env0 s -> Forall (alive s) xs -> mapM (var_val s) xs = Ok ws ->
  Exists (fun w => w <> 0) ws -> roomy s (6 + zlen xs) ->
  exists h s', norm2_v xs s = Ok (h, s') /\ var_val s' h = Ok (sqrt (rsum (map (fun w => w * w) ws))) /\
    forall x, alive s x -> passes s s' h x (weight xs (map (fun w => w / sqrt (rsum (map (fun w => w * w) ws))) ws) x).
Proof. exact (fun HP HR => each_norm2 s xs ws HP (reach_sound env0 s HP HR)). Qed.
Print Assumptions C21_norm2.
(* rhuge is the largest finite binary64 *)
Theorem C21_log_sum_exp {lg : R -> R} {C : Cfg (RNum lg)} env0 (s : @st (RNum lg)) xs (ws : list R) :
  @practical (RNum lg) C -> reachable env0 s -> Forall (alive s) xs -> mapM (var_val s) xs = Ok ws ->
  xs <> [] -> Forall (fun w => w <= rhuge) ws -> roomy s (6 + zlen xs) ->
  exists h s', log_sum_exp_v xs s = Ok (h, s') /\ var_val s' h = Ok (ln (rsum (map exp ws))) /\
    forall x, alive s x -> passes s s' h x (weight xs (map (fun w => exp w / rsum (map exp ws)) ws) x).
Proof. exact (fun HP HR => each_lse s xs ws HP (reach_sound env0 s HP HR)). Qed.
Print Assumptions C21_log_sum_exp.

(* ---- C22 ---- *)
Theorem C22_dot_var_var {lg : R -> R} {C : Cfg (RNum lg)} env0 (s : @st (RNum lg)) xs ys (ws us : list R) :
  @practical (RNum lg) C -> reachable env0 s ->
  Forall (alive s) xs -> Forall (alive s) ys -> mapM (var_val s) xs = Ok ws -> mapM (var_val s) ys = Ok us ->
  length xs = length ys -> roomy s (6 + 2 * zlen xs) ->
  exists h s', dot_prod_vv xs ys s = Ok (h, s') /\ var_val s' h = Ok (rdot ws us) /\
    forall x, alive s x -> passes s s' h x (weight xs us x + weight ys ws x).
Proof. exact (fun HP HR => each_dvv s xs ys ws us HP (reach_sound env0 s HP HR)). Qed.
Print Assumptions C22_dot_var_var.
Theorem C22_dot_var_real {lg : R -> R} {C : Cfg (RNum lg)} env0 (s : @st (RNum lg)) xs (ws cs : list R) :
  @practical (RNum lg) C -> reachable env0 s -> Forall (alive s) xs -> mapM (var_val s) xs = Ok ws ->
  length xs = length cs -> roomy s (6 + 3 * zlen xs) ->
  exists h s', dot_prod_vd xs (cs : list (@F (RNum lg))) s = Ok (h, s') /\ var_val s' h = Ok (rdot ws cs) /\
    forall x, alive s x -> passes s s' h x (weight xs cs x).
Proof. exact (fun HP HR => each_dvd s xs ws cs HP (reach_sound env0 s HP HR)). Qed.
Print Assumptions C22_dot_var_real.
Theorem C22_dot_real_var {lg : R -> R} {C : Cfg (RNum lg)} env0 (s : @st (RNum lg)) (cs : list R) xs (ws : list R) :
  @practical (RNum lg) C -> reachable env0 s -> Forall (alive s) xs -> mapM (var_val s) xs = Ok ws ->
  length xs = length cs -> roomy s (6 + 3 * zlen xs) ->
  exists h s', dot_prod_dv (cs : list (@F (RNum lg))) xs s = Ok (h, s') /\ var_val s' h = Ok (rdot cs ws) /\
    forall x, alive s x -> passes s s' h x (weight xs cs x).
Proof. exact (fun HP HR => each_ddv s cs xs ws HP (reach_sound env0 s HP HR)). Qed.
Print Assumptions C22_dot_real_var.
(* arrays that share and repeat variables *)
Example C20_ex : Forall (alive rs) [1; 3; 1; 4]%Z /\ mapM (@var_val RN rs) [1; 3; 1; 4]%Z = Ok [2; 2 * 3; 2; / 2] /\
  roomy rs (6 + 3 * zlen [1; 3; 1; 4]%Z) /\ INR (count_occ Z.eq_dec [1; 3; 1; 4]%Z 1%Z) = 2 /\
  weight [1; 3; 1; 4]%Z [10; 20; 30; 40] 1 = 40 /\ Exists (fun w => w <> 0) [2; 2 * 3; 2; / 2] /\
  Forall (fun w => w <= rhuge) [2; 2 * 3; 2; / 2].
Proof.
  split; [repeat constructor; vm_compute; try reflexivity; discriminate|]. split; [vm_compute; reflexivity|].
  split; [apply rs_roomy; vm_compute; discriminate|]. split; [reflexivity|]. split; [cbv; lra|]. split; [left; lra|].
  assert (H : 6 <= rhuge).
  { unfold rhuge. assert (H1 : 1 <= 2 ^ 1020) by (apply pow_R1_Rle; lra).
    replace (2 ^ 1023) with (8 * 2 ^ 1020) by (change 1023%nat with (3 + 1020)%nat; rewrite pow_add; lra).
    assert (H2 : / 2 ^ 52 <= 1) by (rewrite <- Rinv_1; apply Rinv_le_contravar; [lra|apply pow_R1_Rle; lra]). nra. }
  repeat (apply Forall_cons; [lra|]). apply Forall_nil.
Qed.

(* ---- C23 ---- *)
(* A is m by k, B is k by n, stored by columns; entry (i,j), counted from 0, is
   result number i + j*m *)
Theorem C23_matmul_var_var {lg : R -> R} {C : Cfg (RNum lg)} env0 (s : @st (RNum lg)) m k n xs ys (ws us : list R) :
  @practical (RNum lg) C -> reachable env0 s ->
  Forall (alive s) xs -> Forall (alive s) ys -> mapM (var_val s) xs = Ok ws -> mapM (var_val s) ys = Ok us ->
  length xs = (m * k)%nat -> length ys = (k * n)%nat -> (Z.of_nat m <= max_int)%Z -> (Z.of_nat k <= max_int)%Z -> (Z.of_nat n <= max_int)%Z ->
  roomy s (4 + zlen xs + zlen ys + 10 * Z.of_nat (m * n)) ->
  exists hs s', mat_mul_vv m k n xs ys s = Ok (hs, s') /\ length hs = (m * n)%nat /\
    forall i j, (i < m)%nat -> (j < n)%nat -> exists h, nth_error hs (i + j * m) = Some h /\
      var_val s' h = Ok (rdot (row 0 m k i ws) (col 0 k j us)) /\
      forall x, alive s x -> passes s s' h x (weight (row 0%Z m k i xs) (col 0 k j us) x + weight (col 0%Z k j ys) (row 0 m k i ws) x).
Proof. exact (fun HP HR => each_mvv s m k n xs ys ws us HP (reach_sound env0 s HP HR)). Qed.
Print Assumptions C23_matmul_var_var.
Theorem C23_matmul_var_real {lg : R -> R} {C : Cfg (RNum lg)} env0 (s : @st (RNum lg)) m k n xs (ws b : list R) :
  @practical (RNum lg) C -> reachable env0 s -> Forall (alive s) xs -> mapM (var_val s) xs = Ok ws ->
  length xs = (m * k)%nat -> length b = (k * n)%nat -> (Z.of_nat m <= max_int)%Z -> (Z.of_nat k <= max_int)%Z -> (Z.of_nat n <= max_int)%Z ->
  roomy s (4 + zlen xs + 2 * zlen b + 10 * Z.of_nat (m * n)) ->
  exists hs s', mat_mul_vd m k n xs (b : list (@F (RNum lg))) s = Ok (hs, s') /\ length hs = (m * n)%nat /\
    forall i j, (i < m)%nat -> (j < n)%nat -> exists h, nth_error hs (i + j * m) = Some h /\
      var_val s' h = Ok (rdot (row 0 m k i ws) (col 0 k j b)) /\
      forall x, alive s x -> passes s s' h x (weight (row 0%Z m k i xs) (col 0 k j b) x).
Proof. exact (fun HP HR => each_mvd s m k n xs ws b HP (reach_sound env0 s HP HR)). Qed.
Print Assumptions C23_matmul_var_real.
Theorem C23_matmul_real_var {lg : R -> R} {C : Cfg (RNum lg)} env0 (s : @st (RNum lg)) m k n (a : list R) ys (us : list R) :
  @practical (RNum lg) C -> reachable env0 s -> Forall (alive s) ys -> mapM (var_val s) ys = Ok us ->
  length a = (m * k)%nat -> length ys = (k * n)%nat -> (Z.of_nat m <= max_int)%Z -> (Z.of_nat k <= max_int)%Z -> (Z.of_nat n <= max_int)%Z ->
  roomy s (4 + 2 * zlen a + zlen ys + 10 * Z.of_nat (m * n)) ->
  exists hs s', mat_mul_dv m k n (a : list (@F (RNum lg))) ys s = Ok (hs, s') /\ length hs = (m * n)%nat /\
    forall i j, (i < m)%nat -> (j < n)%nat -> exists h, nth_error hs (i + j * m) = Some h /\
      var_val s' h = Ok (rdot (row 0 m k i a) (col 0 k j us)) /\
      forall x, alive s x -> passes s s' h x (weight (col 0%Z k j ys) (row 0 m k i a) x).
Proof. exact (fun HP HR => each_mdv s m k n a ys us HP (reach_sound env0 s HP HR)). Qed.
Print Assumptions C23_matmul_real_var.
(* 2 by 1 times 1 by 2; entry (1,0) is v3*v1, its derivative with respect to v1 is
   v3 + 0 *)
Example C23_ex : length [1; 3]%Z = (2 * 1)%nat /\ length [1; 4]%Z = (1 * 2)%nat /\
  mapM (@var_val RN rs) [1; 3]%Z = Ok [2; 2 * 3] /\ mapM (@var_val RN rs) [1; 4]%Z = Ok [2; / 2] /\
  roomy rs (4 + zlen [1; 3]%Z + zlen [1; 4]%Z + 10 * Z.of_nat (2 * 2)) /\
  rdot (row 0 2 1 1 [2; 2 * 3]) (col 0 1 0 [2; / 2]) = 12 /\
  weight (row 0%Z 2 1 1 [1; 3]%Z) (col 0 1 0 [2; / 2]) 1 + weight (col 0%Z 1 0 [1; 4]%Z) (row 0 2 1 1 [2; 2 * 3]) 1 = 6.
Proof.
  split; [reflexivity|]. split; [reflexivity|]. split; [vm_compute; reflexivity|]. split; [vm_compute; reflexivity|].
  split; [apply rs_roomy; vm_compute; discriminate|]. split; cbv -[Rplus Rmult IZR Rinv]; lra.
Qed.

(* ---- C26 ---- *)
(* away from zero: C14 with UAbs; the derivative of |x| is the sign *)
Theorem C26_abs {lg : R -> R} {C : Cfg (RNum lg)} env0 (s : @st (RNum lg)) x (v : R) :
  @practical (RNum lg) C -> reachable env0 s -> alive s x -> var_val s x = Ok v -> roomy s 7 ->
  exists h s', un_v UAbs x s = Ok (h, s') /\ var_val s' h = Ok (Rabs v) /\ passes s s' h x (sign v) /\
    forall z, alive s z -> z <> x -> passes s s' h z 0.
Proof. exact (real_abs env0 s x v). Qed.
Print Assumptions C26_abs.
(* in binary64, bit for bit, with NaN *)
Theorem C26_binary64 (L : Libm) {C : Cfg (B64 L)} env0 (s : @st (B64 L)) x (v : binary64) h s' :
  @practical (B64 L) C -> reachable env0 s -> alive s x -> var_val s x = Ok v -> un_v UAbs x s = Ok (h, s') ->
  (exists w : binary64, var_val s' h = Ok w /\ is_nan 53 1024 w = is_nan 53 1024 v /\ (is_nan 53 1024 v = false -> w = b64_abs v)) /\
  (b_lt c0 v = true -> h = x /\ s' = s) /\
  (b_lt c0 v = false -> ~ alive s h /\
    forall (a : binary64) s1 (b : binary64), set_var_adj h (a : @F (B64 L)) s' = Ok s1 -> var_adj s1 x = Ok b ->
      exists s2 (b' : binary64), chain_at s1 h = Ok s2 /\ var_adj s2 x = Ok b' /\
        (is_nan 53 1024 v = true -> is_nan 53 1024 b' = true) /\
        (b_eq v c0 = true -> b' = b) /\
        (b_lt v c0 = true -> b' = b64_plus rne b (b64_opp a))).
Proof. exact (abs_b64 L env0 s x v h s'). Qed.
Print Assumptions C26_binary64.
Example C26_ex : @seen libm0 [COp (@OVar (B64 libm0) cm3); COp (OUn UAbs 0); CGrad 1; CVal 1; CAdj 0;
    COp (@OVar (B64 libm0) cnan); COp (OUn UAbs 2); CZeroAll; CGrad 3; CVal 3; CAdj 2] =
  [num c3; num (b64_opp c1); num cnan; num cnan].
Proof. vm_compute. reflexivity. Qed.

(* ---- C29 ---- *)
Theorem C29_partials {lg : R -> R} {C : Cfg (RNum lg)} env0 (s : @st (RNum lg)) (v : R) xs (ps : list R) :
  @practical (RNum lg) C -> reachable env0 s -> Forall (alive s) xs -> length xs = length ps -> roomy s (6 + 3 * zlen xs) ->
  exists h s', var_with_partials (v : @F (RNum lg)) xs (ps : list (@F (RNum lg))) s = Ok (h, s') /\ var_val s' h = Ok v /\
    forall x, alive s x -> passes s s' h x (weight xs ps x).
Proof. exact (fun HP HR => each_part s v xs ps HP (reach_sound env0 s HP HR)). Qed.
Print Assumptions C29_partials.
Example C29_ex : Forall (alive rs) [1; 3; 1]%Z /\ length [1; 3; 1]%Z = length [5; 7; 11] /\ roomy rs (6 + 3 * zlen [1; 3; 1]%Z) /\
  weight [1; 3; 1]%Z [5; 7; 11] 1 = 16 /\ weight [1; 3; 1]%Z [5; 7; 11] 4 = 0.
Proof.
  split; [repeat constructor; vm_compute; try reflexivity; discriminate|]. split; [reflexivity|].
  split; [apply rs_roomy; vm_compute; discriminate|]. split; cbv -[Rplus Rmult IZR]; lra.
Qed.

(* ---- C37 ---- *)
(* [user_fn q env y]: the user function makes the calls q on the older variables env
   and its arguments, and returns register y.  The call may fail on storage or
   nesting depth (C06, C34, C35). *)
Theorem C37_gradient {lg : R -> R} {C : Cfg (RNum lg)} env0 (s : @st (RNum lg)) env ws xs (q : list (@op (RNum lg))) y r s' :
  @practical (RNum lg) C -> reachable env0 s -> Forall (alive s) env -> mapM (var_val s) env = Ok ws -> prog_dom q (ws ++ xs) ->
  gradient (user_fn q env y) (xs : list (@F (RNum lg))) s = Ok (r, s') ->
  exists ds, r = nth y (eval q (ws ++ xs)) 0 :: ds /\ length ds = length xs /\
    forall i, (i < length xs)%nat ->
      is_derive (fun t => nth y (eval q (ws ++ hold i t 0 xs)) 0) (nth i xs 0) (nth i ds 0).
Proof. exact (fun HP HR => gradient_ok s env ws xs q y r s' HP (reach_sound env0 s HP HR)). Qed.
Print Assumptions C37_gradient.
(* f(u,w) = sin(u)*w + v3 *)
Definition prog4 : list (@op RN) := [OUn USin 1; OVV BMul 3 2; OVV BAdd 4 0].
Example C37_ex : @prog_dom lg0 prog4 [2 * 3; 5; 7] /\
  ends (@gradient RN DM (@user_fn RN DM prog4 (cons 3%Z nil) 5) [5; 7] rs) = Returns.
Proof. split; [cbn; repeat split; auto|vm_compute; reflexivity]. Qed.

(* ---- C38 ---- *)
(* with all adjoints zero and a function that uses only its arguments; in general
   the claim is false: C38_refuted *)
Theorem C38_gradient_partial {lg : R -> R} {C : Cfg (RNum lg)} env0 (s : @st (RNum lg)) xs (q : list (@op (RNum lg))) y r s' :
  @practical (RNum lg) C -> reachable env0 s -> prog_ok' q ->
  gradient (user_fn q [] y) (xs : list (@F (RNum lg))) s = Ok (r, s') ->
  (forall h, alive s h -> var_adj s h = Ok 0) ->
  forall h, alive s h -> var_val s' h = var_val s h /\ var_adj s' h = Ok 0.
Proof. exact (fun HP HR => gradient_keeps s xs q y r s' HP (reach_sound env0 s HP HR)). Qed.
Print Assumptions C38_gradient_partial.
Definition work0 : list (@cmd RN) := [COp (@OVar RN 2); COp (OUn USin 0)].
Example C38_ex : @reachable RN DM (@env_of RN DM work0) (@state_of RN DM work0) /\
  map (@var_adj RN (@state_of RN DM work0)) [1; 2]%Z = [Ok 0; Ok 0] /\ s_head (@state_of RN DM work0) = 3%Z /\
  ends (@gradient RN DM (@user_fn RN DM [OUn USin 0; OVV BMul 0 1] [] 2) (cons 5 nil) (@state_of RN DM work0)) = Returns.
Proof.
  split; [exact (@runs_reach RN DM work0 ltac:(repeat constructor) ltac:(vm_compute; reflexivity))|].
  split; [vm_compute; reflexivity|]. split; vm_compute; reflexivity.
Qed.

(* ---- C39 ---- *)
(* the user function returns registers ys, which may repeat or be arguments *)
Theorem C39_jacobian {lg : R -> R} {C : Cfg (RNum lg)} env0 (s : @st (RNum lg)) env ws xs (q : list (@op (RNum lg))) ys r s' :
  @practical (RNum lg) C -> reachable env0 s -> Forall (alive s) env -> mapM (var_val s) env = Ok ws -> prog_dom q (ws ++ xs) ->
  jacobian (user_fns q env ys) (xs : list (@F (RNum lg))) s = Ok (r, s') ->
  length r = length ys /\ forall a y, nth_error ys a = Some y ->
    exists ds, nth_error r a = Some (nth y (eval q (ws ++ xs)) 0 :: ds) /\ length ds = length xs /\
      forall i, (i < length xs)%nat ->
        is_derive (fun t => nth y (eval q (ws ++ hold i t 0 xs)) 0) (nth i xs 0) (nth i ds 0).
Proof. exact (fun HP HR => jacobian_ok s env ws xs q ys r s' HP (reach_sound env0 s HP HR)). Qed.
Print Assumptions C39_jacobian.
Example C39_ex : @prog_dom lg0 prog4 [2 * 3; 5; 7] /\
  ends (@jacobian RN DM (@user_fns RN DM prog4 (cons 3%Z nil) [5; 1; 5; 4]%nat) [5; 7] rs) = Returns.
Proof. split; [cbn; repeat split; auto|vm_compute; reflexivity]. Qed.

(* ---- C40 ---- *)
(* lo: first variable of the innermost block *)
Theorem C40_inner {N : Num} {RL : RepLaws N} {C : Cfg N} env0 s h lo :
  practical -> reachable env0 s -> alive s h -> (1 <= s_lvl s)%Z -> curr_nested_vari_head s = Ok lo ->
  exists s1 s2, grad h s = Ok (tt, s1) /\ grad_nested h s = Ok (tt, s2) /\
    only_adjoints s s2 /\ forall z, alive s z -> (lo <= z)%Z -> var_adj s2 z = var_adj s1 z.
Proof. exact (fun HP HR => nested_same s h lo HP (proj1 (reach_valid env0 s HP HR))). Qed.
Print Assumptions C40_inner.
(* hx: a variable from before the block that no call of the block reads *)
Theorem C40_outer {lg : R -> R} {C : Cfg (RNum lg)} env0 (s : @st (RNum lg)) env s1 (p : list (@op (RNum lg))) env' s2 hs s3 hy hx :
  @practical (RNum lg) C -> reachable env0 s ->
  Forall (alive s) env -> prog_ok' p -> begin_nested s = Ok (tt, s1) -> exec p env s1 = Ok (env', s2) ->
  Forall (alive s2) hs -> grads hs s2 = Ok (tt, s3) -> In hy env' -> alive s hx -> hx <> hy -> never_reads p env' hx ->
  exists s4, grad_nested hy s3 = Ok (tt, s4) /\ var_adj s4 hx = var_adj s3 hx /\ var_val s4 hx = var_val s hx.
Proof. exact (fun HP HR => nested_outer s env s1 p env' s2 hs s3 hy hx HP (reach_sound env0 s HP HR)). Qed.
Print Assumptions C40_outer.
Definition inside : list (@cmd RN) := firstn 6 work.
Example C40_ex : @reachable RN DM (@env_of RN DM inside) (@state_of RN DM inside) /\
  s_lvl (@state_of RN DM inside) = 1%Z /\ curr_nested_vari_head (@state_of RN DM inside) = Ok 4%Z /\ s_head (@state_of RN DM inside) = 5%Z.
Proof.
  split; [exact (@runs_reach RN DM inside ltac:(repeat constructor) ltac:(vm_compute; reflexivity))|].
  split; [vm_compute; reflexivity|]. split; vm_compute; reflexivity.
Qed.
Example C40_outer_ex : exists s1 s2 s3, @begin_nested RN rs = Ok (tt, s1) /\
  @exec RN DM prog3 (cons 1%Z nil) s1 = Ok ([1; 5; 6; 7]%Z, s2) /\ @grads RN DM (cons 3%Z nil) s2 = Ok (tt, s3) /\
  @never_reads lg0 prog3 [1; 5; 6; 7]%Z 2 /\ alive rs 2.
Proof.
  eexists. eexists. eexists. split; [vm_compute; reflexivity|]. split; [vm_compute; reflexivity|]. split; [vm_compute; reflexivity|].
  split.
  - intros o r Ho Hr. cbn in Ho. repeat (destruct Ho as [<-|Ho]; [cbn in Hr; repeat (destruct Hr as [<-|Hr]; [discriminate|]); destruct Hr|]). destruct Ho.
  - split; vm_compute; [discriminate|reflexivity].
Qed.
