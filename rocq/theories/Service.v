(* src/cvodes.F90: the SUNDIALS objects a call of cvodes_sol creates, uses and
   releases.  What the objects do is not modelled, only that they exist. *)
From Coq Require Export List Bool Arith Lia.
Export ListNotations.
Local Open Scope nat_scope.

(* a Fortran or C pointer: never set, null, or to an object *)
Inductive handle := Unset | Null | Obj (n : nat).

(* objects made so far; those not released yet; number of calls to SUNDIALS whose
   success was left to chance *)
Record world := mkWorld { w_made : nat; w_live : list nat; w_calls : nat }.

Inductive outcome (A : Type) :=
| Done (a : A) (w : world)
| Halted            (* stop 1 *)
| Dangling.         (* a pointer to no object was followed *)
Arguments Done {A} a w.
Arguments Halted {A}.
Arguments Dangling {A}.

Definition W (A : Type) := world -> outcome A.
Definition wret {A} (a : A) : W A := fun w => Done a w.
Definition wbind {A B} (m : W A) (k : A -> W B) : W B :=
  fun w => match m w with Done a w' => k a w' | Halted => Halted | Dangling => Dangling end.
Notation "x <~~ m ;; k" := (wbind m (fun x => k)) (at level 61, m at next level, right associativity).
Definition halt {A} : W A := fun _ => Halted.

Section Service.
(* does the i-th call to SUNDIALS succeed? *)
Context (luck : nat -> bool).

Definition live (h : handle) (w : world) : bool :=
  match h with Obj n => existsb (Nat.eqb n) (w_live w) | _ => false end.
(* a call that follows the pointers hs *)
Definition use (hs : list handle) : W unit :=
  fun w => if forallb (fun h => live h w) hs then Done tt w else Dangling.
(* the same, with a return code: did it succeed? *)
Definition call (hs : list handle) : W bool :=
  _ <~~ use hs ;; fun w => Done (luck (w_calls w)) (mkWorld (w_made w) (w_live w) (S (w_calls w))).
(* make an object; null on failure *)
Definition make (hs : list handle) : W handle :=
  b <~~ call hs ;;
  fun w => if b : bool then Done (Obj (w_made w)) (mkWorld (S (w_made w)) (w_made w :: w_live w) (w_calls w)) else Done Null w.
(* release an object; the SUNDIALS routines return at once on null *)
Definition release (h : handle) : W unit :=
  fun w => match h with
           | Null => Done tt w
           | Unset => Dangling
           | Obj n => if live h w then Done tt (mkWorld (w_made w) (remove Nat.eq_dec n (w_live w)) (w_calls w)) else Dangling
           end.
Definition is_null (h : handle) : bool := match h with Null => true | _ => false end.

(* type cvodes_service: src/cvodes.F90:20-37; only sens has a default value *)
Record service := mkService { v_ctx : handle; v_y : handle; v_mat : handle; v_ls : handle; v_mem : handle; v_yS : handle; v_sens : nat }.
Definition unset_service : service := mkService Unset Unset Unset Unset Unset Unset 0.

(* new_cvodes_service: src/cvodes.F90:51-112; ns = ode%ns.  The return codes of
   FSUNContext_Create, FCVodeSetUserData, FCVodeSetLinearSolver and FCVodeSensInit are
   ignored.  The loop over yS (99-106) follows yS. *)
Definition new_service (ns : nat) : W service :=
  ctx <~~ make [] ;;
  y <~~ make [ctx] ;;
  if is_null y then halt else
  mat <~~ make [ctx] ;;
  ls <~~ make [y; mat; ctx] ;;
  mem <~~ make [ctx] ;;
  if is_null mem then halt else
  ok <~~ call [mem; y] ;;
  if negb ok then halt else
  _ <~~ call [mem] ;;
  _ <~~ call [mem; ls; mat] ;;
  if Nat.ltb 0 ns then
    yS <~~ make [y] ;;
    _ <~~ use [yS] ;;
    _ <~~ call [mem; yS] ;;
    wret (mkService ctx y mat ls mem yS ns)
  else wret (mkService ctx y mat ls mem Unset 0).

(* free_cvodes_service: src/cvodes.F90:114-128 *)
Definition free_service (v : service) : W unit :=
  _ <~~ release (v_mem v) ;;
  _ <~~ release (v_ls v) ;;
  _ <~~ release (v_mat v) ;;
  _ <~~ release (v_y v) ;;
  _ <~~ (if Nat.ltb 0 (v_sens v) then release (v_yS v) else wret tt) ;;
  release (v_ctx v).

(* the loop over the output times: src/cvodes.F90:148-156, 191-208, 245-262 *)
Fixpoint outputs (v : service) (nout : nat) : W unit :=
  match nout with
  | O => wret tt
  | S n =>
      ok <~~ call [v_mem v; v_y v] ;;
      if negb ok then halt else
      _ <~~ (if Nat.ltb 0 (v_sens v) then (_ <~~ call [v_mem v; v_yS v] ;; use [v_yS v; v_y v]) else wret tt) ;;
      outputs v n
  end.

(* When free_cvodes_service, the type's final procedure, is called for a statement
   serv = new_cvodes_service(...): Fortran 2018 7.5.6.3 asks for the old value of serv,
   before the assignment, and for the function result, after the statement; some
   compilers do one or neither.  The local variable serv is finalised on return. *)
Record finaliser := mkFin { fin_old : bool; fin_result : bool }.
Definition standard : finaliser := mkFin true true.
Definition neither : finaliser := mkFin false false.

(* cvodes_sol_data: src/cvodes.F90:130-157 (ns = 0), cvodes_sol_y0_sens: 159-209
   (ns = size(y)), cvodes_sol_par_sens: 211-263 (ns = size(param)); the tolerances,
   FCVodeSensEEtolerances and src/cvodes_options.F90:39-45 *)
Definition solve (fin : finaliser) (ns nout : nat) : W unit :=
  r <~~ new_service ns ;;
  _ <~~ (if fin_old fin then free_service unset_service else wret tt) ;;
  let serv := r in
  _ <~~ (if fin_result fin then free_service r else wret tt) ;;
  _ <~~ (if Nat.ltb 0 ns then (_ <~~ call [v_mem serv] ;; wret tt) else wret tt) ;;
  _ <~~ call [v_mem serv] ;;
  _ <~~ call [v_mem serv] ;;
  _ <~~ outputs serv nout ;;
  free_service serv.
End Service.
