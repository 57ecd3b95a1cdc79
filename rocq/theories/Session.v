(* Client programs: any sequence of library calls, each later call may depend on
   the numbers and truth values the earlier ones returned. *)
From Verif Require Export Ops.

Section Session.
Context {N : Num} {C : Cfg N}.

(* what a call returns to the client apart from variables *)
Inductive obs := OF (x : F) | OB (b : bool).

(* One call.  Variables are named by register: their position in the list of
   all variables returned so far. *)
Inductive cmd :=
| COp (o : op)                                (* an operation, src/*.F90 *)
| CSet (r : nat) (d : F)                      (* r = d, src/var.F90:105-109 *)
| CGrad (r : nat)                             (* call r%grad(), src/var.F90:169-176 *)
| CGradNested (r : nat)                       (* call r%grad_nested(), src/var.F90:179-187 *)
| CZeroAll                                    (* call set_zero_all_adj(), src/vari.F90:291-297 *)
| CZeroNested                                 (* call set_zero_nested_adj(), src/nested.F90:17-22 *)
| CBegin                                      (* call begin_nested(), src/nested.F90:26-30 *)
| CEnd                                        (* call end_nested(), src/nested.F90:32-44 *)
| CVal (r : nat)                              (* r%val(), src/var.F90:147-150 *)
| CAdj (r : nat)                              (* r%adj(), src/var.F90:152-155 *)
| CRelVV (q : rel) (a b : nat)                (* comparisons, src/relational.F90 *)
| CRelVD (q : rel) (a : nat) (d : F)
| CRelDV (q : rel) (d : F) (b : nat).

Definition quiet (m : M unit) : M (list Z * list obs) := _ <~ m ;; mret ([], []).

(* new variables and observations of one call *)
Definition exec_cmd (env : list Z) (c : cmd) : M (list Z * list obs) :=
  match c with
  | COp o => r <~ exec_op env o ;; mret (r, [])
  | CSet a d => x <~ reg env a ;; quiet (set_var x d)
  | CGrad a => x <~ reg env a ;; quiet (grad x)
  | CGradNested a => x <~ reg env a ;; quiet (grad_nested x)
  | CZeroAll => quiet set_zero_all_adj
  | CZeroNested => quiet set_zero_nested_adj
  | CBegin => quiet begin_nested
  | CEnd => quiet end_nested
  | CVal a => x <~ reg env a ;; v <~ vval x ;; mret ([], [OF v])
  | CAdj a => x <~ reg env a ;; v <~ vadj x ;; mret ([], [OF v])
  | CRelVV q a b => x <~ reg env a ;; y <~ reg env b ;; t <~ rel_vv q x y ;; mret ([], [OB t])
  | CRelVD q a d => x <~ reg env a ;; t <~ rel_vd q x d ;; mret ([], [OB t])
  | CRelDV q d b => y <~ reg env b ;; t <~ rel_dv q d y ;; mret ([], [OB t])
  end.

(* A client: stop, or make a call and go on depending on what it returned. *)
Inductive client :=
| Done
| Do (c : cmd) (k : list obs -> client).

(* registers at the end and the observations in order *)
Fixpoint run (p : client) (env : list Z) : M (list Z * list obs) :=
  match p with
  | Done => mret (env, [])
  | Do c k =>
      r <~ exec_cmd env c ;;
      r2 <~ run (k (snd r)) (env ++ fst r) ;;
      mret (fst r2, snd r ++ snd r2)
  end.

(* a client that ignores what it is told *)
Fixpoint script (l : list cmd) : client :=
  match l with
  | [] => Done
  | c :: t => Do c (fun _ => script t)
  end.

End Session.
