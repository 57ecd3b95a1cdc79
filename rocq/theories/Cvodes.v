(* src/cvodes_model.F90 and src/cvodes.F90: what the library computes around the
   CVODES integrator.

   The integrator itself (SUNDIALS, external C code) is not modelled: it is an
   arbitrary [solver], which may call the sensitivity right-hand side any number
   of times with any arguments, go on depending on the answers, and deliver any
   numbers at each output time.  Not modelled either: the option setters
   (src/cvodes_options.F90), creation and freeing of SUNDIALS objects, and
   RhsFn (cvodes_model.F90:98-127), which hands the integrator the user's
   right-hand side on plain reals and touches no variable. *)
From Verif Require Export Session.

Section Cvodes.
Context {N : Num} {C : Cfg N}.

(* type cvs_rhs: src/cvodes_model.F90:9-22.  ys: initial values are variables;
   ns: number of sensitivities; the user's right-hand side on variables, f_yvar or
   f_pvar, gets t, y, the array f (intent inout) and p ([] for f_yvar) and returns
   the new contents of f. *)
Record cvs_rhs := mkRhs {
  ode_ys : bool;
  ode_ns : nat;
  ode_pval : list F;
  ode_f : F -> list Z -> list Z -> list Z -> M (list Z)
}.

(* m, number of parameter sensitivities: src/cvodes_model.F90:181 (nothing is done
   for them if negative) *)
Definition par_count (o : cvs_rhs) (n : nat) : nat := if ode_ys o then ode_ns o - n else ode_ns o.
(* src/cvodes_model.F90:183 *)
Definition par_is_var (o : cvs_rhs) (n : nat) : bool := negb (ode_ys o && Nat.eqb (ode_ns o) n).

(* l with b added to its elements from position k on *)
Definition add_from (k : nat) (l b : list F) : list F :=
  firstn k l ++ map (fun p => fadd (fst p) (snd p)) (combine (skipn k l) b).

(* one pass of the loop of set_sens_rhs: src/cvodes_model.F90:195-213; the
   result is component i of every ySdot.  pvar(j) past the end of the array is an
   out-of-bounds read. *)
Definition sens_row (o : cvs_rhs) (n : nat) (yvar pvar : list Z) (yS : list (list F)) (fi : Z) : M (list F) :=
  _ <~ grad_nested fi ;;
  a <~ vadjs yvar ;;
  let d := map (fdot a) yS in
  r <~ (if par_is_var o n then
          if Nat.leb (par_count o n) (length pvar) then
            b <~ vadjs (firstn (par_count o n) pvar) ;;
            mret (add_from (ode_ns o - par_count o n) d b)
          else mlift (Undef OutOfBounds)
        else mret d) ;;
  _ <~ set_zero_nested_adj ;;
  mret r.

(* component i of vector j from row i, entry j *)
Definition columns (k : nat) (rows : list (list F)) : list (list F) :=
  map (fun j => map (fun r => nth j r f0) rows) (seq 0 k).

(* type(var) :: pvar(3): src/cvodes_model.F90:178 *)
Definition pvar_size : nat := 3.

(* yvar, fvar, pvar and the call of the user's right-hand side:
   src/cvodes_model.F90:185-193.  pvar = var(ode%pval) needs arrays of one size. *)
Definition sens_body (t : F) (y : list F) (o : cvs_rhs) : M (list Z * list Z * list Z) :=
  yvar <~ new_var_vals y ;;
  fvar <~ new_var_vals (repeat f0 (length y)) ;;
  if par_is_var o (length y) then
    if Nat.eqb (length (ode_pval o)) pvar_size then
      pvar <~ new_var_vals (ode_pval o) ;;
      fv <~ ode_f o t yvar fvar pvar ;;
      mret (yvar, pvar, fv)
    else mlift (Undef ShapeMismatch)
  else
    fv <~ ode_f o t yvar fvar [] ;; mret (yvar, [], fv).

(* set_sens_rhs: src/cvodes_model.F90:158-215, called by CVSensRhsFn (217-251)
   with the vectors the integrator passes; yS and the result hold ns vectors of
   length n *)
Definition set_sens_rhs (t : F) (y : list F) (yS : list (list F)) (o : cvs_rhs) : M (list (list F)) :=
  _ <~ begin_nested ;;
  b <~ sens_body t y o ;;
  rows <~ mmap (sens_row o (length y) (fst (fst b)) (snd (fst b)) yS) (snd b) ;;
  _ <~ end_nested ;;
  mret (columns (ode_ns o) rows).

(* calc_jac_yvar: src/cvodes_model.F90:129-156; jac is column-major *)
Definition calc_jac_yvar (t : F) (y : list F) (o : cvs_rhs) : M (list F) :=
  _ <~ begin_nested ;;
  yvar <~ new_var_vals y ;;
  fvar <~ new_var_vals (repeat f0 (length y)) ;;
  fv <~ ode_f o t yvar fvar [] ;;
  rows <~ mmap (fun fi => _ <~ set_zero_nested_adj ;; _ <~ grad_nested fi ;; vadjs yvar) fv ;;
  _ <~ end_nested ;;
  mret (concat (columns (length y) rows)).

(* ---- src/cvodes.F90 ---- *)

(* initial sensitivity vectors: src/cvodes.F90:97-110 *)
Definition init_sens (ys : bool) (ns neq : nat) : list (list F) :=
  map (fun j => map (fun i => if ys && Nat.ltb j neq && Nat.eqb i j then f1 else f0) (seq 0 neq)) (seq 0 ns).

(* The integrator between two points where control returns to the library. *)
Inductive solver :=
| Failure                                              (* FCVode returns ierr /= 0 *)
| Callback (t : F) (y : list F) (yS : list (list F)) (k : list (list F) -> solver)
| Output (y : list F) (yS : list (list F)) (next : solver).  (* FCVode, FCVodeGetSens *)

(* the variables of one output time: src/cvodes.F90:198-207 and 252-261 *)
Definition sol_column (ops : list Z) (y : list F) (yS : list (list F)) : M (list Z) :=
  mmap (fun i => var_with_partials (nth i y f0) ops (map (fun v => nth i v f0) yS)) (seq 0 (length y)).

(* the loop over the output times: src/cvodes.F90:191-208 and 245-262 *)
Fixpoint drive (o : cvs_rhs) (ops : list Z) (nout : nat) (p : solver) : M (list (list Z)) :=
  match nout with
  | O => mret []
  | S n =>
      match p with
      | Failure => mlift ErrStop                       (* stop 1 *)
      | Callback t y yS k => r <~ set_sens_rhs t y yS o ;; drive o ops nout (k r)
      | Output y yS next =>
          c <~ sol_column ops y yS ;; cs <~ drive o ops n next ;; mret (c :: cs)
      end
  end.

(* the integrator gets the initial values and sensitivities (src/cvodes.F90:51-112) *)
Definition integrator := list F -> list (list F) -> solver.

(* cvodes_sol_y0_sens: src/cvodes.F90:159-209 *)
Definition cvodes_sol_y0_sens (y : list Z) (nout : nat) (f : F -> list Z -> list Z -> list Z -> M (list Z)) (S : integrator) : M (list (list Z)) :=
  yval <~ vvals y ;;
  let n := length y in
  drive (mkRhs true n [] f) y nout (S yval (init_sens true n n)).

(* cvodes_sol_par_sens: src/cvodes.F90:211-263 *)
Definition cvodes_sol_par_sens (y : list F) (param : list Z) (nout : nat) (f : F -> list Z -> list Z -> list Z -> M (list Z)) (S : integrator) : M (list (list Z)) :=
  pval <~ vvals param ;;
  let np := length param in
  drive (mkRhs false np pval f) param nout (S y (init_sens false np (length y))).

(* cvodes_sol_data: src/cvodes.F90:130-157: the columns of yt and the caller's y
   afterwards, which the integrator overwrites (sunvec_y is made from y itself) *)
Fixpoint sol_data (y : list F) (nout : nat) (p : solver) : res (list (list F) * list F) :=
  match nout with
  | O => Ok ([], y)
  | S n =>
      match p with
      | Failure => ErrStop
      | Callback t y1 yS k => Undef OutOfBounds        (* no sensitivities were asked for *)
      | Output y1 yS next => '(l, e) <- sol_data y1 n next ;; Ok (y1 :: l, e)
      end
  end.

(* a user right-hand side: the calls q, made on the arguments, and the registers
   that end up in f *)
Definition rhs_prog (q : F -> list op) (outs : list nat) (t : F) (y f p : list Z) : M (list Z) :=
  env <~ exec (q t) (y ++ f ++ p) ;; regs env outs.

End Cvodes.
