(* C57.
   Vocabulary (Service.v).  [solve luck fin ns nout]: a call of cvodes_sol with ns
   sensitivities and nout output times; [luck i]: the i-th call to SUNDIALS succeeds.
   [Done _ w]: it returns, w_live w being the objects not released; [Halted]: stop 1;
   [Dangling]: a pointer to no object, released or never set, was followed.
   [fin]: which finalisations the compiler performs at serv = new_cvodes_service(...);
   [standard]: both that Fortran 2018 asks for; [neither]: none.  [tidy w]: object
   numbers not given out yet are not live.  [ends_well P o]: o is Halted, or Done in a
   world with P. *)
From Verif Require Export Claims_service.
Local Open Scope nat_scope.

(* ---- C57 ---- *)
(* without the two finalisations: whatever fails, nothing leaks and no pointer dangles,
   as long as the four creations nobody checks succeed: context, matrix, linear solver,
   sensitivity vectors *)
Theorem C57_released_partial luck ns nout w : tidy w ->
  luck (w_calls w) = true -> luck (2 + w_calls w) = true -> luck (3 + w_calls w) = true -> (0 < ns -> luck (8 + w_calls w) = true) ->
  ends_well (fun w' => w_live w' = w_live w) (solve luck neither ns nout w).
Proof. exact (fun HT H0 H2 H3 H8 => solve_neither luck ns nout w HT (conj H0 (conj H2 (conj H3 H8)))). Qed.
Print Assumptions C57_released_partial.
Theorem C57_returns_partial luck ns nout w : tidy w -> (forall i, luck i = true) ->
  exists w', solve luck neither ns nout w = Done tt w' /\ w_live w' = w_live w.
Proof. exact (solve_returns luck ns nout w). Qed.
Print Assumptions C57_returns_partial.
(* with either of them, and so by the standard, every call follows a dangling pointer *)
Theorem C57_standard_refuted luck fin ns nout w : fin_old fin || fin_result fin = true -> tidy w -> (forall i, luck i = true) ->
  solve luck fin ns nout w = Dangling.
Proof. exact (solve_fin luck fin ns nout w). Qed.
Print Assumptions C57_standard_refuted.
(* a context or a matrix that cannot be created is not noticed *)
Theorem C57_unchecked_refuted luck fin ns nout w :
  luck (w_calls w) = false \/ luck (w_calls w) = true /\ luck (1 + w_calls w) = true /\ luck (2 + w_calls w) = false ->
  solve luck fin ns nout w = Dangling.
Proof. exact (solve_unchecked luck fin ns nout w). Qed.
Print Assumptions C57_unchecked_refuted.

(* two sensitivities, three output times; another object is live before *)
Definition w57 : world := mkWorld 1 [0] 0.
Example C57_ex : tidy w57 /\ solve (fun _ => true) neither 2 3 w57 = Done tt (mkWorld 7 [0] 19) /\
  solve (fun i => negb (i =? 13)) neither 2 3 w57 = Halted /\
  solve (fun _ => true) standard 2 3 w57 = Dangling /\ solve (fun i => negb (i =? 2)) neither 2 3 w57 = Dangling.
Proof. split; [repeat constructor|]. vm_compute. auto. Qed.
