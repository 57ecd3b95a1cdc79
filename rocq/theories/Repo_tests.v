(* The unit tests shipped with the library (test/unit), run on the model: IEEE
   binary64, the default build (init_vari_stack_size = 1024), nonconforming arrays
   undefined, and a correctly rounded math library.  These are tests of the model, not
   proofs about it: a run that returns has passed every assertion of the program.

   The cvodes tests need an integrator; the two that call set_sens_rhs alone are here.
   digamma_test is in the same form.  Not here: debug_test (nothing of the library) and
   adstack_test (calls procedures that do not exist, and is not built by
   test/unit/meson.build). *)
From Flocq Require Import IEEE754.BinarySingleNaN IEEE754.Binary IEEE754.Bits.
From Verif Require Import Cvodes Findings TestMath Expect.
Local Open Scope Z_scope.

#[local] Instance NT : Num := B64 tm.
#[local] Instance CT : Cfg NT := {| init_len := 1024; junk := None |}.

(* the program ends without `stop` or anything undefined *)
Definition passes (m : M unit) : Prop := ends (m st_init) = Returns.

(* assertions inside a program *)
Definition EQ (a b : Z) : M unit := mlift (expect_eq a b).
Definition TRUE (b : bool) : M unit := mlift (expect_true b).
Definition DBL (a b : F) : M unit := mlift (expect_dbl_eq a b).
Definition FLT (a b : F) : M unit := mlift (expect_float_eq a b).
Definition NEAR (a b t : F) : M unit := mlift (expect_near a b t).
Definition DBLS (a b : list F) : M unit := mlift (expect_dbl_eq_1 a b).

(* what the programs read *)
Definition head : M Z := mget (fun s => Ok (s_head s)).                     (* callstack%head *)
Definition thead : M Z := mget (fun s => Ok (t_head (s_tape s))).           (* callstack%stack%head *)
Definition vsize : M Z := mget (fun s => Ok (s_n s)).                       (* vari_stack_size() *)
Definition vid (h : Z) : M Z := mget (fun s => vi_index s h).
(* a procedure of the tape on the record of handle h, as vari_at(h)%... *)
Definition rec_ {A} (f : tape -> Z -> res A) (h : Z) : M A :=
  mget (fun s => i <- vi_index s h ;; f (s_tape s) i).
Definition set_adj_ (h : Z) (d : F) : M unit := mput (set_var_adj h d).
Definition chain_ (h : Z) : M unit := mput (fun s => chain_at s h).
Definition init_dependent (h : Z) : M unit := set_adj_ h f1.
Notation "a ;;; b" := (mbind a (fun _ => b)) (at level 61, right associativity).

(* assertions on a variable *)
Definition val_is (h : Z) (d : F) : M unit := x <~ vval h ;; DBL x d.
Definition adj_is (h : Z) (d : F) : M unit := x <~ vadj h ;; DBL x d.
Definition val_near (h : Z) (d : F) : M unit := x <~ vval h ;; FLT x d.
Definition adj_near (h : Z) (d : F) : M unit := x <~ vadj h ;; FLT x d.
Definition vals_are (h : list Z) (d : list F) : M unit := x <~ vvals h ;; DBLS x d.
Definition adjs_are (h : list Z) (d : list F) : M unit := x <~ vadjs h ;; DBLS x d.
Definition head_is (k : Z) : M unit := h <~ head ;; EQ h k.
Definition thead_is (k : Z) : M unit := h <~ thead ;; EQ h k.

Declare Scope ft_scope.
Notation D := (fdec).
Notation "a + b" := (fadd a b) : ft_scope.
Notation "a - b" := (fsub a b) : ft_scope.
Notation "a * b" := (fmul a b) : ft_scope.
Notation "a / b" := (fdiv a b) : ft_scope.
Notation "- a" := (fneg a) : ft_scope.
Delimit Scope ft_scope with ft.
Definition sq (a : F) : F := fmul a a.
Definition at_ {A} (d : A) (l : list A) (i : nat) : A := nth (i - 1) l d.

(* a failed assertion ends a program *)
Example stops : ends (DBL f1 f2 st_init) = Stops.
Proof. vm_compute. reflexivity. Qed.

(* test/unit/test_test.F90 *)
Example test_test : passes (
  NEAR (D 1 0) (D 1001 (-3)) (D 1 (-2)) ;;; FLT f1 f1 ;;; TRUE true ;;; EQ 1 1).
Proof. vm_compute. reflexivity. Qed.

(* test/unit/tape_test.F90, on a tape of its own *)
Definition tape_prog : res unit :=
  let hd (t : tape) := t_head t in
  '(i, t) <- push_1 tape_init ;;
  _ <- expect_eq (hd t) (min_rec_size + 1) ;;
  '(i, t) <- push_val t (D 12 (-1)) ;;
  _ <- expect_eq (hd t) (2 * min_rec_size + 1) ;;
  '(i, t) <- push_val t (D 42 (-1)) ;;
  x <- val_at t 1 ;; _ <- expect_dbl_eq x f0 ;;
  x <- val_at t 7 ;; _ <- expect_dbl_eq x (D 12 (-1)) ;;
  x <- val_at t 13 ;; _ <- expect_dbl_eq x (D 42 (-1)) ;;
  '(i, t) <- push_val_op t (D 34 (-1)) [1; 7; 13] ;;
  _ <- expect_eq (hd t) (4 * min_rec_size + 3 + 1) ;;
  op4 <- operand_val t i ;;
  _ <- expect_dbl_eq_1 op4 [f0; D 12 (-1); D 42 (-1)] ;; _ <- expect_eq (zlen op4) 3 ;;
  '(i, t) <- push_val t (D 3428 (-1)) ;;
  _ <- expect_eq (hd t) (i + min_rec_size) ;;
  t <- set_adj_at t 13 (D (-1) 0) ;;
  x <- adj_at t 13 ;; _ <- expect_dbl_eq x (D (-1) 0) ;;
  '(i, t) <- push_val_dop t (D 32 0) [D 2 0; D 32 (-1)] ;;
  _ <- expect_eq (hd t) (i + min_rec_size + 2 * 2) ;;
  dop <- data_operand t i ;;
  _ <- expect_dbl_eq_1 dop [D 2 0; D 32 (-1)] ;; _ <- expect_eq (zlen dop) 2 ;;
  '(i, t) <- push_val_op_dop t (D 33 0) [1; 7; 13; 19] [D 2 0; D 14 (-1); D 32 (-1)] ;;
  t <- set_adj_at t 13 (D 22 (-1)) ;;
  t <- set_adj_at t 19 (D 24 (-1)) ;;
  x <- operand_val t i ;;
  y <- operand_adj t i ;;
  z <- data_operand t i ;;
  _ <- expect_dbl_eq_1 x [f0; D 12 (-1); D 42 (-1); D 34 (-1)] ;; _ <- expect_eq (zlen x) 4 ;;
  _ <- expect_dbl_eq_1 y [f0; f0; D 22 (-1); D 24 (-1)] ;; _ <- expect_eq (zlen y) 4 ;;
  _ <- expect_dbl_eq_1 z [D 2 0; D 14 (-1); D 32 (-1)] ;; _ <- expect_eq (zlen z) 3 ;;
  Ok tt.
Example tape_test : ends tape_prog = Returns.
Proof. vm_compute. reflexivity. Qed.

(* test/unit/vari_test.F90; y4 = y3 copies the record index and the chain pointer into
   the element y4 points to *)
Example vari_test : passes (
  y1 <~ new_vari ;; val_is y1 f0 ;;;
  y2 <~ new_vari_val (D 25 (-1)) ;; val_is y2 (D 25 (-1)) ;;;
  i1 <~ vid y1 ;; i2 <~ vid y2 ;;
  y3 <~ new_vari_val_op (D 29 (-1)) [i1; i2] ;;
  x1 <~ rec_ operand_val y3 ;; DBLS x1 [f0; D 25 (-1)] ;;; EQ (zlen x1) 2 ;;;
  i3 <~ vid y3 ;;
  y4 <~ new_vari_val_op_dop (D 39 (-1)) [i3; i2; i1] [D 3 (-1); D 23 (-1)] ;;
  ops <~ rec_ operand_index y4 ;;
  EQ (nth 0 ops 0) 13 ;;; EQ (nth 1 ops 0) 7 ;;; EQ (nth 2 ops 0) 1 ;;;
  x1 <~ rec_ data_operand y4 ;; DBLS x1 [D 3 (-1); D 23 (-1)] ;;; EQ (zlen x1) 2 ;;;
  head_is 5 ;;;
  mput (fun s => v <- vget s y3 ;; vput s y4 v) ;;;
  head_is 5 ;;; val_is y4 (D 29 (-1)) ;;;
  adj_is y3 f0 ;;; init_dependent y4 ;;; adj_is y3 f1).
Proof. vm_compute. reflexivity. Qed.

(* test/unit/var_test.F90 *)
Example var_test :
  let z := [D 12 (-1); D 22 (-1); D 52 (-1)] in
  let a := z ++ [D 13 (-1); D 23 (-1); D 53 (-1)] in
  passes (
  y1 <~ Vari.new_var ;; head_is 2 ;;;
  y2 <~ new_var_val (D 25 (-1)) ;; val_is y2 (D 25 (-1)) ;;; head_is 3 ;;;
  y3 <~ new_var_val (D 55 (-1)) ;;
  val_near y1 f0 ;;; val_near y2 (D 25 (-1)) ;;; val_near y3 (D 55 (-1)) ;;; head_is 4 ;;;
  set_var y3 (D 94 (-1)) ;;;
  val_near y1 f0 ;;; val_near y2 (D 25 (-1)) ;;; val_near y3 (D 94 (-1)) ;;;
  i <~ vid y3 ;; EQ i 13 ;;; head_is 4 ;;;
  set_var y2 (D 92 (-1)) ;;;
  val_near y1 f0 ;;; val_near y2 (D 92 (-1)) ;;; val_near y3 (D 94 (-1)) ;;;
  i <~ vid y2 ;; EQ i 7 ;;; i <~ vid y3 ;; EQ i 13 ;;; head_is 4 ;;;
  let y2 := y3 in
  v <~ vval y3 ;; val_near y2 v ;;;
  let y4 := y3 in val_near y4 v ;;; head_is 4 ;;;
  y5 <~ new_var_vals z ;; vals_are y5 z ;;; head_is 7 ;;;
  y6 <~ new_var_vals a ;; vals_are y6 a ;;; head_is 13 ;;;
  y2 <~ new_var_val_op (D 25 (-1)) y5 ;;
  zz <~ rec_ operand_val y2 ;; vals_are y5 zz ;;; EQ (zlen zz) 3).
Proof. vm_compute. reflexivity. Qed.

(* test/unit/nest_test.F90 *)
Example nest_test : passes (
  begin_nested ;;;
  y <~ new_var_vals [D 2 0; D 3 0] ;;
  f <~ new_var_vals [f0; f0] ;;
  let '(a, b) := (at_ 0 y 1, at_ 0 y 2) in
  g1 <~ mul_vv a b ;;
  u <~ mul_vv b b ;; g2 <~ mul_vv u a ;;
  set_zero_nested_adj ;;; grad g1 ;;; adjs_are y [D 3 0; D 2 0] ;;;
  set_zero_nested_adj ;;; grad g2 ;;; adjs_are y [D 9 0; D 12 0] ;;;
  end_nested ;;;
  thead_is 1 ;;;
  v <~ new_var_vals [D 1 0; D 2 0; D 3 0] ;; thead_is 19 ;;;
  begin_nested ;;; thead_is 19 ;;;
  u <~ new_var_vals [D 1 0; D 2 0; D 3 0; D 4 0] ;; thead_is 43 ;;;
  begin_nested ;;; thead_is 43 ;;;
  b <~ new_var_val (D 443 0) ;; a <~ new_var_val (D 232 0) ;; thead_is 55 ;;;
  end_nested ;;; thead_is 43 ;;; val_is a f0 ;;; val_is b f0 ;;;
  end_nested ;;; thead_is 19 ;;; vals_are u [f0; f0; f0; f0] ;;; vals_are v [D 1 0; D 2 0; D 3 0] ;;;
  end_nested ;;; thead_is 19 ;;; vals_are v [D 1 0; D 2 0; D 3 0]).
Proof. vm_compute. reflexivity. Qed.

(* test/unit/alloc_test.F90 *)
Example alloc_test : passes (
  let n := 4100%nat in
  let a := map (fun i => l_ofZ tm (Z.of_nat i)) (seq 1 n) in
  k <~ vsize ;; EQ k 0 ;;;
  x <~ new_var_vals a ;; k <~ vsize ;; EQ k (8 * 1024) ;;; head_is (Z.of_nat n + 1) ;;;
  y <~ new_var_vals a ;; k <~ vsize ;; EQ k (16 * 1024) ;;;
  z <~ dot_prod_vv x y ;; k <~ vsize ;; EQ k (16 * 1024) ;;; head_is (2 * Z.of_nat n + 2)).
Proof. vm_compute. reflexivity. Qed.

(* test/unit/rel_test.F90 *)
Example rel_test :
  let is (q : rel) (a b : Z) (t : bool) : M unit := r <~ rel_vv q a b ;; TRUE (Bool.eqb r t) in
  passes (
  y1 <~ new_var_val (D 3 0) ;; let y2 := y1 in
  y3 <~ new_var_val (D 4 0) ;; y4 <~ new_var_val (D 41 (-1)) ;;
  is REq y1 y2 true ;;; is RGt y3 y2 true ;;; is RGe y3 y2 true ;;; is RGe y1 y2 true ;;;
  is RLe y1 y2 true ;;; is RGt y4 y3 true ;;; is RLt y1 y4 true ;;; is RLt y4 y3 false).
Proof. vm_compute. reflexivity. Qed.

(* elemental operations on arrays *)
Definition each (f : Z -> M Z) (a : list Z) : M (list Z) := mmap f a.
Definition each2 (f : Z -> Z -> M Z) (a b : list Z) : M (list Z) := mmap (fun p => f (fst p) (snd p)) (combine a b).

(* test/unit/add_test.F90 *)
Example add_test : let z1 := D 24 (-1) in let z2 := D 39 (-1) in passes (
  x0 <~ new_var_val (D 15 (-1)) ;; x <~ add_vd x0 z1 ;; let y1 := x in
  head_is 3 ;;; val_near x (D 15 (-1) + z1)%ft ;;;
  set_adj_ x (D 4 (-1)) ;;; chain_ x ;;;
  a <~ mget (fun s => adj_at (s_tape s) 1) ;; adj_near x a ;;;
  y2 <~ new_var_val (D 26 (-1)) ;; y3 <~ add_vv y2 y1 ;;
  head_is 5 ;;; v2 <~ vval y2 ;; v1 <~ vval y1 ;; val_near y3 (v2 + v1)%ft ;;;
  init_dependent y3 ;;; chain_ y3 ;;; adj_near y2 f1 ;;; adj_near y1 (D 14 (-1)) ;;;
  set_zero_all_adj ;;; adj_near y2 f0 ;;; adj_near y1 f0 ;;;
  t <~ add_vd y1 z1 ;; t <~ add_vv t y2 ;; y4 <~ add_vd t z2 ;;
  grad y4 ;;; adj_near y2 f1 ;;; adj_near y1 f1 ;;;
  set_zero_all_adj ;;;
  a <~ sin_v y1 ;; t <~ add_vd a (fsin z1) ;; b <~ cos_v y2 ;; t <~ add_vv t b ;; y4 <~ add_vd t (fcos z2) ;;
  head_is 13 ;;; grad y4 ;;;
  val_near y4 (fsin v1 + fsin z1 + fcos v2 + fcos z2)%ft ;;;
  adj_near y1 (fcos v1) ;;; adj_near y2 (- fsin v2)%ft ;;;
  y4 <~ pos y3 ;; grad y4 ;;; adj_near y3 f1 ;;;
  q1 <~ new_var_vals [D 12 (-1); D 3 0] ;; q2 <~ new_var_vals [D 22 (-1); D 4 0] ;;
  q <~ each2 add_vv q1 q2 ;;
  set_zero_all_adj ;;; set_adj_ (at_ 0 q 1) (D 13 (-1)) ;;; chain_ (at_ 0 q 1) ;;;
  adjs_are q1 [D 13 (-1); f0] ;;; adjs_are q2 [D 13 (-1); f0] ;;;
  set_zero_all_adj ;;; set_adj_ (at_ 0 q 2) (D 13 (-1)) ;;; chain_ (at_ 0 q 2) ;;;
  adjs_are q1 [f0; D 13 (-1)] ;;; adjs_are q1 [f0; D 13 (-1)] ;;;
  x <~ new_var_val (D 3 0) ;;
  t <~ add_vv x x ;; t <~ add_vv t x ;; y1 <~ add_vv t x ;;
  set_zero_all_adj ;;; grad y1 ;;; adj_is x (D 4 0)).
Proof. vm_compute. reflexivity. Qed.

(* test/unit/sub_test.F90 *)
Example sub_test : let z1 := D 24 (-1) in let z2 := D 39 (-1) in passes (
  x0 <~ new_var_val (D 15 (-1)) ;; x <~ sub_vd x0 z1 ;; let y1 := x in
  head_is 3 ;;; val_near y1 (D 15 (-1) - z1)%ft ;;;
  set_adj_ y1 (D 4 (-1)) ;;; chain_ y1 ;;; adj_near x (D 4 (-1)) ;;; adj_near y1 (D 4 (-1)) ;;;
  y2 <~ new_var_val (D 26 (-1)) ;; y3 <~ sub_vv y2 y1 ;;
  head_is 5 ;;; v2 <~ vval y2 ;; v1 <~ vval y1 ;; val_near y3 (v2 - v1)%ft ;;;
  set_zero_all_adj ;;; init_dependent y3 ;;; chain_ y3 ;;; adj_near y2 f1 ;;; adj_near y1 (D (-1) 0) ;;;
  t <~ sub_vd y1 z1 ;; t <~ sub_vv t y2 ;; y4 <~ sub_vd t z2 ;;
  head_is 8 ;;; set_zero_all_adj ;;; grad y4 ;;; adj_near y1 f1 ;;; adj_near y2 (D (-1) 0) ;;;
  set_zero_all_adj ;;;
  a <~ sin_v y1 ;; t <~ sub_vd a (fsin z1) ;; b <~ cos_v y2 ;; t <~ sub_vv t b ;; y4 <~ add_vd t (fcos z2) ;;
  head_is 13 ;;; set_zero_all_adj ;;; grad y4 ;;;
  val_near y4 (fsin v1 - fsin z1 - fcos v2 + fcos z2)%ft ;;;
  adj_near y1 (fcos v1) ;;; adj_near y2 (fsin v2) ;;;
  y4 <~ neg y3 ;; set_zero_all_adj ;;; grad y4 ;;; adj_near y3 (D (-1) 0) ;;;
  y4 <~ sub_vv y2 y2 ;; set_zero_all_adj ;;; grad y4 ;;; adj_near y2 f0 ;;;
  t <~ sub_vv y2 y2 ;; y4 <~ sub_vv t y2 ;; set_zero_all_adj ;;; grad y4 ;;; adj_near y2 (D (-1) 0)).
Proof. vm_compute. reflexivity. Qed.

(* test/unit/mul_test.F90 *)
Example mul_test : let z1 := D 2 0 in let z2 := D 39 (-1) in passes (
  x <~ new_var_val (D 15 (-1)) ;; x <~ mul_vd x z1 ;; x <~ mul_dv z2 x ;;
  head_is 4 ;;; val_near x (D 15 (-1) * z1 * z2)%ft ;;;
  grad x ;;; adj_is 3 f1 ;;; adj_is 2 z2 ;;; adj_is 1 (z1 * z2)%ft ;;;
  y2 <~ new_var_val (D 26 (-1)) ;; let y1 := x in y3 <~ mul_vv y2 y1 ;;
  head_is 6 ;;; v1 <~ vval y1 ;; v2 <~ vval y2 ;; val_is y3 (D 26 (-1) * v1)%ft ;;;
  set_zero_all_adj ;;; set_adj_ y3 (D 25 (-1)) ;;; chain_ y3 ;;;
  adj_is y2 (D 25 (-1) * v1)%ft ;;; adj_is y1 (D 25 (-1) * v2)%ft ;;; adj_is x (D 25 (-1) * v2)%ft ;;;
  a <~ mul_vv y3 y2 ;; b <~ mul_vv y1 y2 ;; y4 <~ add_vv a b ;;
  set_zero_all_adj ;;; grad y4 ;;;
  adj_is y3 v2 ;;; adj_is y2 (D 2 0 * v2 * v1 + v1)%ft ;;; adj_is y1 (v2 + sq v2)%ft ;;;
  q1 <~ new_var_vals [D 12 (-1); D 3 0] ;; q2 <~ new_var_vals [D 22 (-1); D 4 0] ;;
  q <~ each2 mul_vv q1 q2 ;;
  set_zero_all_adj ;;; grad (at_ 0 q 1) ;;; adjs_are q1 [D 22 (-1); f0] ;;; adjs_are q2 [D 12 (-1); f0] ;;;
  set_zero_all_adj ;;; grad (at_ 0 q 2) ;;; adjs_are q1 [f0; D 4 0] ;;; adjs_are q2 [f0; D 3 0] ;;;
  q <~ each (mul_dv (D 2 0)) q1 ;; vals_are q [D 2 0 * D 12 (-1); D 2 0 * D 3 0]%ft ;;;
  q <~ each (fun v => mul_vd v (D 34 (-1))) q1 ;; vals_are q [D 34 (-1) * D 12 (-1); D 34 (-1) * D 3 0]%ft ;;;
  set_zero_all_adj ;;; init_dependent (at_ 0 q 2) ;;; chain_ (at_ 0 q 2) ;;;
  adjs_are q1 [f0; D 34 (-1)] ;;; adjs_are q2 [f0; f0] ;;;
  x <~ new_var_val (D 3 0) ;;
  t <~ mul_vv x x ;; t <~ mul_vv t x ;; y1 <~ mul_vv t x ;;
  set_zero_all_adj ;;; grad y1 ;;; adj_is x (D 108 0)).
Proof. vm_compute. reflexivity. Qed.

(* test/unit/div_test.F90 *)
Example div_test : let z1 := D 2 0 in let z2 := D 45 (-1) in let a := D 15 (-1) in passes (
  x <~ new_var_val a ;; x <~ div_vd x z1 ;; x <~ div_dv z2 x ;;
  head_is 4 ;;; val_near 1 a ;;; val_near 2 (a / z1)%ft ;;; val_near 3 (z1 * z2 / a)%ft ;;; val_near x (z1 * z2 / a)%ft ;;;
  grad x ;;; adj_near 1 (- (z1 * z2 / sq a))%ft ;;; adj_near 2 (- (z2 * z1 * z1 / sq a))%ft ;;; adj_near 3 f1 ;;;
  y2 <~ new_var_val (D 25 (-1)) ;; let y1 := x in
  t <~ mul_vv y1 y2 ;; y3 <~ div_vv t y1 ;;
  head_is 7 ;;; set_zero_all_adj ;;; grad y3 ;;; adj_near y2 f1 ;;; adj_near y1 f0 ;;;
  b <~ mul_vd y3 z1 ;; t <~ div_vv y2 y1 ;; t <~ div_vd t z2 ;; y4 <~ div_vv b t ;;
  set_zero_all_adj ;;; grad y4 ;;;
  v1 <~ vval y1 ;; v2 <~ vval y2 ;;
  adj_near y1 (z1 * z2)%ft ;;; adj_near y2 f0 ;;; adj_near y3 (z1 * z2 * v1 / v2)%ft ;;;
  y1 <~ div_vv x x ;; set_zero_all_adj ;;; grad y1 ;;; adj_near x f0).
Proof. vm_compute. reflexivity. Qed.

(* test/unit/sum_test.F90 *)
Example sum_test : let z1 := [D 1 0; D 47 0; D 3 0; D 53 0] in passes (
  x <~ new_var_vals z1 ;; s <~ sum_v x ;; val_is s (fsum z1) ;;;
  grad s ;;; adj_is s f1 ;;; adjs_are x [f1; f1; f1; f1] ;;;
  xs <~ vvals x ;; t <~ new_var_vals (xs ++ [D 1 0]) ;; s <~ sum_v t ;;
  head_is 12 ;;; set_zero_all_adj ;;; grad s ;;;
  adjs_are [6; 7; 8; 9; 10; 11] [f1; f1; f1; f1; f1; f1] ;;; adjs_are [1; 2; 3; 4; 5] [f0; f0; f0; f0; f0] ;;;
  a <~ new_var_val (D 3 0) ;; b <~ new_var_val (D 3 0) ;; s <~ sum_v [a; a; a; b] ;;
  set_zero_all_adj ;;; grad s ;;; adj_is a (D 3 0)).
Proof. vm_compute. reflexivity. Qed.

(* test/unit/dot_product_test.F90 *)
Example dot_product_test :
  let a := [D 1 0; D 47 0; D 3 0; D 53 0] in
  let w := D 25 (-1) in
  let s := map (fmul w) in
  passes (
  x <~ new_var_vals [D 1 0; D 2 0; D 3 0; D 4 0] ;; y <~ new_var_vals [D 4 0; D 3 0; D 2 0; D 1 0] ;;
  z <~ dot_prod_vv x y ;; val_is z (D 20 0) ;;;
  set_adj_ z w ;;; chain_ z ;;; adj_is z w ;;;
  adjs_are x (s [D 4 0; D 3 0; D 2 0; D 1 0]) ;;; adjs_are y (s [D 1 0; D 2 0; D 3 0; D 4 0]) ;;;
  set_zero_all_adj ;;;
  z <~ dot_prod_dv a x ;; xs <~ vvals x ;; val_is z (fdot xs a) ;;;
  set_adj_ z w ;;; chain_ z ;;; adj_is z w ;;; k <~ rec_ n_operand z ;; EQ k 4 ;;; adjs_are x (s a) ;;;
  set_zero_all_adj ;;;
  z <~ dot_prod_vd y a ;; ys <~ vvals y ;; val_is z (fdot ys a) ;;;
  set_adj_ z w ;;; chain_ z ;;; adj_is z w ;;; k <~ rec_ n_operand z ;; EQ k 4 ;;; adjs_are y (s a) ;;;
  z <~ dot_prod_vv x x ;; set_zero_all_adj ;;; grad z ;;; adjs_are x (map (fmul (D 2 0)) xs) ;;;
  p <~ new_var_val (D 5 (-1)) ;; let x := [p; p; p; p] in
  z <~ dot_prod_vv x x ;; set_zero_all_adj ;;; grad z ;;; adj_is p (D 8 0 * D 5 (-1))%ft ;;;
  z <~ dot_prod_vd x a ;; set_zero_all_adj ;;; grad z ;;; adj_is p (fsum a) ;;;
  DBL (fdot a a) (D 5028 0)).
Proof. vm_compute. reflexivity. Qed.

(* test/unit/matmul_test.F90; element (i,j) of a matrix with m rows *)
Definition el {A} (d : A) (m : nat) (l : list A) (i j : nat) : A := nth (i - 1 + (j - 1) * m) l d.
Definition row_ {A} (d : A) (m n : nat) (l : list A) (i : nat) : list A := map (el d m l i) (seq 1 n).
Definition col_ {A} (d : A) (m : nat) (l : list A) (j : nat) : list A := map (fun i => el d m l i j) (seq 1 m).
Fixpoint loop (l : list nat) (f : nat -> M unit) : M unit :=
  match l with [] => mret tt | i :: l' => f i ;;; loop l' f end.
Definition loops (m n : nat) (f : nat -> nat -> M unit) : M unit := loop (seq 1 n) (fun j => loop (seq 1 m) (fun i => f i j)).
Example matmul_test :
  let a := map (fun z => D z 0) [1; 47; 3; 53; 21; 7; 3; 3] in
  let b := map (fun z => D z 0) [1; 47; 3; 53; 21; 7; 3; 3] ++ [D 32 (-1); D 8 0] in
  let c := map (fun z => D z 0) [1; 47; 3; 53; 21; 7; 3; 3] ++ [D 32 (-1); D 8 0; D 2 0; D 42 0] in
  let w := D 25 (-1) in
  passes (
  x <~ new_var_vals a ;; y <~ new_var_vals b ;; z <~ mat_mul_vv 4 2 5 x y ;;
  head_is 39 ;;; vals_are z (mat_vals 4 2 5 a b) ;;;
  loops 4 5 (fun i j =>
    set_zero_all_adj ;;; grad (el 0 4 z i j) ;;;
    adjs_are (row_ 0 4 2 x i) (col_ f0 2 b j) ;;; adjs_are (col_ 0 2 y j) (row_ f0 4 2 a i)) ;;;
  loops 4 5 (fun i j =>
    set_zero_all_adj ;;; set_adj_ (el 0 4 z i j) w ;;; chain_ (el 0 4 z i j) ;;;
    adjs_are (row_ 0 4 2 x i) (map (fmul w) (col_ f0 2 b j)) ;;; adjs_are (col_ 0 2 y j) (map (fmul w) (row_ f0 4 2 a i))) ;;;
  z <~ mat_mul_vd 4 2 5 x b ;; vals_are z (mat_vals 4 2 5 a b) ;;;
  loops 4 5 (fun i j =>
    set_zero_all_adj ;;; set_adj_ (el 0 4 z i j) w ;;; chain_ (el 0 4 z i j) ;;;
    adjs_are (row_ 0 4 2 x i) (map (fmul w) (col_ f0 2 b j))) ;;;
  q <~ mat_mul_dv 3 4 2 c x ;; vals_are q (mat_vals 3 4 2 c a) ;;;
  loops 3 2 (fun i j =>
    set_zero_all_adj ;;; grad (el 0 3 q i j) ;;;
    adjs_are (col_ 0 4 x j) (row_ f0 3 4 c i))).
Proof. vm_compute. reflexivity. Qed.

(* the common shape of test/unit/{sin,cos,tan,asin,acos,atan,sqrt}_test.F90: x = var(a),
   y1 = f(x), y2 = f(y1); d1 and d2 are the derivatives expected at x and at y1; first is how
   the first derivative is taken *)
Definition by_grad (h : Z) : M unit := grad h.
Definition by_chain (h : Z) : M unit := init_dependent h ;;; chain_ h.
Definition twice (v : Z -> M Z) (f : F -> F) (a d1 d2 : F) (first : Z -> M unit) : M (Z * Z) :=
  x <~ new_var_val a ;; y1 <~ v x ;; first y1 ;;;
  val_near y1 (f a) ;;; adj_near y1 f1 ;;; adj_near x d1 ;;; head_is 3 ;;;
  z1 <~ vval x ;; val_near y1 (f z1) ;;;
  y3 <~ new_var_val (D 15 (-1)) ;; y2 <~ v y1 ;;
  set_zero_all_adj ;;; adj_near y1 f0 ;;; adj_near x f0 ;;; val_near y2 (f (f a)) ;;;
  id <~ rec_ operand_index y2 ;; i1 <~ vid y1 ;; EQ (nth 0 id 0) i1 ;;; EQ (zlen id) 1 ;;;
  k <~ rec_ n_operand y1 ;; EQ k 1 ;;; k <~ rec_ n_operand y3 ;; EQ k 0 ;;;
  set_zero_all_adj ;;; init_dependent y2 ;;; chain_ y2 ;;;
  adj_near y3 f0 ;;; adj_near x f0 ;;; adj_near y2 f1 ;;; adj_near y1 d2 ;;;
  mret (y1, y2).
Definition alone (m : M (Z * Z)) : M unit := _ <~ m ;; mret tt.

(* test/unit/sin_test.F90 *)
Example sin_test : let a := D 14 (-1) in let w := D 13 (-1) in passes (
  r <~ twice sin_v fsin a (fcos a) (fcos (fsin a)) by_chain ;;
  let '(y1, y2) := r in
  z <~ each sin_v [y1; y2] ;;
  v1 <~ vval y1 ;; v2 <~ vval y2 ;;
  set_zero_all_adj ;;; set_adj_ (at_ 0 z 1) w ;;; chain_ (at_ 0 z 1) ;;;
  adj_is y1 (w * fcos v1)%ft ;;; adj_is y2 f0 ;;;
  set_zero_all_adj ;;; adj_is y1 f0 ;;; set_adj_ (at_ 0 z 2) w ;;; chain_ (at_ 0 z 2) ;;;
  adj_is y1 f0 ;;; adj_is y2 (w * fcos v2)%ft).
Proof. vm_compute. reflexivity. Qed.
(* test/unit/cos_test.F90, tan_test.F90, asin_test.F90, atan_test.F90, sqrt_test.F90 *)
Example cos_test : let a := D 14 (-1) in
  passes (alone (twice cos_v fcos a (- fsin a)%ft (- fsin (fcos a))%ft by_grad)).
Proof. vm_compute. reflexivity. Qed.
Example tan_test : let a := D 14 (-1) in let b := ftan a in
  passes (alone (twice tan_v ftan a (f1 / fcos a / fcos a)%ft (f1 / fcos b / fcos b)%ft by_grad)).
Proof. vm_compute. reflexivity. Qed.
Example asin_test : let a := D 7 (-1) in let b := fasin a in
  passes (alone (twice asin_v fasin a (f1 / fsqrt (f1 - a * a))%ft (f1 / fsqrt (f1 - b * b))%ft by_chain)).
Proof. vm_compute. reflexivity. Qed.
Example acos_test : let a := D 7 (-1) in let b := facos a in
  passes (alone (twice acos_v facos a (- f1 / fsqrt (f1 - a * a))%ft (- f1 / fsqrt (f1 - b * b))%ft by_grad)).
Proof. vm_compute. reflexivity. Qed.
Example atan_test : let a := D 15 (-1) in let b := fatan a in
  passes (alone (twice atan_v fatan a (f1 / (f1 + a * a))%ft (f1 / (f1 + b * b))%ft by_grad)).
Proof. vm_compute. reflexivity. Qed.
Example sqrt_test : let a := D 2 (-1) in let b := fsqrt a in
  passes (alone (twice sqrt_v fsqrt a (fhalf / fsqrt a)%ft (fhalf / fsqrt b)%ft by_grad)).
Proof. vm_compute. reflexivity. Qed.

(* test/unit/exp_test.F90 *)
Example exp_test : let a := D 15 (-1) in passes (
  x <~ new_var_val a ;; y1 <~ exp_v x ;; grad y1 ;;;
  val_near y1 (fexp a) ;;; adj_near y1 f1 ;;; adj_near x (fexp a) ;;; head_is 3 ;;;
  z1 <~ vval x ;; val_near y1 (fexp z1) ;;;
  y3 <~ new_var_val (D 15 (-1)) ;; y2 <~ exp_v y1 ;;
  set_zero_all_adj ;;; adj_near y1 f0 ;;; adj_near x f0 ;;; val_near y2 (fexp (fexp a)) ;;;
  init_dependent y2 ;;; chain_ y2 ;;;
  adj_near y3 f0 ;;; adj_near x f0 ;;; adj_near y2 f1 ;;; adj_near y1 (fexp (fexp a))).
Proof. vm_compute. reflexivity. Qed.

(* test/unit/log_test.F90 *)
Example log_test : let a := D 15 (-1) in let w := D 25 (-1) in passes (
  x <~ new_var_val a ;; y1 <~ log_v x ;; grad y1 ;;;
  val_near y1 (flog a) ;;; adj_near y1 f1 ;;; adj_near x (f1 / a)%ft ;;; head_is 3 ;;;
  z1 <~ vval x ;; val_near y1 (flog z1) ;;;
  y3 <~ new_var_val (D 15 (-1)) ;; y2 <~ log_v y1 ;;
  set_zero_all_adj ;;; adj_near y1 f0 ;;; adj_near x f0 ;;; val_near y2 (flog (flog a)) ;;;
  set_adj_ y2 w ;;; chain_ y2 ;;;
  adj_near y3 f0 ;;; adj_near x f0 ;;; adj_near y2 w ;;; adj_near y1 (w / flog a)%ft).
Proof. vm_compute. reflexivity. Qed.

(* test/unit/abs_test.F90 *)
Example abs_test : let a := D 3 (-1) in passes (
  x <~ new_var_val a ;; y1 <~ abs_v x ;; val_is y1 a ;;; grad y1 ;;; adj_is x f1 ;;;
  set_zero_all_adj ;;; x <~ new_var_val (- a)%ft ;; y2 <~ abs_v x ;; val_is y2 a ;;; grad y2 ;;; adj_is x (- f1)%ft ;;;
  set_zero_all_adj ;;; x <~ new_var_val f0 ;; y3 <~ abs_v x ;; val_is y3 f0 ;;; grad y2 ;;; adj_is x f0 ;;;
  set_zero_all_adj ;;; x <~ new_var_val c_nan ;; y4 <~ abs_v x ;;
  v <~ vval y4 ;; TRUE (is_nan_d v) ;;; grad y4 ;;; v <~ vadj x ;; TRUE (is_nan_d v)).
Proof. vm_compute. reflexivity. Qed.

(* test/unit/pow_test.F90 *)
Example pow_test : passes (
  x <~ new_var_val (D 2 0) ;;
  y <~ pow_vd x (D 3 0) ;; val_is y (D 8 0) ;;; grad y ;;; adj_is x (D 12 0) ;;;
  y <~ pow_vd x (D 2 0) ;; set_zero_all_adj ;;; grad y ;;; adj_is x (D 4 0) ;;;
  y <~ pow_vd x (D 1 0) ;; set_zero_all_adj ;;; grad y ;;; adj_is x (D 1 0) ;;;
  y <~ pow_vd x (D (-1) 0) ;; set_zero_all_adj ;;; grad y ;;; adj_is x (D (-25) (-2)) ;;;
  y <~ pow_vd x (D (-2) 0) ;; set_zero_all_adj ;;; grad y ;;; adj_is x (D (-2) 0 / D 8 0)%ft ;;;
  let b := flog (D 3 0) in
  y <~ pow_dv (D 3 0) x ;; set_zero_all_adj ;;; grad y ;;; adj_is x (b * D 9 0)%ft ;;;
  z <~ new_var_val (D 3 0) ;; y <~ pow_vv z x ;; set_zero_all_adj ;;; grad y ;;;
  adj_is z (D 2 0 * D 3 0)%ft ;;; adj_is x (b * D 9 0)%ft).
Proof. vm_compute. reflexivity. Qed.

(* test/unit/norm2_test.F90 *)
Example norm2_test : let z := [D 1 0; D 47 0; D 3 0; D 53 0] in passes (
  x <~ new_var_vals z ;; s <~ norm2_v x ;; val_is s (fnorm2 z) ;;;
  grad s ;;; adj_is s f1 ;;; adjs_are x (map (fun d => d / fnorm2 z)%ft z)).
Proof. vm_compute. reflexivity. Qed.

(* test/unit/hyperbolic_test.F90 *)
Example hyperbolic_test : let a := D 2 0 in let b := (f1 / fsqrt (D 2 0))%ft in passes (
  x <~ new_var_val a ;;
  y <~ sinh_v x ;; val_is y (fsinh a) ;;; grad y ;;; adj_is x (fcosh a) ;;; set_zero_all_adj ;;;
  y <~ cosh_v x ;; val_is y (fcosh a) ;;; grad y ;;; adj_is x (fsinh a) ;;; set_zero_all_adj ;;;
  y <~ tanh_v x ;; val_is y (ftanh a) ;;; grad y ;;; adj_is x (f1 / fcosh a / fcosh a)%ft ;;; set_zero_all_adj ;;;
  y <~ asinh_v x ;; val_is y (fasinh a) ;;; grad y ;;; adj_is x (f1 / fsqrt (D 5 0))%ft ;;; set_zero_all_adj ;;;
  y <~ acosh_v x ;; val_is y (facosh a) ;;; grad y ;;; adj_is x (f1 / fsqrt (D 3 0))%ft ;;; set_zero_all_adj ;;;
  set_var x b ;;;
  y <~ atanh_v x ;; val_is y (fatanh b) ;;; grad y ;;; adj_is x (D 2 0)).
Proof. vm_compute. reflexivity. Qed.

(* test/unit/erf_test.F90 *)
Example erf_test : let g := (D 2 0 / fsqrt (fmul (D 4 0) (fatan f1)) * fexp (D (-9) (-2)))%ft in passes (
  x <~ new_var_val (D (-3) (-1)) ;;
  y1 <~ erf_v x ;; val_is y1 (D (-3286267594591274) (-16)) ;;; grad y1 ;;; adj_is x g ;;; set_zero_all_adj ;;;
  y1 <~ erfc_v x ;; val_is y1 (D 13286267594591274 (-16)) ;;; grad y1 ;;; adj_is x (- g)%ft ;;;
  x <~ new_var_val f0 ;; y2 <~ erf_v x ;; val_is y2 f0 ;;;
  set_var x (D (-100) 0) ;;; y3 <~ erf_v x ;; val_is y3 (- f1)%ft).
Proof. vm_compute. reflexivity. Qed.

(* test/unit/log_gamma_test.F90 *)
Example log_gamma_test : let a := D 6 (-1) in passes (
  x <~ new_var_val a ;; y1 <~ log_gamma_v x ;; val_is y1 (floggamma a) ;;; grad y1 ;;; adj_is x (digamma a)).
Proof. vm_compute. reflexivity. Qed.

(* test/unit/logit_test.F90 *)
Example logit_test : let a := D 6 (-1) in let e := flog (D 6 (-1) / D 4 (-1))%ft in let g := (f1 / (D 6 (-1) - D 36 (-2)))%ft in
  passes (
  x <~ new_var_val a ;; y1 <~ logit_v x ;; t <~ sub_dv f1 x ;; t <~ div_vv x t ;; y2 <~ log_v t ;;
  val_is y1 e ;;; val_is y2 e ;;; grad y1 ;;; adj_is x g ;;; set_zero_all_adj ;;; grad y2 ;;; adj_is x g).
Proof. vm_compute. reflexivity. Qed.

(* test/unit/inv_logit_test.F90 *)
Definition inv_logit_part (a : F) : M unit :=
  let v := (fexp a / (f1 + fexp a))%ft in let g := (fexp a / sq (f1 + fexp a))%ft in
  x <~ new_var_val a ;; y1 <~ inv_logit_v x ;;
  e1 <~ exp_v x ;; e2 <~ exp_v x ;; t <~ add_dv f1 e2 ;; y2 <~ div_vv e1 t ;;
  val_is y1 v ;;; val_is y2 v ;;; grad y1 ;;; adj_is x g ;;; set_zero_all_adj ;;; grad y2 ;;; adj_is x g.
Example inv_logit_test : passes (inv_logit_part (D 6 (-1)) ;;; inv_logit_part (D (-12) (-1))).
Proof. vm_compute. reflexivity. Qed.

(* test/unit/digamma_test.F90 *)
Example digamma_test : let t := D 1 (-15) in passes (
  DBL (digamma (D (-3) (-1))) (D 2113309779635398718584726 (-24)) ;;;
  NEAR (digamma (D 3 (-1))) (D (-3502524222200132988964494) (-24)) t ;;;
  NEAR (digamma (D 23 (-1))) (D 6000398803639695751380696 (-25)) t ;;;
  NEAR (digamma (D 3 0)) (D 9227843350984671393934879 (-25)) t ;;;
  NEAR (digamma (D 5 0)) (D 15061176684318004727268212 (-25)) t ;;;
  NEAR (digamma (D 2000 0)) (D 76006524387087495489711445 (-25)) t ;;;
  NEAR (digamma (D 888000 0)) (D 1369672645891113837300161 (-23)) t).
Proof. vm_compute. reflexivity. Qed.

(* test/unit/prob/normal_lpdf_test.F90 *)
Example normal_lpdf_test : let y := [D 8 (-1); D (-7) (-1)] in passes (
  mu <~ new_var_val (D 11 (-1)) ;; sigma <~ new_var_val (D 23 (-1)) ;;
  lp1 <~ normal_lpdf_vv [D 8 (-1)] mu sigma ;; val_is lp1 (D (-17603542723968655) (-16)) ;;;
  lp2 <~ normal_lpdf_vv [D (-7) (-1)] mu sigma ;; val_is lp2 (D (-20580858413949752) (-16)) ;;;
  l1 <~ vval lp1 ;; l2 <~ vval lp2 ;;
  lp3 <~ normal_lpdf_vv y mu sigma ;; val_is lp3 (l1 + l2)%ft ;;;
  grad lp1 ;;; adj_is mu (D (-56710775047259) (-15)) ;;; adj_is sigma (D (-427385551080792) (-15)) ;;;
  set_zero_all_adj ;;; grad lp3 ;;; adj_is mu (D (-396975425330813) (-15)) ;;; adj_is sigma (D (-595874085641489) (-15)) ;;;
  sg <~ vval sigma ;; lp4 <~ normal_lpdf_vd y mu sg ;; val_is lp4 (l1 + l2)%ft ;;;
  set_zero_all_adj ;;; grad lp4 ;;; adj_is mu (D (-396975425330813) (-15)) ;;;
  m <~ vval mu ;; lp4 <~ normal_lpdf_dv y m sigma ;; val_is lp4 (l1 + l2)%ft ;;;
  set_zero_all_adj ;;; grad lp4 ;;; adj_is sigma (D (-595874085641489) (-15))).
Proof. vm_compute. reflexivity. Qed.

(* test/unit/prob/lognormal_lpdf_test.F90 *)
Example lognormal_lpdf_test : let y := [D 8 (-1); D 17 (-1)] in passes (
  mu <~ new_var_val (D 11 (-1)) ;; sigma <~ new_var_val (D 23 (-1)) ;;
  lp1 <~ lognormal_lpdf_vv [D 8 (-1)] mu sigma ;; val_is lp1 (D (-16941775317995158) (-16)) ;;;
  lp2 <~ lognormal_lpdf_vv [D 17 (-1)] mu sigma ;; val_is lp2 (D (-23131171348473649) (-16)) ;;;
  l1 <~ vval lp1 ;; l2 <~ vval lp2 ;;
  lp3 <~ lognormal_lpdf_vv y mu sigma ;; val_is lp3 (l1 + l2)%ft ;;;
  set_zero_all_adj ;;; grad lp3 ;;; adj_is mu (D (-357753364886964) (-15)) ;;; adj_is sigma (D (-699030735113594) (-15)) ;;;
  sg <~ vval sigma ;; lp4 <~ lognormal_lpdf_vd y mu sg ;; val_is lp4 (l1 + l2)%ft ;;;
  set_zero_all_adj ;;; grad lp4 ;;; adj_is mu (D (-357753364886964) (-15)) ;;;
  m <~ vval mu ;; lp4 <~ lognormal_lpdf_dv y m sigma ;; val_is lp4 (l1 + l2)%ft ;;;
  set_zero_all_adj ;;; grad lp4 ;;; adj_is sigma (D (-699030735113594) (-15))).
Proof. vm_compute. reflexivity. Qed.

(* test/unit/grad_test.F90 and var_grad_test.F90 *)
Definition pi_ : F := (D 4 0 * fatan f1)%ft.
Definition lead : F := (- (fhalf * flog (D 2 0 * pi_)))%ft.
Definition fx_d (y m s : F) : F := (lead - flog s - fhalf * sq ((y - m) / s))%ft.
Definition d_mu (y m s : F) : F := ((y - m) / (s * s))%ft.
Definition d_sigma (y m s : F) : F := (- (f1 / s) + sq (y - m) / (s * s * s))%ft.
Example grad_test : let y := D 13 (-1) in let m := D 5 (-1) in let s := D 12 (-1) in passes (
  fx <~ gradient (fun x =>
      let mu := at_ 0 x 1 in let sigma := at_ 0 x 2 in
      a <~ log_v sigma ;; a <~ sub_dv lead a ;;
      b <~ sub_dv y mu ;; b <~ div_vv b sigma ;; b <~ pow_vd b (D 2 0) ;; b <~ mul_dv fhalf b ;;
      sub_vv a b) [m; s] ;;
  DBLS fx [fx_d y m s; d_mu y m s; d_sigma y m s] ;;; EQ (zlen fx) 3).
Proof. vm_compute. reflexivity. Qed.
Example var_grad_test : let y := D 13 (-1) in let m := D 5 (-1) in let s := D 12 (-1) in passes (
  mu <~ new_var_val m ;; sigma <~ new_var_val s ;;
  f <~ new_var_val lead ;;
  t <~ log_v sigma ;; f <~ sub_vv f t ;;
  b <~ sub_dv y mu ;; b <~ div_vv b sigma ;; b <~ pow_vd b (D 2 0) ;; b <~ mul_dv fhalf b ;; f <~ sub_vv f b ;;
  grad f ;;; val_is f (fx_d y m s) ;;; adj_is mu (d_mu y m s) ;;; adj_is sigma (d_sigma y m s)).
Proof. vm_compute. reflexivity. Qed.

(* test/unit/cvodes_ysens_rhs_test.F90, cvodes_psens_rhs_test.F90 *)
Example cvodes_ysens_rhs_test : passes (
  let o := mkRhs true 2 [] (fun t y fy p =>
     let '(a, b) := (at_ 0 y 1, at_ 0 y 2) in
     g1 <~ mul_vv a b ;; u <~ mul_vv b b ;; g2 <~ mul_vv u a ;; mret [g1; g2]) in
  r <~ set_sens_rhs (D 2 0) [D 2 0; D 3 0] [[f1; f0]; [f0; f1]] o ;;
  DBLS (nth 0 r []) [D 3 0; D 9 0] ;;; DBLS (nth 1 r []) [D 2 0; D 12 0] ;;; EQ (zlen (concat r)) 4).
Proof. vm_compute. reflexivity. Qed.
Example cvodes_psens_rhs_test : let omega := D 3 (-1) in let d1 := D 42 (-1) in let d2 := D 13 (-1) in let time := D 2 0 in
  let c := fcos (omega * d1 * d2 * time)%ft in passes (
  p <~ new_var_vals [omega; d1; d2] ;; pval <~ vvals p ;;
  let o := mkRhs false 3 pval (fun t y fy p =>
     a <~ mul_vv (at_ 0 p 1) (at_ 0 p 2) ;; a <~ mul_vv a (at_ 0 p 3) ;; a <~ mul_vd a t ;; a <~ sin_v a ;;
     mret [at_ 0 y 2; a]) in
  r <~ set_sens_rhs time [D 2 0; D 3 0] [[f0; f0]; [f0; f0]; [f0; f0]] o ;;
  DBLS (nth 0 r []) [f0; c * d1 * d2 * time]%ft ;;;
  DBLS (nth 1 r []) [f0; c * omega * d2 * time]%ft ;;;
  DBLS (nth 2 r []) [f0; c * omega * d1 * time]%ft ;;; EQ (zlen (concat r)) 6).
Proof. vm_compute. reflexivity. Qed.

(* test/unit/log_sum_exp_test.F90 *)
Example log_sum_exp_test : let z := [D 1 0; D 7 0; D 3 0; D 5 0] in
  let e := fsum (map fexp z) in
  let g := map (fun d => fexp d / e)%ft z in
  let z' := [D 1 0; D 7 0; D 1 8; D 5 0] in
  passes (
  x <~ new_var_vals z ;; s <~ log_sum_exp_v x ;; val_is s (flog e) ;;; grad s ;;; adjs_are x g ;;;
  es <~ each exp_v x ;; t <~ sum_v es ;; s <~ log_v t ;; val_is s (flog e) ;;;
  set_zero_all_adj ;;; grad s ;;; adjs_are x g ;;;
  x <~ new_var_vals z' ;; s <~ log_sum_exp_v x ;; val_is s (D 1 8) ;;;
  set_zero_all_adj ;;; grad s ;;; adjs_are x (map (fun d => fexp (d - log_sum_exp_d z'))%ft z')).
Proof. vm_compute. reflexivity. Qed.

(* test/unit/hypot_test.F90 *)
Example hypot_test : let z := [D 3 0; D 4 0] in let a := (D 3 0 / D 5 0)%ft in let b := (D 4 0 / D 5 0)%ft in passes (
  y <~ new_var_vals z ;;
  x <~ hypot_vv (at_ 0 y 1) (at_ 0 y 2) ;; val_is x (D 5 0) ;;; grad x ;;; adjs_are y [a; b] ;;; set_zero_all_adj ;;;
  x <~ hypot_vd (at_ 0 y 1) (D 4 0) ;; val_is x (D 5 0) ;;; grad x ;;; adjs_are y [a; f0] ;;; set_zero_all_adj ;;;
  x <~ hypot_dv (D 3 0) (at_ 0 y 2) ;; val_is x (D 5 0) ;;; grad x ;;; adjs_are y [f0; b]).
Proof. vm_compute. reflexivity. Qed.
