(* The programs of README.md (also in doc/fazang_user_guide.org) as sequences of library
   calls.  The constants of the text are parameters here, array sizes too.  Expressions
   are evaluated from left to right, array operations element by element; assigning a
   variable to a variable copies the handle and is no call. *)
From Coq Require Import List.
From Verif Require Export BranchSpec Cvodes Session.
Import ListNotations.
Local Open Scope nat_scope.

Section Docs.
Context {N : Num} {C : Cfg N}.

(* README.md:24-30: mu = 0, sigma = 1, f = var(c) = 2; c is -0.5d0 * log(2 * pi)
   log(sigma) = 3, f - log(sigma) = 4, y - mu = 5, (y - mu)/sigma = 6,
   its square = 7, half of it = 8, f = 9 *)
Definition normal_ops (c y mu sigma : F) : list op :=
  [OVar mu; OVar sigma; OVar c; OUn ULog 1; OVV BSub 2 3; ODV BSub y 0; OVV BDiv 5 1; OVD BPow 6 f2; ODV BMul fhalf 7; OVV BSub 4 8].
(* README.md:12-38: the program prints mu%adj() and sigma%adj() *)
Definition var_grad_test (c y mu sigma : F) : M (list F) :=
  v <~ exec (normal_ops c y mu sigma) [] ;; f <~ reg v 9 ;; _ <~ grad f ;; l <~ regs v (seq 0 2) ;; vadjs l.

(* README.md:51-57: the function of grad_test; x(1) = 0, x(2) = 1 *)
Definition readme_f (c y : F) : fn :=
  FCall (OUn ULog 1) (FCall (ODV BSub c 2) (FCall (ODV BSub y 0) (FCall (OVV BDiv 4 1)
    (FCall (OVD BPow 5 f2) (FCall (ODV BMul fhalf 6) (FCall (OVV BSub 3 7) (FRet (8 :: nil)))))))).

(* README.md:139-155: a = var(...), b = var(..), c = 2.d0 * a, d = log(b * a * exp(c)),
   call d(k)%grad(), print c%adj() (d is an array; the text declares it a scalar).  With n elements: a is 0.., b is n, c is n+1..,
   b * a is 2n+1.., exp(c) is 3n+1.., their product 4n+1.., d is 5n+1.. *)
Definition array_ops (n : nat) (a : list F) (b : F) : list op :=
  map OVar a ++ [OVar b] ++ map (ODV BMul f2) (seq 0 n) ++ map (OVV BMul n) (seq 0 n) ++
  map (fun i => OUn UExp (n + 1 + i)) (seq 0 n) ++ map (fun i => OVV BMul (2 * n + 1 + i) (3 * n + 1 + i)) (seq 0 n) ++
  map (fun i => OUn ULog (4 * n + 1 + i)) (seq 0 n).
Definition array_test (n : nat) (a : list F) (b : F) (k : nat) : M (list F) :=
  v <~ exec (array_ops n a b) [] ;; d <~ reg v (5 * n + 1 + k) ;; _ <~ grad d ;; c <~ regs v (seq (n + 1) n) ;; vadjs c.

(* README.md:161-176: x = var(a) (m by p), y = var(b) (p by n), z = matmul(x, y), and for
   every column and row of z: call z(i, j)%grad(), look at the adjoints of x and y, call
   set_zero_all_adj() *)
Definition matmul_ops (m p n : nat) (a b : list F) : list op :=
  map OVar a ++ map OVar b ++ [OMatVV m p n (seq 0 (m * p)) (seq (m * p) (p * n))].
Definition grad_row (xs : list Z) (z : Z) : M (list F) := _ <~ grad z ;; l <~ vadjs xs ;; _ <~ set_zero_all_adj ;; mret l.
Definition matmul_test (m p n : nat) (a b : list F) : M (list (list F)) :=
  v <~ exec (matmul_ops m p n a b) [] ;; xy <~ regs v (seq 0 (m * p + p * n)) ;;
  z <~ regs v (seq (m * p + p * n) (m * n)) ;; mmap (grad_row xy) z.

(* README.md:206-213, example/ode/param.F90:22-30: fy(1) = y(2), fy(2) = sin(p(1)*p(2)*p(3)*t);
   y is 0, 1, fy 2, 3, p 4, 5, 6 *)
Definition param_rhs (t : F) : fn :=
  FCall (OVV BMul 4 5) (FCall (OVV BMul 7 6) (FCall (OVD BMul 8 t) (FCall (OUn USin 9) (FRet (1 :: 10 :: nil))))).
End Docs.
