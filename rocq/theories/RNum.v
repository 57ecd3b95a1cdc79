(* Exact real arithmetic: the instance the derivative theorems are about.  Every
   intrinsic is the function it approximates and every named constant has its
   mathematical value.  log_gamma is a parameter: no theorem needs to know it.
   A real is stored as two words that remember it. *)
From Coq Require Export Reals Lra.
From Coquelicot Require Export Coquelicot.
From Verif Require Export Num.
Open Scope Z_scope.

Inductive rword := WInt (z : Z) | WLo (x : R) | WHi (x : R).

Definition r_dec (a b : rword) : R :=
  match a with WInt z => IZR z | WLo x => x | WHi x => x end.

Definition req (x y : R) : bool := if Req_EM_T x y then true else false.
Definition rlt (x y : R) : bool := if Rlt_dec x y then true else false.
Definition rle (x y : R) : bool := if Rle_dec x y then true else false.

(* x**y: integer exponents for every base, other exponents for x > 0 *)
Definition rpow (x y : R) : R :=
  if Req_EM_T (IZR (Int_part y)) y then powerRZ x (Int_part y)
  else if Rlt_dec 0 x then Rpower x y else 0%R.

(* inverse hyperbolic functions, error function *)
Definition rasinh (x : R) : R := ln (x + sqrt (x * x + 1)).
Definition racosh (x : R) : R := ln (x + sqrt (x * x - 1)).
Definition ratanh (x : R) : R := (/ 2 * ln ((1 + x) / (1 - x)))%R.
Definition rerf (x : R) : R := (2 / sqrt PI * RInt (fun t => exp (- (t * t))) 0 x)%R.

Definition rtrunc (x : R) : Z := if Rle_dec 0 x then Int_part x else - Int_part (- x).

Definition rsum (l : list R) : R := fold_right Rplus 0%R l.
Definition rdot (a b : list R) : R := rsum (map (fun p => (fst p * snd p)%R) (combine a b)).
Definition rnorm2 (l : list R) : R := sqrt (rsum (map (fun x => (x * x)%R) l)).
(* the largest finite binary64, the smallest normal one *)
Definition rhuge : R := ((2 - / 2 ^ 52) * 2 ^ 1023)%R.
Definition rtiny : R := (/ 2 ^ 1022)%R.
Definition rmaxval (l : list R) : R :=
  match l with [] => (- rhuge)%R | x :: t => fold_left Rmax t x end.

Definition RNum (lg : R -> R) : Num := {|
  F := R; W := rword;
  f0 := 0%R; f1 := 1%R; f2 := 2%R; fhalf := (/ 2)%R;
  fadd := Rplus; fsub := Rminus; fmul := Rmult; fdiv := Rdiv; fneg := Ropp;
  feq := req; flt := rlt; fle := rle;
  fsin := sin; fcos := cos; ftan := tan;
  fasin := asin; facos := acos; fatan := atan;
  fsinh := sinh; fcosh := cosh; ftanh := tanh;
  fasinh := rasinh; facosh := racosh; fatanh := ratanh;
  fexp := exp; flog := ln; fsqrt := sqrt;
  ferf := rerf; ferfc := (fun x => 1 - rerf x)%R; floggamma := lg;
  fabs := Rabs; faint := (fun x => IZR (rtrunc x)); fint := rtrunc; fofZ := IZR;
  fpow := rpow; fhypot := (fun x y => sqrt (x * x + y * y));
  fsum := rsum; fdot := rdot; fnorm2 := rnorm2; fmaxval := rmaxval; fmm := rdot;
  fdec := (fun m e => IZR m * powerRZ 10 e)%R; c_nan := 0%R;
  c_two_over_sqrt_pi := (2 / sqrt PI)%R; c_log_epsilon := ln rtiny;
  c_log_sqrt_two_pi := ln (sqrt (2 * PI)); c_huge := rhuge;
  w_of_int := WInt; int_of_w := (fun w => match w with WInt z => z | _ => 0 end);
  enc := (fun x => (WLo x, WHi x)); dec := r_dec
|}.

#[export] Instance RNum_laws lg : RepLaws (RNum lg).
Proof. constructor; reflexivity. Qed.

Lemma req_true x y : req x y = true <-> x = y.
Proof. unfold req. destruct (Req_EM_T x y); split; intros; auto; try discriminate; tauto. Qed.
Lemma req_false x y : req x y = false <-> x <> y.
Proof. unfold req. destruct (Req_EM_T x y); split; intros; auto; try discriminate; tauto. Qed.
Lemma rlt_true x y : rlt x y = true <-> (x < y)%R.
Proof. unfold rlt. destruct (Rlt_dec x y); split; intros; auto; try discriminate; tauto. Qed.
Lemma rlt_false x y : rlt x y = false <-> ~ (x < y)%R.
Proof. unfold rlt. destruct (Rlt_dec x y); split; intros; auto; try discriminate; tauto. Qed.
Lemma rle_true x y : rle x y = true <-> (x <= y)%R.
Proof. unfold rle. destruct (Rle_dec x y); split; intros; auto; try discriminate; tauto. Qed.
Lemma rle_false x y : rle x y = false <-> ~ (x <= y)%R.
Proof. unfold rle. destruct (Rle_dec x y); split; intros; auto; try discriminate; tauto. Qed.
