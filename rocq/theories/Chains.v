(* Model of the chain procedures: what each recorded operation does to the
   adjoints of its operands during the reverse sweep.

   Each Fortran chain_* procedure becomes one constructor of [chain] and one
   branch of [run_chain], with the local arrays and their declared sizes kept
   ([conform]).  The argument [i] is this%i, the tape index of the variable's
   record.  Unary minus binds weaker than * and / in Fortran: - a * b / c is
   -((a*b)/c). *)
From Verif Require Export Tape Digamma.

Inductive chain :=
| ChDummy
| ChAddVV | ChAddVD | ChSubVV | ChSubVD | ChSubDV
| ChMulVV | ChMulVD | ChDivVV | ChDivVD | ChDivDV
| ChPowVV | ChPowVD | ChPowDV | ChHypot
| ChSin | ChCos | ChTan | ChAsin | ChAcos | ChAtan
| ChSinh | ChCosh | ChTanh | ChAsinh | ChAcosh | ChAtanh
| ChExp | ChLog | ChSqrt | ChSq | ChInv | ChIsq | ChIsqrt
| ChLogit | ChInvLogit | ChErf | ChErfc | ChLogGamma | ChAbs
| ChSum | ChNorm2 | ChLse | ChDotVV | ChDotVD | ChEager
| ChMatVV | ChMatVD | ChMatDV.

Section Chains.
Context {N : Num} {C : Cfg N}.

(* a .ne. b *)
Definition fne (a b : F) : bool := negb (feq a b).
(* is_nan_d: src/arith.F90:76-79 *)
Definition is_nan_d (d : F) : bool := fne d d.
(* is_inf: src/arith.F90:66-69, is_neg_inf: 71-74 *)
Definition is_inf (d : F) : bool := fgt d c_huge.
Definition is_neg_inf (d : F) : bool := flt d (fneg c_huge).

(* di = adj(id) + d; set_adj(id, di): src/vari.F90:186-187 and 198-199 *)
Definition add_adj (t : tape) (p : Z * F) : res tape :=
  a <- adj_at t (fst p) ;; set_adj_at t (fst p) (fadd a (snd p)).

(* set_operand_adj_all: src/vari.F90:179-189 *)
Definition set_operand_adj_all (t : tape) (i : Z) (d : list F) : res tape :=
  n <- n_operand t i ;;
  d' <- explicit_dummy (Z.to_nat n) d ;;
  id <- operand_index t i ;;
  foldM add_adj (combine id d') t.

(* set_operand_adj_by_index: src/vari.F90:191-201; d is assumed-shape *)
Definition set_operand_adj_by_index (t : tape) (id : list Z) (d : list F) : res tape :=
  if Nat.leb (length id) (length d) then foldM add_adj (combine id d) t
  else Undef OutOfBounds.

(* ---- array_in_tape: src/array_in_tape.F90 ---- *)

(* nrow: 81-84, ncol: 86-89 *)
Definition ait_nrow (t : tape) (loc : Z) : res Z := tget_int t loc.
Definition ait_ncol (t : tape) (loc : Z) : res Z := tget_int t (loc + 1).

(* row: src/array_in_tape.F90:91-97 *)
Definition ait_row (t : tape) (loc irow : Z) : res (list Z) :=
  nr <- ait_nrow t loc ;;
  nc <- ait_ncol t loc ;;
  ix <- section_idx (loc + 1 + irow) (loc + 1 + nr * nc) nr ;;
  l <- mapM (tget_int t) ix ;;
  conformZ (Z.to_nat nc) l.

(* data_row: src/array_in_tape.F90:99-108 *)
Definition ait_data_row (t : tape) (loc irow : Z) : res (list F) :=
  nr <- ait_nrow t loc ;;
  nc <- ait_ncol t loc ;;
  mapM (fun j => get_real_at t (loc + 2 + 2 * (j - 1) * nr + 2 * (irow - 1)))
       (zseq 1 (Z.to_nat nc)).

(* col: src/array_in_tape.F90:110-116 *)
Definition ait_col (t : tape) (loc icol : Z) : res (list Z) :=
  nr <- ait_nrow t loc ;;
  ix <- section_idx (loc + 1 + (icol - 1) * nr + 1) (loc + 1 + icol * nr) 1 ;;
  l <- mapM (tget_int t) ix ;;
  conformZ (Z.to_nat nr) l.

(* data_col: src/array_in_tape.F90:118-124 *)
Definition ait_data_col (t : tape) (loc icol : Z) : res (list F) :=
  nr <- ait_nrow t loc ;;
  get_real_array_at t (loc + 2 + (icol - 1) * nr * 2) nr.

(* var_1d_array_in_tape: 29-36; ids are the tape indices vi_index(a) *)
Definition ait_push_var_1d (t : tape) (ids : list Z) : res (Z * tape) :=
  push_int_array t (zlen ids :: ids).

(* var_2d_array_in_tape: 39-46; ids in column-major order *)
Definition ait_push_var_2d (t : tape) (m n : Z) (ids : list Z) : res (Z * tape) :=
  push_int_array t (m :: n :: ids).

(* data_1d_array_in_tape: 49-58; `push(size(a))` is the generic push_n *)
Definition ait_push_data_1d (t : tape) (a : list F) : res (Z * tape) :=
  '(loc, t1) <- push_n t (zlen a) ;;
  '(_, t2) <- push_real_array t1 a ;;
  Ok (loc, t2).

(* data_2d_array_in_tape: 61-70; a in column-major order *)
Definition ait_push_data_2d (t : tape) (m n : Z) (a : list F) : res (Z * tape) :=
  '(loc, t1) <- push_int_array t [m; n] ;;
  '(_, t2) <- push_real_array t1 a ;;
  Ok (loc, t2).

(* ---- dot products: src/dot_product.F90 ---- *)

(* chain_dot_product_vv: src/dot_product.F90:47-55 *)
Definition chain_dot_product_vv (t : tape) (i : Z) (row col : list Z) : res tape :=
  a <- adj_at t i ;;
  cv <- mapM (val_at t) col ;;
  d <- conform (length row) (map (fmul a) cv) ;;
  t1 <- set_operand_adj_by_index t row d ;;
  a1 <- adj_at t1 i ;;
  rv <- mapM (val_at t1) row ;;
  set_operand_adj_by_index t1 col (map (fmul a1) rv).

(* chain_dot_product_vd: src/dot_product.F90:82-87; _dv: 89-94 *)
Definition chain_dot_product_vd (t : tape) (i : Z) (row : list Z) (col : list F) : res tape :=
  a <- adj_at t i ;;
  set_operand_adj_by_index t row (map (fmul a) col).

Definition at1 (l : list F) : F := nth 0 l f0.
Definition at2 (l : list F) : F := nth 1 l f0.

(* `real :: val(1); val = this%operand_val(); adj(1) = e; set_operand_adj(adj)`,
   with e a function of this%val(), this%adj() and val(1) *)
Definition chain1 (e : F -> F -> F -> F) (t : tape) (i : Z) : res tape :=
  xs0 <- operand_val t i ;;
  xs <- conform 1 xs0 ;;
  v <- val_at t i ;;
  a <- adj_at t i ;;
  set_operand_adj_all t i [e v a (at1 xs)].

(* the same without a local val: e depends on this%val() and this%adj() only *)
Definition chain1v (e : F -> F -> F) (t : tape) (i : Z) : res tape :=
  v <- val_at t i ;;
  a <- adj_at t i ;;
  set_operand_adj_all t i [e v a].

(* chain_matmul_*: info = this%operand_index() with integer :: info(4) *)
Definition mat_info (t : tape) (i : Z) : res (list Z) :=
  l <- operand_index t i ;; conformZ 4 l.
Definition zat (k : nat) (l : list Z) : Z := nth k l 0.

Definition run_chain (ch : chain) (i : Z) (t : tape) : res tape :=
  match ch with
  | ChDummy => Ok t                                        (* vari.F90:299-303 *)
  | ChAddVV =>                                             (* add.F90:20-25 *)
      a <- adj_at t i ;; set_operand_adj_all t i [a; a]
  | ChAddVD => chain1v (fun _ a => a) t i                  (* add.F90:35-41 *)
  | ChSubVV =>                                             (* sub.F90:20-26 *)
      a <- adj_at t i ;; set_operand_adj_all t i [a; fneg a]
  | ChSubVD => chain1v (fun _ a => a) t i                  (* sub.F90:35-40 *)
  | ChSubDV => chain1v (fun _ a => fneg a) t i             (* sub.F90:54-59 *)
  | ChMulVV =>                                             (* mul.F90:20-27 *)
      xs0 <- operand_val t i ;;
      xs <- conform 2 xs0 ;;
      a <- adj_at t i ;;
      set_operand_adj_all t i [fmul (at2 xs) a; fmul (at1 xs) a]
  | ChMulVD =>                                             (* mul.F90:36-41 *)
      a <- adj_at t i ;;
      ds <- data_operand t i ;;
      d <- conform 1 (map (fmul a) ds) ;;
      set_operand_adj_all t i d
  | ChDivVV =>                                             (* div.F90:20-27 *)
      xs0 <- operand_val t i ;;
      xs <- conform 2 xs0 ;;
      v <- val_at t i ;;
      a <- adj_at t i ;;
      set_operand_adj_all t i [fdiv a (at2 xs); fneg (fdiv (fmul v a) (at2 xs))]
  | ChDivVD =>                                             (* div.F90:36-42 *)
      ds <- data_operand t i ;;
      d <- conform 1 ds ;;
      a <- adj_at t i ;;
      set_operand_adj_all t i [fdiv a (at1 d)]
  | ChDivDV => chain1 (fun v a x => fneg (fdiv (fmul v a) x)) t i   (* div.F90:56-62 *)
  | ChPowVV =>                                             (* pow.F90:24-33 *)
      xs0 <- operand_val t i ;;
      xs <- conform 2 xs0 ;;
      if fne (at1 xs) f0 then
        v <- val_at t i ;;
        a <- adj_at t i ;;
        set_operand_adj_all t i
          [fdiv (fmul (fmul a (at2 xs)) v) (at1 xs); fmul (fmul a v) (flog (at1 xs))]
      else Ok t
  | ChPowVD =>                                             (* pow.F90:35-44 *)
      xs0 <- operand_val t i ;;
      xs <- conform 1 xs0 ;;
      ds0 <- data_operand t i ;;
      ds <- conform 1 ds0 ;;
      if fne (at1 xs) f0 then
        v <- val_at t i ;;
        a <- adj_at t i ;;
        set_operand_adj_all t i [fdiv (fmul (fmul a (at1 ds)) v) (at1 xs)]
      else Ok t
  | ChPowDV =>                                             (* pow.F90:46-54 *)
      ds0 <- data_operand t i ;;
      ds <- conform 1 ds0 ;;
      if fne (at1 ds) f0 then
        v <- val_at t i ;;
        a <- adj_at t i ;;
        set_operand_adj_all t i [fmul (fmul a v) (flog (at1 ds))]
      else Ok t
  | ChHypot =>                                             (* hypot.F90:14-20 *)
      n <- n_operand t i ;;
      xs0 <- operand_val t i ;;
      xs <- conform (Z.to_nat n) xs0 ;;
      v <- val_at t i ;;
      a <- adj_at t i ;;
      set_operand_adj_all t i (map (fun x => fdiv (fmul a x) v) xs)
  | ChSin => chain1 (fun _ a x => fmul a (fcos x)) t i                  (* sin.F90:11-17 *)
  | ChCos => chain1 (fun _ a x => fneg (fmul a (fsin x))) t i           (* cos.F90:11-17 *)
  | ChTan => chain1v (fun v a => fmul a (fadd f1 (fmul v v))) t i       (* tan.F90:11-16 *)
  | ChAsin => chain1 (fun _ a x => fdiv a (fsqrt (fsub f1 (fmul x x)))) t i         (* asin.F90:11-17 *)
  | ChAcos => chain1 (fun _ a x => fneg (fdiv a (fsqrt (fsub f1 (fmul x x))))) t i  (* acos.F90:11-17 *)
  | ChAtan => chain1 (fun _ a x => fdiv a (fadd f1 (fmul x x))) t i     (* atan.F90:11-17 *)
  | ChSinh => chain1 (fun _ a x => fmul a (fcosh x)) t i                (* sinh.F90:16-23 *)
  | ChCosh => chain1 (fun _ a x => fmul a (fsinh x)) t i                (* cosh.F90:16-24 *)
  | ChTanh => chain1 (fun _ a x => let c := fcosh x in fdiv a (fmul c c)) t i       (* tanh.F90:16-24 *)
  | ChAsinh => chain1 (fun _ a x => fdiv a (fsqrt (fadd (fmul x x) f1))) t i        (* asinh.F90:16-24 *)
  | ChAcosh => chain1 (fun _ a x => fdiv a (fsqrt (fsub (fmul x x) f1))) t i        (* acosh.F90:16-24 *)
  | ChAtanh => chain1 (fun _ a x => fdiv a (fsub f1 (fmul x x))) t i    (* atanh.F90:16-23 *)
  | ChExp => chain1v (fun v a => fmul a v) t i                          (* exp.F90:11-16 *)
  | ChLog => chain1 (fun _ a x => fdiv a x) t i                         (* log.F90:11-17 *)
  | ChSqrt => chain1v (fun v a => fdiv (fmul fhalf a) v) t i            (* sqrt.F90:11-16 *)
  | ChSq => chain1 (fun _ a x => fmul (fmul a f2) x) t i                (* square.F90:14-20 *)
  | ChInv => chain1 (fun _ a x => fneg (fdiv a (fmul x x))) t i         (* inv.F90:19-25 *)
  | ChIsq => chain1 (fun _ a x => fneg (fdiv (fmul a f2) (fmul (fmul x x) x))) t i  (* inv_square.F90:14-20 *)
  | ChIsqrt => chain1 (fun _ a x => fneg (fdiv (fmul fhalf a) (fmul x (fsqrt x)))) t i (* inv_sqrt.F90:14-20 *)
  | ChLogit => chain1 (fun _ a x => fdiv a (fsub x (fmul x x))) t i     (* logit.F90:19-25 *)
  | ChInvLogit => chain1v (fun v a => fmul (fmul a v) (fsub f1 v)) t i  (* inv_logit.F90:21-26 *)
  | ChErf => chain1 (fun _ a x =>
      fmul (fmul a c_two_over_sqrt_pi) (fexp (fneg (fmul x x)))) t i    (* erf.F90:12-18 *)
  | ChErfc => chain1 (fun _ a x =>
      fneg (fmul (fmul a c_two_over_sqrt_pi) (fexp (fneg (fmul x x))))) t i (* erfc.F90:12-18 *)
  | ChLogGamma => chain1 (fun _ a x => fmul a (digamma x)) t i          (* log_gamma.F90:12-18 *)
  | ChAbs =>                                               (* abs.F90:15-20 *)
      v <- val_at t i ;;
      if is_nan_d v then set_operand_adj_all t i [c_nan] else Ok t
  | ChSum =>                                               (* sum.F90:11-16 *)
      n <- n_operand t i ;;
      a <- adj_at t i ;;
      set_operand_adj_all t i (repeat a (Z.to_nat n))
  | ChNorm2 =>                                             (* norm2.F90:11-17 *)
      n <- n_operand t i ;;
      xs0 <- operand_val t i ;;
      xs <- conform (Z.to_nat n) xs0 ;;
      v <- val_at t i ;;
      a <- adj_at t i ;;
      set_operand_adj_all t i (map (fun x => fdiv (fmul a x) v) xs)
  | ChLse =>                                               (* log_sum_exp.F90:20-27 *)
      n <- n_operand t i ;;
      xs0 <- operand_val t i ;;
      xs <- conform (Z.to_nat n) xs0 ;;
      v <- val_at t i ;;
      a <- adj_at t i ;;
      set_operand_adj_all t i (map (fun x => fmul a (fexp (fsub x v))) xs)
  | ChDotVV =>                                             (* dot_product.F90:37-45 *)
      n2 <- n_operand t i ;;
      let n := Z.to_nat (Z.quot n2 2) in
      id <- operand_index t i ;;
      chain_dot_product_vv t i (firstn n id) (firstn n (skipn n id))
  | ChDotVD =>                                             (* dot_product.F90:73-80 *)
      id <- operand_index t i ;;
      d <- data_operand t i ;;
      chain_dot_product_vd t i id d
  | ChEager =>                                             (* chain_eager_adj.F90:12-18 *)
      n <- n_operand t i ;;
      a <- adj_at t i ;;
      ds <- data_operand t i ;;
      d <- conform (Z.to_nat n) (map (fmul a) ds) ;;
      set_operand_adj_all t i d
  | ChMatVV =>                                             (* matmul.F90:25-33 *)
      info <- mat_info t i ;;
      r <- ait_row t (zat 2 info) (zat 0 info) ;;
      c <- ait_col t (zat 3 info) (zat 1 info) ;;
      chain_dot_product_vv t i r c
  | ChMatVD =>                                             (* matmul.F90:55-63 *)
      info <- mat_info t i ;;
      r <- ait_row t (zat 2 info) (zat 0 info) ;;
      c <- ait_data_col t (zat 3 info) (zat 1 info) ;;
      chain_dot_product_vd t i r c
  | ChMatDV =>                                             (* matmul.F90:85-93 *)
      info <- mat_info t i ;;
      r <- ait_data_row t (zat 2 info) (zat 0 info) ;;
      c <- ait_col t (zat 3 info) (zat 1 info) ;;
      chain_dot_product_vd t i c r
  end.

End Chains.
