(* Model of src/tape.F90: the tape, an int32 array holding one record per
   variable plus auxiliary arrays.

   Simplifications: storage is a function of the index with an explicit size;
   every access is checked against the size.  `allocate` never fails for lack of
   memory.  Index expressions are not checked for int32 overflow (they are
   bounded by the storage size); sizes and the head are. *)
From Verif Require Export Num.

Section Tape.
Context {N : Num} {C : Cfg N}.

(* src/tape.F90:24-31; [t_size] = 0 also models the unallocated storage *)
Record tape := mkTape { t_head : Z; t_size : Z; t_mem : Z -> W }.

Definition w0 : W := w_of_int 0.

Definition tape_init : tape := {| t_head := 1; t_size := 0; t_mem := fun _ => w0 |}.

Definition set_head (t : tape) (h : Z) : tape :=
  {| t_head := h; t_size := t_size t; t_mem := t_mem t |}.

(* storage(i) as a value *)
Definition tget (t : tape) (i : Z) : res W :=
  if (1 <=? i) && (i <=? t_size t) then Ok (t_mem t i) else Undef OutOfBounds.

(* storage(i) = w *)
Definition tput (t : tape) (i : Z) (w : W) : res tape :=
  if (1 <=? i) && (i <=? t_size t)
  then Ok {| t_head := t_head t; t_size := t_size t; t_mem := upd (t_mem t) i w |}
  else Undef OutOfBounds.

Definition tget_int (t : tape) (i : Z) : res Z := w <- tget t i ;; Ok (int_of_w w).

(* storage(i:i+size(l)-1) = l *)
Definition tput_ints (t : tape) (i : Z) (l : list Z) : res tape :=
  foldM (fun t p => tput t (fst p) (w_of_int (snd p))) (combine (zseq i (length l)) l) t.

(* storage(i:i+n-1) *)
Definition tget_ints (t : tape) (i : Z) (n : nat) : res (list Z) :=
  mapM (tget_int t) (zseq i n).

(* set_real_at: src/tape.F90:371-375 *)
Definition set_real_at (t : tape) (i : Z) (d : F) : res tape :=
  t1 <- tput t i (fst (enc d)) ;; tput t1 (i + 1) (snd (enc d)).

(* get_real_at: src/tape.F90:398-403 *)
Definition get_real_at (t : tape) (i : Z) : res F :=
  a <- tget t i ;; b <- tget t (i + 1) ;; Ok (dec a b).

(* i, i+2, i+4, ...: start words of consecutive reals *)
Fixpoint zseq2 (first : Z) (n : nat) : list Z :=
  match n with
  | O => []
  | S k => first :: zseq2 (first + 2) k
  end.

(* set_real_array_at: src/tape.F90:383-390 *)
Definition set_real_array_at (t : tape) (i : Z) (l : list F) : res tape :=
  foldM (fun t p => set_real_at t (fst p) (snd p)) (combine (zseq2 i (length l)) l) t.

(* get_real_array_at: src/tape.F90:405-410; a negative n is a zero-size array *)
Definition get_real_array_at (t : tape) (i : Z) (n : Z) : res (list F) :=
  mapM (get_real_at t) (zseq2 i (Z.to_nat n)).

(* the `do while` loop of alloc_storage: src/tape.F90:76-81 *)
Fixpoint grow_storage (fuel : nat) (t : tape) (n : Z) : res tape :=
  if t_size t - t_head t + 1 <? n then
    match fuel with
    | O => OutOfFuel
    | S k =>
        sz <- i32 (2 * t_size t) ;;
        grow_storage k
          {| t_head := t_head t; t_size := sz;
             t_mem := fun j => if (1 <=? j) && (j <=? t_size t) then t_mem t j else w0 |} n
    end
  else Ok t.

(* more doublings than any int32 size admits *)
Definition alloc_fuel : nat := 40.

(* alloc_storage: src/tape.F90:67-83 *)
Definition alloc_storage (t : tape) (n : Z) : res tape :=
  let t1 := if t_size t =? 0
            then {| t_head := t_head t; t_size := init_tape_size; t_mem := fun _ => w0 |}
            else t in
  grow_storage alloc_fuel t1 n.

(* incr on the head: src/env.F90:28-47 *)
Definition incr_head (t : tape) (n : Z) : res tape :=
  h <- i32 (t_head t + n) ;; Ok (set_head t h).

(* push_1: src/tape.F90:85-91 *)
Definition push_1 (t : tape) : res (Z * tape) :=
  let id := t_head t in
  t1 <- alloc_storage t min_rec_size ;;
  t2 <- incr_head t1 min_rec_size ;;
  Ok (id, t2).

(* push_n: src/tape.F90:93-100 *)
Definition push_n (t : tape) (n : Z) : res (Z * tape) :=
  let id := t_head t in
  k <- i32 (n * min_rec_size) ;;
  t1 <- alloc_storage t k ;;
  t2 <- incr_head t1 k ;;
  Ok (id, t2).

(* push_int_array: src/tape.F90:102-110 *)
Definition push_int_array (t : tape) (l : list Z) : res (Z * tape) :=
  let id := t_head t in
  n <- i32 (zlen l) ;;
  t1 <- alloc_storage t n ;;
  t2 <- tput_ints t1 (t_head t1) l ;;
  t3 <- incr_head t2 n ;;
  Ok (id, t3).

(* push_real_array: src/tape.F90:112-121; push_real_2d_array: 123-132 is the
   same on the column-major element list *)
Definition push_real_array (t : tape) (d : list F) : res (Z * tape) :=
  let id := t_head t in
  n <- i32 (2 * zlen d) ;;
  t1 <- alloc_storage t n ;;
  t2 <- set_real_array_at t1 id d ;;
  t3 <- incr_head t2 n ;;
  Ok (id, t3).

(* set_val_at: src/tape.F90:134-139, set_adj_at: 157-162 *)
Definition set_val_at (t : tape) (i : Z) (d : F) : res tape := set_real_at t i d.
Definition set_adj_at (t : tape) (i : Z) (d : F) : res tape := set_real_at t (i + 2) d.

(* set_val_curr: 141-145, set_adj_curr: 164-168 *)
Definition set_val_curr (t : tape) (d : F) : res tape := set_val_at t (t_head t) d.
Definition set_adj_curr (t : tape) (d : F) : res tape := set_adj_at t (t_head t) d.

(* val_at: 170-175, adj_at: 177-182 *)
Definition val_at (t : tape) (i : Z) : res F := get_real_at t i.
Definition adj_at (t : tape) (i : Z) : res F := get_real_at t (i + 2).

(* val_curr: 184-188, adj_curr: 190-194 (as written: it reads the value) *)
Definition val_curr (t : tape) : res F := val_at t (t_head t).
Definition adj_curr (t : tape) : res F := val_at t (t_head t).

(* push_val: src/tape.F90:147-155 *)
Definition push_val (t : tape) (d : F) : res (Z * tape) :=
  let id := t_head t in
  t1 <- alloc_storage t min_rec_size ;;
  t2 <- set_val_curr t1 d ;;
  t3 <- incr_head t2 min_rec_size ;;
  Ok (id, t3).

(* push_val_op: src/tape.F90:197-210 *)
Definition push_val_op (t : tape) (v : F) (op : list Z) : res (Z * tape) :=
  let id := t_head t in
  t1 <- alloc_storage t 4 ;;
  t2 <- set_val_curr t1 v ;;
  t3 <- incr_head t2 4 ;;
  '(_, t4) <- push_int_array t3 (zlen op :: op ++ [0]) ;;
  Ok (id, t4).

(* push_val_dop: src/tape.F90:212-225 *)
Definition push_val_dop (t : tape) (v : F) (dop : list F) : res (Z * tape) :=
  let id := t_head t in
  t1 <- alloc_storage t min_rec_size ;;
  t2 <- set_val_curr t1 v ;;
  t3 <- incr_head t2 4 ;;
  t4 <- incr_head t3 1 ;;
  t5 <- tput t4 (t_head t4) (w_of_int (zlen dop)) ;;
  t6 <- incr_head t5 1 ;;
  '(_, t7) <- push_real_array t6 dop ;;
  Ok (id, t7).

(* push_val_op_dop: src/tape.F90:229-241 *)
Definition push_val_op_dop (t : tape) (v : F) (op : list Z) (dop : list F) : res (Z * tape) :=
  let id := t_head t in
  t1 <- alloc_storage t 4 ;;
  t2 <- set_val_curr t1 v ;;
  t3 <- incr_head t2 4 ;;
  '(_, t4) <- push_int_array t3 (zlen op :: op ++ [zlen dop]) ;;
  '(_, t5) <- push_real_array t4 dop ;;
  Ok (id, t5).

(* n_operand: src/tape.F90:243-248 *)
Definition n_operand (t : tape) (i : Z) : res Z := tget_int t (i + 4).

(* operand_index: src/tape.F90:284-290 *)
Definition operand_index (t : tape) (i : Z) : res (list Z) :=
  n <- n_operand t i ;; tget_ints t (i + 5) (Z.to_nat n).

(* operand_val: src/tape.F90:250-260 *)
Definition operand_val (t : tape) (i : Z) : res (list F) :=
  op <- operand_index t i ;; mapM (val_at t) op.

(* operand_adj: src/tape.F90:262-272 *)
Definition operand_adj (t : tape) (i : Z) : res (list F) :=
  op <- operand_index t i ;; mapM (adj_at t) op.

(* operand_info: src/tape.F90:277-282 *)
Definition operand_info (t : tape) (i n : Z) : res (list Z) :=
  tget_ints t (i + 4) (Z.to_nat n).

(* n_data_operand: src/tape.F90:355-360 *)
Definition n_data_operand (t : tape) (i : Z) : res Z :=
  n <- n_operand t i ;; tget_int t (i + 5 + n).

(* data_operand: src/tape.F90:362-369 *)
Definition data_operand (t : tape) (i : Z) : res (list F) :=
  nop <- n_data_operand t i ;;
  n <- n_operand t i ;;
  get_real_array_at t (i + min_rec_size + n) nop.

(* record_len: src/tape.F90:348-353 (as written: word i+5 is read as the data
   count whatever the operand count) *)
Definition record_len (t : tape) (i : Z) : res Z :=
  a <- tget_int t (i + 4) ;;
  b <- tget_int t (i + 5) ;;
  Ok (min_rec_size + a + 2 * b).

(* indices of the array section first:last:stride; stride 0 is not allowed *)
Definition section_idx (first last stride : Z) : res (list Z) :=
  if stride =? 0 then Undef OutOfBounds
  else Ok (map (fun k => first + stride * Z.of_nat k)
               (seq 0 (Z.to_nat (Z.quot (last - first + stride) stride)))).

(* matrix_nrow: src/tape.F90:292-297, matrix_ncol: 299-304 *)
Definition matrix_nrow (t : tape) (i : Z) : res Z := tget_int t i.
Definition matrix_ncol (t : tape) (i : Z) : res Z := tget_int t (i + 1).

(* matrix_row_index: src/tape.F90:306-314 *)
Definition matrix_row_index (t : tape) (i row : Z) : res (list Z) :=
  nrow <- tget_int t i ;;
  ncol <- tget_int t (i + 1) ;;
  ix <- section_idx (i + 1 + row) (i + 1 + nrow * ncol) nrow ;;
  l <- mapM (tget_int t) ix ;;
  conformZ (Z.to_nat ncol) l.

(* matrix_col_index: src/tape.F90:328-336 *)
Definition matrix_col_index (t : tape) (i col : Z) : res (list Z) :=
  nrow <- tget_int t i ;;
  ix <- section_idx (i + 1 + (col - 1) * nrow + 1) (i + 1 + col * nrow) 1 ;;
  l <- mapM (tget_int t) ix ;;
  conformZ (Z.to_nat nrow) l.

(* matrix_row_data: src/tape.F90:316-326 *)
Definition matrix_row_data (t : tape) (i row : Z) : res (list F) :=
  nrow <- tget_int t i ;;
  ncol <- tget_int t (i + 1) ;;
  mapM (fun j => get_real_at t (i + 2 + 2 * (j - 1) * nrow + 2 * (row - 1)))
       (zseq 1 (Z.to_nat ncol)).

(* matrix_col_data: src/tape.F90:338-346 *)
Definition matrix_col_data (t : tape) (i col : Z) : res (list F) :=
  nrow <- tget_int t i ;;
  get_real_array_at t (i + 2 + (col - 1) * nrow * 2) nrow.

End Tape.
