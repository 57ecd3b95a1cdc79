(* Model of src/vari.F90 and src/var.F90: the variable table, the handles users
   hold, and the reverse sweep; of src/nested.F90: nested environments; and of
   src/grad.F90: gradient and jacobian.

   Library calls are state transformers [M A] over the global state (callstack
   and the nested-environment variables). *)
From Verif Require Export Chains.

Section Vari.
Context {N : Num} {C : Cfg N}.

(* type vari: src/vari.F90:16-18 *)
Record vari := mkVari { v_i : Z; v_chain : chain }.

(* vari(0, chain_dummy) *)
Definition vari0 : vari := {| v_i := 0; v_chain := ChDummy |}.

(* callstack: src/vari.F90:45-62; nested state: src/nested.F90:14-17 *)
Record st := mkSt {
  s_head : Z;              (* callstack%head *)
  s_n : Z;                 (* callstack%n_varis *)
  s_varis : Z -> vari;     (* callstack%varis *)
  s_tape : tape;           (* callstack%stack *)
  s_lvl : Z;               (* nest_level *)
  s_nv : Z -> Z;           (* nested_vari_head *)
  s_nt : Z -> Z            (* nested_tape_head *)
}.

Definition st_init : st :=
  {| s_head := 1; s_n := 0; s_varis := fun _ => vari0; s_tape := tape_init;
     s_lvl := 0; s_nv := fun _ => 0; s_nt := fun _ => 0 |}.

(* src/nested.F90:14 *)
Definition max_nested_stack : Z := 10.

Definition set_tape (s : st) (t : tape) : st :=
  {| s_head := s_head s; s_n := s_n s; s_varis := s_varis s; s_tape := t;
     s_lvl := s_lvl s; s_nv := s_nv s; s_nt := s_nt s |}.

Definition set_varis (s : st) (n : Z) (f : Z -> vari) : st :=
  {| s_head := s_head s; s_n := n; s_varis := f; s_tape := s_tape s;
     s_lvl := s_lvl s; s_nv := s_nv s; s_nt := s_nt s |}.

Definition set_shead (s : st) (h : Z) : st :=
  {| s_head := h; s_n := s_n s; s_varis := s_varis s; s_tape := s_tape s;
     s_lvl := s_lvl s; s_nv := s_nv s; s_nt := s_nt s |}.

Definition M (A : Type) := st -> res (A * st).
Definition mret {A} (a : A) : M A := fun s => Ok (a, s).
Definition mbind {A B} (m : M A) (f : A -> M B) : M B :=
  fun s => '(a, s') <- m s ;; f a s'.
(* read-only access *)
Definition mget {A} (f : st -> res A) : M A := fun s => a <- f s ;; Ok (a, s).
Definition mput (f : st -> res st) : M unit := fun s => s' <- f s ;; Ok (tt, s').
Definition mlift {A} (r : res A) : M A := fun s => a <- r ;; Ok (a, s).

(* varis(i) *)
Definition vget (s : st) (i : Z) : res vari :=
  if (1 <=? i) && (i <=? s_n s) then Ok (s_varis s i) else Undef OutOfBounds.
Definition vput (s : st) (i : Z) (v : vari) : res st :=
  if (1 <=? i) && (i <=? s_n s) then Ok (set_varis s (s_n s) (upd (s_varis s) i v))
  else Undef OutOfBounds.

(* the loop of alloc_vari_stack_n: src/vari.F90:90-96 *)
Fixpoint grow_varis (fuel : nat) (s : st) (n : Z) : res st :=
  if s_n s - s_head s + 1 <? n then
    match fuel with
    | O => OutOfFuel
    | S k =>
        sz <- i32 (2 * s_n s) ;;
        grow_varis k (set_varis s sz
          (fun j => if (1 <=? j) && (j <=? s_n s) then s_varis s j else vari0)) n
    end
  else Ok s.

(* alloc_vari_stack_n: src/vari.F90:80-98 *)
Definition alloc_vari_stack_n (s : st) (n : Z) : res st :=
  let s1 := if s_n s =? 0 then set_varis s init_len (fun _ => vari0) else s in
  grow_varis alloc_fuel s1 n.

(* alloc_vari_stack_1: src/vari.F90:100-103 *)
Definition alloc_vari_stack_1 (s : st) : res st := alloc_vari_stack_n s 1.

(* common shape of new_vari_*: allocate, varis(head)%i = push(...), vp = head,
   incr1(head).  The chain pointer of the slot is not touched. *)
Definition new_vari_with (push : tape -> res (Z * tape)) : M Z := fun s =>
  s1 <- alloc_vari_stack_1 s ;;
  '(id, t) <- push (s_tape s1) ;;
  let s2 := set_tape s1 t in
  v <- vget s2 (s_head s2) ;;
  s3 <- vput s2 (s_head s2) {| v_i := id; v_chain := v_chain v |} ;;
  h <- i32 (s_head s3 + 1) ;;
  Ok (s_head s3, set_shead s3 h).

(* new_vari_val: src/vari.F90:117-124 *)
Definition new_vari_val (d : F) : M Z := new_vari_with (fun t => push_val t d).

(* new_vari: src/vari.F90:126-130 *)
Definition new_vari : M Z := fun s =>
  s1 <- alloc_vari_stack_1 s ;; new_vari_val f0 s1.

(* new_vari_val_op: src/vari.F90:132-140 *)
Definition new_vari_val_op (d : F) (op : list Z) : M Z :=
  new_vari_with (fun t => push_val_op t d op).

(* new_vari_val_dop: src/vari.F90:142-150 *)
Definition new_vari_val_dop (d : F) (dop : list F) : M Z :=
  new_vari_with (fun t => push_val_dop t d dop).

(* new_vari_val_op_dop: src/vari.F90:152-162 *)
Definition new_vari_val_op_dop (d : F) (op : list Z) (dop : list F) : M Z :=
  new_vari_with (fun t => push_val_op_dop t d op dop).

(* ---- src/var.F90; a var is its handle vi ---- *)

(* vi_index: src/var.F90:157-161, vari_index: src/vari.F90:105-109 *)
Definition vi_index (s : st) (h : Z) : res Z := v <- vget s h ;; Ok (v_i v).

(* val: src/var.F90:147-150, get_indexed_val: src/vari.F90:245-249, val: 164-167 *)
Definition var_val (s : st) (h : Z) : res F :=
  v <- vget s h ;; val_at (s_tape s) (v_i v).

(* adj: src/var.F90:152-155, get_indexed_adj: src/vari.F90:251-255 *)
Definition var_adj (s : st) (h : Z) : res F :=
  v <- vget s h ;; adj_at (s_tape s) (v_i v).

Definition vval (h : Z) : M F := mget (fun s => var_val s h).
Definition vadj (h : Z) : M F := mget (fun s => var_adj s h).
Definition vvals (hs : list Z) : M (list F) := mget (fun s => mapM (var_val s) hs).
Definition vadjs (hs : list Z) : M (list F) := mget (fun s => mapM (var_adj s) hs).

(* new_var_val: src/var.F90:47-51; new_var: 53-56 *)
Definition new_var_val (d : F) : M Z := new_vari_val d.
Definition new_var : M Z := new_vari.

(* new_var_val_op: src/var.F90:58-63 *)
Definition new_var_val_op (d : F) (ops : list Z) : M Z :=
  mbind (mget (fun s => mapM (vi_index s) ops)) (fun ids => new_vari_val_op d ids).

(* new_var_val_opid: src/var.F90:65-70 *)
Definition new_var_val_opid (d : F) (ids : list Z) : M Z := new_vari_val_op d ids.

(* new_var_val_dop: src/var.F90:72-77 *)
Definition new_var_val_dop (d : F) (dop : list F) : M Z := new_vari_val_dop d dop.

(* new_var_val_op_dop: src/var.F90:79-85 *)
Definition new_var_val_op_dop (d : F) (ops : list Z) (dop : list F) : M Z :=
  mbind (mget (fun s => mapM (vi_index s) ops)) (fun ids => new_vari_val_op_dop d ids dop).

(* monadic left-to-right map over handles / values *)
Fixpoint mmap {A B} (f : A -> M B) (l : list A) : M (list B) :=
  match l with
  | [] => mret []
  | x :: t => mbind (f x) (fun y => mbind (mmap f t) (fun ys => mret (y :: ys)))
  end.

(* var(x) with an array: new_var_val is elemental, elements in array order *)
Definition new_var_vals (ds : list F) : M (list Z) := mmap new_var_val ds.

(* new_var_1d: src/var.F90:87-94; new_var_2d: 96-103 is the same on m*n elements *)
Definition new_var_1d (n : nat) : M (list Z) := mmap (fun _ => new_var) (seq 0 n).

(* set_chain: src/var.F90:163-167, set_indexed_chain: src/vari.F90:239-243 *)
Definition set_chain (h : Z) (ch : chain) : M unit :=
  mput (fun s => v <- vget s h ;; vput s h {| v_i := v_i v; v_chain := ch |}).

(* set_var_0d: src/var.F90:105-109, set_indexed_val: src/vari.F90:257-261 *)
Definition set_var (h : Z) (d : F) : M unit :=
  mput (fun s => v <- vget s h ;;
                 t <- set_val_at (s_tape s) (v_i v) d ;; Ok (set_tape s t)).

(* set_var_1d: src/var.F90:111-118 (2d: 129-136, the same columnwise);
   an element of `from` past its end is an out-of-bounds read *)
Fixpoint set_var_1d (hs : list Z) (ds : list F) : M unit :=
  match hs with
  | [] => mret tt
  | h :: hs' => match ds with
                | [] => mlift (Undef OutOfBounds)
                | d :: ds' => mbind (set_var h d) (fun _ => set_var_1d hs' ds')
                end
  end.

(* set_var_1d_from_0d: src/var.F90:120-127 (2d: 138-145) *)
Fixpoint set_var_1d_from_0d (hs : list Z) (d : F) : M unit :=
  match hs with
  | [] => mret tt
  | h :: hs' => mbind (set_var h d) (fun _ => set_var_1d_from_0d hs' d)
  end.

(* set_indexed_adj / set_adj: src/vari.F90:263-273 *)
Definition set_var_adj (h : Z) (d : F) : st -> res st := fun s =>
  v <- vget s h ;;
  t <- set_adj_at (s_tape s) (v_i v) d ;; Ok (set_tape s t).

(* call varis(i)%chain() *)
Definition chain_at (s : st) (i : Z) : res st :=
  v <- vget s i ;;
  t <- run_chain (v_chain v) (v_i v) (s_tape s) ;; Ok (set_tape s t).

(* indices of `do i = hi, lo, -1` *)
Fixpoint zdown (hi : Z) (n : nat) : list Z :=
  match n with
  | O => []
  | S k => hi :: zdown (hi - 1) k
  end.
Definition down_to (hi lo : Z) : list Z := zdown hi (Z.to_nat (hi - lo + 1)).

(* grad: src/var.F90:169-176; init_dependent: src/vari.F90:280-283 *)
Definition grad (h : Z) : M unit := mput (fun s =>
  s1 <- set_var_adj h f1 s ;;
  foldM chain_at (down_to (s_head s1 - 1) 1) s1).

(* set_zero_all_adj: src/vari.F90:291-297 *)
Definition set_zero_all_adj : M unit := mput (fun s =>
  foldM (fun s i => set_var_adj i f0 s) (down_to (s_head s - 1) 1) s).

(* ---- src/nested.F90 ---- *)

(* nested_*_head(l) *)
Definition nest_get (f : Z -> Z) (l : Z) : res Z :=
  if (1 <=? l) && (l <=? max_nested_stack) then Ok (f l) else Undef OutOfBounds.

(* set_zero_nested_adj: src/nested.F90:17-22 *)
Definition set_zero_nested_adj : M unit := mput (fun s =>
  lo <- nest_get (s_nv s) (s_lvl s) ;;
  foldM (fun s i => set_var_adj i f0 s) (down_to (s_head s - 1) lo) s).

(* begin_nested: src/nested.F90:26-30 *)
Definition begin_nested : M unit := mput (fun s =>
  let l := s_lvl s + 1 in
  _ <- nest_get (s_nv s) l ;;
  Ok {| s_head := s_head s; s_n := s_n s; s_varis := s_varis s; s_tape := s_tape s;
        s_lvl := l;
        s_nv := upd (s_nv s) l (s_head s);
        s_nt := upd (s_nt s) l (t_head (s_tape s)) |}).

(* end_nested: src/nested.F90:32-44 *)
Definition end_nested : M unit := mput (fun s =>
  if 0 <? s_lvl s then
    lo <- nest_get (s_nt s) (s_lvl s) ;;
    vh <- nest_get (s_nv s) (s_lvl s) ;;
    t <- foldM (fun t i => tput t i w0) (down_to (t_head (s_tape s)) lo) (s_tape s) ;;
    Ok {| s_head := vh; s_n := s_n s; s_varis := s_varis s;
          s_tape := set_head t lo;
          s_lvl := s_lvl s - 1;
          s_nv := upd (s_nv s) (s_lvl s) 0;
          s_nt := upd (s_nt s) (s_lvl s) 0 |}
  else Ok s).

(* curr_nested_vari_head: src/nested.F90:46-51 *)
Definition curr_nested_vari_head (s : st) : res Z :=
  if 0 <? s_lvl s then nest_get (s_nv s) (s_lvl s) else Ok 0.

(* grad_nested: src/var.F90:179-187 *)
Definition grad_nested (h : Z) : M unit := mput (fun s =>
  s1 <- set_var_adj h f1 s ;;
  lo <- curr_nested_vari_head s1 ;;
  foldM chain_at (down_to (s_head s1 - 1) lo) s1).

(* ---- src/grad.F90 ---- *)

(* gradient: src/grad.F90:31-45 *)
Definition gradient (f : list Z -> M Z) (x : list F) : M (list F) :=
  mbind begin_nested (fun _ =>
  mbind (new_var_vals x) (fun xv =>
  mbind (f xv) (fun fv =>
  mbind (vval fv) (fun v =>
  mbind (grad fv) (fun _ =>
  mbind (vadjs xv) (fun g =>
  mbind end_nested (fun _ => mret (v :: g)))))))).

(* the loop of jacobian: src/grad.F90:60-64; one row of adjoints per output *)
Definition jac_row (xv : list Z) (fi : Z) : M (list F) :=
  mbind set_zero_nested_adj (fun _ =>
  mbind (grad fi) (fun _ => vadjs xv)).

(* jacobian: src/grad.F90:47-67; rows [value; derivatives].  f must return n
   variables (its result is declared fx(n)). *)
Definition jacobian (f : list Z -> M (list Z)) (x : list F) : M (list (list F)) :=
  mbind begin_nested (fun _ =>
  mbind (new_var_vals x) (fun xv =>
  mbind (f xv) (fun fv =>
  mbind (vvals fv) (fun vs =>
  mbind (mmap (jac_row xv) fv) (fun gs =>
  mbind end_nested (fun _ => mret (map (fun p => fst p :: snd p) (combine vs gs)))))))).

End Vari.
