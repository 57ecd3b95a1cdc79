(* Specification of C53: reverse accumulation on a list of lines, in any
   arithmetic.  It knows nothing of tapes, tables or chain pointers. *)
From Verif Require Export BranchSpec ArrSpec ExactSpec RelSpec.
Local Open Scope nat_scope.

Section Reverse.
Context {N : Num}.

(* one recorded variable: its value and, when its adjoint is a, the amounts its step
   adds and the lines it adds them to *)
Record line := mkLine { l_value : F; l_back : F -> list (nat * F) }.
Definition given (x : F) : line := mkLine x (fun _ => []).
Definition value (t : list line) (i : nat) : F := nth i (map l_value t) f0.

(* what a call does: record new lines, return its operand, or stop the program *)
Inductive outcome := New (ls : list line) | Same | Stops.

Definition abs_line (k : nat) (x : F) : outcome :=
  if flt f0 x then Same
  else if flt x f0 then New [mkLine (fneg x) (fun a => [(k, fneg a)])]
  else if feq x f0 then New [given f0]
  else New [mkLine c_nan (fun _ => if is_nan_d c_nan then [(k, c_nan)] else [])].

(* entries (i,j) of an m by n matrix, column by column *)
Definition entries (m n : nat) : list (nat * nat) := flat_map (fun j => map (fun i => (i, j)) (seq 0 m)) (seq 0 n).

(* a call on the lines ks, with values xs *)
Definition step (o : op) (ks : list nat) (xs : list F) : outcome :=
  let k := nth 0 ks 0 in let x := nth 0 xs f0 in
  match o with
  | OVar d => New [given d]
  | OVar0 => New [given f0]
  | OUn UAbs _ => abs_line k x
  | OUn u _ =>
      if un_records u x then New [mkLine (un_value u x) (fun a => [(k, un_step u x (un_value u x) a)])]
      else match u with UPos => Same | _ => if is_nan_d x then Same else Stops end
  | OVV b _ _ =>
      let y := nth 1 xs f0 in
      New [mkLine (bin_value b x y) (fun a => combine ks (vv_step b x y (bin_value b x y) a))]
  | OVD b _ d =>
      if vd_records b d then New [mkLine (vd_value b x d) (fun a => combine ks (vd_step b x d (vd_value b x d) a))] else Same
  | ODV b d _ =>
      if dv_records b d then New [mkLine (dv_value b d x) (fun a => combine ks (dv_step b d x (dv_value b d x) a))] else Same
  | OSum _ => New [mkLine (fsum xs) (fun a => combine ks (map (fun _ => a) xs))]
  | ONorm2 _ => New [mkLine (fnorm2 xs) (fun a => combine ks (map (fun w => fdiv (fmul a w) (fnorm2 xs)) xs))]
  | OLse _ => New [mkLine (log_sum_exp_d xs) (fun a => combine ks (map (fun w => fmul a (fexp (fsub w (log_sum_exp_d xs)))) xs))]
  | ODotVV l _ =>
      let ws := firstn (length l) xs in let us := skipn (length l) xs in
      New [mkLine (fdot ws us) (fun a => combine ks (map (fmul a) us ++ map (fmul a) ws))]
  | ODotVD _ d => New [mkLine (fdot xs d) (fun a => combine ks (map (fmul a) d))]
  | ODotDV d _ => New [mkLine (fdot d xs) (fun a => combine ks (map (fmul a) d))]
  | OMatVV m c n l _ =>
      let ka := firstn (length l) ks in let kb := skipn (length l) ks in
      let ws := firstn (length l) xs in let us := skipn (length l) xs in
      New (map (fun e => let (i, j) := e : nat * nat in
        mkLine (fmm (row f0 m c i ws) (col f0 c j us))
          (fun a => combine (row 0 m c i ka) (map (fmul a) (col f0 c j us)) ++
                    combine (col 0 c j kb) (map (fmul a) (row f0 m c i ws)))) (entries m n))
  | OMatVD m c n _ d =>
      New (map (fun e => let (i, j) := e : nat * nat in
        mkLine (fmm (row f0 m c i xs) (col f0 c j d))
          (fun a => combine (row 0 m c i ks) (map (fmul a) (col f0 c j d)))) (entries m n))
  | OMatDV m c n d _ =>
      New (map (fun e => let (i, j) := e : nat * nat in
        mkLine (fmm (row f0 m c i d) (col f0 c j xs))
          (fun a => combine (col 0 c j ks) (map (fmul a) (row f0 m c i d)))) (entries m n))
  | OPart v p _ => New [mkLine (v xs) (fun a => combine ks (map (fmul a) (p xs)))]
  end.

Definition lines_at (rs l : list nat) : list nat := map (fun r => nth r rs 0) l.

(* run a function on registers rs naming lines of t: the lines returned and all lines *)
Fixpoint trace (f : fn) (rs : list nat) (t : list line) : option (list nat * list line) :=
  match f with
  | FRet ys => Some (lines_at rs ys, t)
  | FCall o k =>
      let ks := lines_at rs (op_regs o) in
      match step o ks (map (value t) ks) with
      | New ls => trace k (rs ++ seq (length t) (length ls)) (t ++ ls)
      | Same => trace k (rs ++ ks) t
      | Stops => None
      end
  | FTest q a b k => trace (k (written q (value t (nth a rs 0)) (value t (nth b rs 0)))) rs t
  | FTestC q a d k => trace (k (written q (value t (nth a rs 0)) d)) rs t
  end.

(* on the way taken: existing registers, arrays of matching sizes, none of the calls
   of C16 *)
Fixpoint well_formed (f : fn) (rs : list nat) (t : list line) : Prop :=
  match f with
  | FRet ys => Forall (fun y => y < length rs) ys
  | FCall o k =>
      Forall (fun r => r < length rs) (op_regs o) /\ op_shape o /\ neutral o = false /\
      let ks := lines_at rs (op_regs o) in
      match step o ks (map (value t) ks) with
      | New ls => well_formed k (rs ++ seq (length t) (length ls)) (t ++ ls)
      | Same => well_formed k (rs ++ ks) t
      | Stops => True
      end
  | FTest q a b k => a < length rs /\ b < length rs /\
      well_formed (k (written q (value t (nth a rs 0)) (value t (nth b rs 0)))) rs t
  | FTestC q a d k => a < length rs /\ well_formed (k (written q (value t (nth a rs 0)) d)) rs t
  end.

(* tape words taken on the way *)
Fixpoint cost (f : fn) (rs : list nat) (t : list line) : Z :=
  match f with
  | FRet ys => 0%Z
  | FCall o k =>
      let ks := lines_at rs (op_regs o) in
      match step o ks (map (value t) ks) with
      | New ls => (words o (map (value t) ks) + cost k (rs ++ seq (length t) (length ls)) (t ++ ls))%Z
      | Same => cost k (rs ++ ks) t
      | Stops => 0%Z
      end
  | FTest q a b k => cost (k (written q (value t (nth a rs 0)) (value t (nth b rs 0)))) rs t
  | FTestC q a d k => cost (k (written q (value t (nth a rs 0)) d)) rs t
  end.

(* the reverse pass: lines from the last to the first, each adding its amounts in order *)
Definition add_to (f : nat -> F) (p : nat * F) : nat -> F :=
  fun i => if i =? fst p then fadd (f i) (snd p) else f i.
Definition back (t : list line) (k : nat) (f : nat -> F) : nat -> F :=
  fold_left add_to (l_back (nth k t (given f0)) (f k)) f.
Definition reverse (t : list line) (f : nat -> F) : nat -> F := fold_right (back t) f (seq 0 (length t)).
Definition seed (y : nat) : nat -> F := fun i => if i =? y then f1 else f0.
End Reverse.
