(* Specification of C54: calls of gradient and jacobian one after the other, each
   function and each point chosen from the answers so far. *)
From Verif Require Export ReverseSpec.
Local Open Scope nat_scope.

Section Repeat.
Context {N : Num}.

(* no matrix product in any branch *)
Fixpoint no_matmul (f : fn) : Prop :=
  match f with
  | FRet _ => True
  | FCall o k => is_matmul o = false /\ no_matmul k
  | FTest _ _ _ k | FTestC _ _ _ k => forall b, no_matmul (k b)
  end.

(* calls that make a variable without an operation *)
Definition fresh (o : op) (x : F) : bool :=
  match o with OVar _ | OVar0 => true | OUn UAbs _ => feq x f0 | _ => false end.
(* On the way taken, a variable without an operation only ever takes a place marked by P
   and an entry of a matrix product a place that is not; places count from the first
   argument, n lines belong to the caller. *)
Fixpoint apart (P : nat -> bool) (n : nat) (f : fn) (rs : list nat) (t : list line) : Prop :=
  match f with
  | FRet ys => True
  | FCall o k =>
      let ks := lines_at rs (op_regs o) in
      match step o ks (map (value t) ks) with
      | New ls =>
          (fresh o (nth 0 (map (value t) ks) f0) = true -> P (length t - n) = true) /\
          (is_matmul o = true -> forall i, i < length ls -> P (length t - n + i) = false) /\
          apart P n k (rs ++ seq (length t) (length ls)) (t ++ ls)
      | Same => apart P n k (rs ++ ks) t
      | Stops => True
      end
  | FTest q a b k => apart P n (k (written q (value t (nth a rs 0)) (value t (nth b rs 0)))) rs t
  | FTestC q a d k => apart P n (k (written q (value t (nth a rs 0)) d)) rs t
  end.

(* stop, or ask for the jacobian (the gradient) of f at xs and go on from the answer,
   whose rows are a value followed by its derivatives *)
Inductive caller :=
| Enough
| Ask (all : bool) (f : fn) (xs : list F) (k : list (list F) -> caller).

(* the rows that reverse accumulation gives *)
Definition answer (t : list line) (n m : nat) (ys : list nat) : list (list F) :=
  map (fun y => value t y :: map (reverse t (seed y)) (seq n m)) ys.

Inductive finish := Answered (l : list (list (list F))) | Stopped | Overrun.
Definition then_ends (r : list (list F)) (e : finish) : finish :=
  match e with Answered l => Answered (r :: l) | _ => e end.

Context {C : Cfg N}.

(* what the library does *)
Definition ask (all : bool) (f : fn) (xs : list F) (env : list Z) : M (list (list F)) :=
  if all then jacobian (fun xv => call_fn f (env ++ xv)) xs
  else r <~ gradient (fun xv => call_fn1 f (env ++ xv)) xs ;; mret (r :: nil).
Fixpoint asks (c : caller) (env : list Z) : M (list (list (list F))) :=
  match c with
  | Enough => mret []
  | Ask all f xs k => r <~ ask all f xs env ;; l <~ asks (k r) env ;; mret (r :: l)
  end.

(* the arguments take marked places as well *)
Definition in_place (P : nat -> bool) (ws : list F) (f : fn) (xs : list F) : Prop :=
  (forall i, i < length xs -> P i = true) /\ apart P (length ws) f (seq 0 (length ws + length xs)) (map given (ws ++ xs)).

(* How the calls end, on plain numbers: ws are the values of the caller's variables, the
   tape ends at position head and its storage has the given size; no single call takes
   more than limit words; ok is asked of the functions and points. *)
Inductive ends_with (ok : fn -> list F -> Prop) (ws : list F) (head limit : Z) : caller -> Z -> finish -> Prop :=
| ends_enough size : ends_with ok ws head limit Enough size (Answered [])
| ends_ask (all : bool) f xs k size y ys t size' e :
    let t0 := map given (ws ++ xs) in let rs := seq 0 (length ws + length xs) in let w := (6 * zlen xs + cost f rs t0)%Z in
    well_formed f rs t0 -> ok f xs -> (w <= limit)%Z -> trace f rs t0 = Some (y :: ys, t) ->
    storage size (head + w)%Z size' -> size' <> (head + w - 1)%Z ->
    let r := answer t (length ws) (length xs) (if all then y :: ys else y :: nil) in
    ends_with ok ws head limit (k r) size' e -> ends_with ok ws head limit (Ask all f xs k) size (then_ends r e)
| ends_stop all f xs k size :
    let t0 := map given (ws ++ xs) in let rs := seq 0 (length ws + length xs) in let w := (6 * zlen xs + cost f rs t0)%Z in
    well_formed f rs t0 -> ok f xs -> (w <= limit)%Z -> trace f rs t0 = None ->
    ends_with ok ws head limit (Ask all f xs k) size Stopped
| ends_full all f xs k size y ys t :
    let t0 := map given (ws ++ xs) in let rs := seq 0 (length ws + length xs) in let w := (6 * zlen xs + cost f rs t0)%Z in
    well_formed f rs t0 -> ok f xs -> (w <= limit)%Z -> trace f rs t0 = Some (y :: ys, t) ->
    storage size (head + w)%Z (head + w - 1)%Z ->
    ends_with ok ws head limit (Ask all f xs k) size Overrun.

(* callers that the above says something about: on the way they take *)
Fixpoint proper (ok : fn -> list F -> Prop) (ws : list F) (limit : Z) (c : caller) : Prop :=
  match c with
  | Enough => True
  | Ask all f xs k =>
      let t0 := map given (ws ++ xs) in let rs := seq 0 (length ws + length xs) in
      well_formed f rs t0 /\ ok f xs /\ (6 * zlen xs + cost f rs t0 <= limit)%Z /\
      match trace f rs t0 with
      | None => True
      | Some ([], _) => False
      | Some (y :: ys, t) => proper ok ws limit (k (answer t (length ws) (length xs) (if all then y :: ys else y :: nil)))
      end
  end.

(* the caller's variables are as they were, except for their adjoints *)
Definition undisturbed (s s' : st) : Prop :=
  s_head s' = s_head s /\ s_lvl s' = s_lvl s /\ t_head (s_tape s') = t_head (s_tape s) /\
  forall h, alive s h -> same_val s s' h /\ same_op s s' h.
End Repeat.
