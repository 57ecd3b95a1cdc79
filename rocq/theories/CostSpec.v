(* What a call costs in storage (C52). *)
From Verif Require Export Observe Claims_total.
Local Open Scope Z_scope.

Section Cost.
Context {N : Num}.

(* |x|: nothing for a positive x, a variable without operands at zero *)
Definition abs_words (x : F) : Z :=
  if fgt x f0 then 0 else if flt x f0 then 7 else if feq x f0 then 6 else 7.

(* tape words: six for a new variable, one for each operand, two for each real kept;
   a matrix product also stores both factors with their dimensions *)
Definition words (o : op) (xs : list F) : Z :=
  match o with
  | OVar _ | OVar0 => 6
  | OUn UPos _ => 0
  | OUn UAbs _ => abs_words (nth 0 xs f0)
  | OUn UAcosh _ | OUn UAtanh _ => if is_nan_d (nth 0 xs f0) then 0 else 7
  | OUn _ _ => 7
  | OVV _ _ _ => 8
  | OVD b _ d =>
      match b with
      | BAdd | BSub => if fne d f0 then 7 else 0
      | BMul | BDiv => if fne d f1 then 9 else 0
      | BHypot => if fne d f0 then 7 else abs_words (nth 0 xs f0)
      | BPow => if feq d fhalf then 7 else if feq d f1 then 0
                else if feq d f2 || feq d (fneg f2) || feq d (fneg f1) || feq d (fneg fhalf) then 7 else 9
      end
  | ODV b d _ =>
      match b with
      | BAdd | BHypot => if fne d f0 then 7 else 0
      | BSub => 7
      | BMul => if fne d f1 then 9 else 0
      | BDiv | BPow => 9
      end
  | OSum l | ONorm2 l | OLse l => 6 + zlen l
  | ODotVV l1 l2 => 6 + zlen l1 + zlen l2
  | ODotVD l _ | ODotDV _ l | OPart _ _ l => 6 + 3 * zlen l
  | OMatVV m k n a b => 4 + zlen a + zlen b + 10 * Z.of_nat (m * n)
  | OMatVD m k n a b => 4 + zlen a + 2 * zlen b + 10 * Z.of_nat (m * n)
  | OMatDV m k n a b => 4 + 2 * zlen a + zlen b + 10 * Z.of_nat (m * n)
  end.

(* variables created *)
Definition created (o : op) (xs : list F) : Z :=
  if words o xs =? 0 then 0 else Z.of_nat (op_results o).

Context {C : Cfg N}.

(* storage of size words, after the tape has come to end at position head: unchanged if
   that fits, otherwise the smallest doubling of the initial size that holds it *)
Definition storage (size head size' : Z) : Prop :=
  (head - 1 <= size -> size' = size) /\
  (size < head - 1 -> exists j : nat, size' = init_tape_size * 2 ^ Z.of_nat j /\ head - 1 <= size' /\
     (j <> O -> init_tape_size * 2 ^ (Z.of_nat j - 1) < head - 1)).
End Cost.
