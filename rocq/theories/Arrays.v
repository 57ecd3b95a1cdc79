(* Two-dimensional creation and assignment, and value_of. *)
From Verif Require Export Vari.

Section Arrays.
Context {N : Num} {C : Cfg N}.

(* new_var_2d: src/var.F90:96-103; a matrix is the list of its columns *)
Definition new_var_2d (m n : nat) : M (list (list Z)) := mmap (fun _ => new_var_1d m) (seq 0 n).

(* set_var_2d: src/var.F90:129-136 *)
Fixpoint set_var_2d (cols : list (list Z)) (from : list (list F)) : M unit :=
  match cols with
  | [] => mret tt
  | hs :: cols' => match from with
                   | [] => mlift (Undef OutOfBounds)
                   | ds :: from' => mbind (set_var_1d hs ds) (fun _ => set_var_2d cols' from')
                   end
  end.

(* set_var_2d_from_0d: src/var.F90:138-145 *)
Fixpoint set_var_2d_from_0d (cols : list (list Z)) (d : F) : M unit :=
  match cols with
  | [] => mret tt
  | hs :: cols' => mbind (set_var_1d_from_0d hs d) (fun _ => set_var_2d_from_0d cols' d)
  end.

(* value_of: src/value_of.F90:15-23; the dynamic type is var or real(rk).  For
   any other type the result is left undefined; that case is not modelled. *)
Definition value_of (v : Z + F) : M F :=
  match v with inl h => vval h | inr d => mret d end.

End Arrays.
