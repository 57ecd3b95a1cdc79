(* Exact specification of C46 and C47: the sensitivity right-hand side in terms of the
   lines of ReverseSpec, and what cvodes_sol returns for an arbitrary integrator. *)
From Verif Require Export CvodesSpec RepeatSpec.
Local Open Scope nat_scope.

Section Sens.
Context {N : Num}.

(* component y of (df/dy) v, with df/dp_k added for a parameter k; the lines 0 .. n-1 are
   y, the next n the array f and those from 2 n on p *)
Definition pushed (t : list line) (n y : nat) (v : list F) (par : option nat) : F :=
  let d := fdot (map (reverse t (seed y)) (seq 0 n)) v in
  match par with None => d | Some k => fadd d (reverse t (seed y) (2 * n + k)) end.
Definition sens_vectors (t : list line) (n : nat) (ys : list nat) (yS : list (list F)) (par : nat -> option nat) : list (list F) :=
  map (fun j => map (fun y => pushed t n y (nth j yS []) (par j)) ys) (seq 0 (length yS)).

(* ns vectors with n components *)
Definition sized (n ns : nat) (yS : list (list F)) : Prop := length yS = ns /\ Forall (fun v => length v = n) yS.

Context {C : Cfg N}.

(* the user's right-hand side: q t on the registers y, f, p, which gives the new f *)
Definition rhs_fn (q : F -> fn) (t : F) (y f p : list Z) : M (list Z) := call_fn (q t) (y ++ f ++ p).
(* the numbers it is run on: f holds zeros *)
Definition rhs_args (y p : list F) : list F := y ++ repeat f0 (length y) ++ p.

(* How a call of cvodes_sol ends, on plain numbers *)
Inductive ending := Delivered (l : list (list F * list (list F))) | Halted | Overran.
Definition then_delivers (o : list F * list (list F)) (e : ending) : ending :=
  match e with Delivered l => Delivered (o :: l) | _ => e end.

(* n components, ns sensitivities, p the parameters; the tape ends at position head, its
   storage has the given size and never ends beyond limit; c variables were returned so
   far, and matrix products keep to the places not marked by P, which count from the first
   variable that cvodes_sol makes *)
Inductive solves (P : nat -> bool) (q : F -> fn) (p : list F) (par : nat -> option nat) (n ns : nat) (limit : Z) :
    nat -> nat -> Z -> Z -> solver -> ending -> Prop :=
| sv_end c head size S : solves P q p par n ns limit 0 c head size S (Delivered [])
| sv_fail m c head size : solves P q p par n ns limit (Datatypes.S m) c head size Failure Halted
| sv_out m c head size y yS S size' e :
    length y = n -> sized n ns yS -> let w := (Z.of_nat n * (6 + 3 * Z.of_nat ns))%Z in
    (head + w <= limit)%Z -> storage size (head + w)%Z size' ->
    solves P q p par n ns limit m (c + n) (head + w)%Z size' S e ->
    solves P q p par n ns limit (Datatypes.S m) c head size (Output y yS S) (then_delivers (y, yS) e)
| sv_call m c head size t y yS k ys tr size' e :
    length y = n -> sized n ns yS ->
    let xs := rhs_args y p in let t0 := map given xs in let rs := seq 0 (length xs) in let w := (6 * zlen xs + cost (q t) rs t0)%Z in
    well_formed (q t) rs t0 -> in_place (fun i => P (c + i)) [] (q t) xs -> (head + w <= limit)%Z ->
    trace (q t) rs t0 = Some (ys, tr) -> length ys = n -> storage size (head + w)%Z size' -> size' <> (head + w - 1)%Z ->
    solves P q p par n ns limit (Datatypes.S m) c head size' (k (sens_vectors tr n ys yS par)) e ->
    solves P q p par n ns limit (Datatypes.S m) c head size (Callback t y yS k) e
| sv_stop m c head size t y yS k :
    length y = n -> sized n ns yS ->
    let xs := rhs_args y p in let t0 := map given xs in let rs := seq 0 (length xs) in let w := (6 * zlen xs + cost (q t) rs t0)%Z in
    well_formed (q t) rs t0 -> in_place (fun i => P (c + i)) [] (q t) xs -> (head + w <= limit)%Z ->
    trace (q t) rs t0 = None ->
    solves P q p par n ns limit (Datatypes.S m) c head size (Callback t y yS k) Halted
| sv_full m c head size t y yS k ys tr :
    length y = n -> sized n ns yS ->
    let xs := rhs_args y p in let t0 := map given xs in let rs := seq 0 (length xs) in let w := (6 * zlen xs + cost (q t) rs t0)%Z in
    well_formed (q t) rs t0 -> in_place (fun i => P (c + i)) [] (q t) xs -> (head + w <= limit)%Z ->
    trace (q t) rs t0 = Some (ys, tr) -> length ys = n -> storage size (head + w)%Z (head + w - 1)%Z ->
    solves P q p par n ns limit (Datatypes.S m) c head size (Callback t y yS k) Overran.

(* integrators that the above says something about *)
Fixpoint orderly (P : nat -> bool) (q : F -> fn) (p : list F) (par : nat -> option nat) (n ns : nat) (limit : Z) (nout c : nat) (head : Z) (S : solver) {struct S} : Prop :=
  match nout with
  | O => True
  | Datatypes.S m =>
      match S with
      | Failure => True
      | Output y yS S' => length y = n /\ sized n ns yS /\ let w := (Z.of_nat n * (6 + 3 * Z.of_nat ns))%Z in
          (head + w <= limit)%Z /\ orderly P q p par n ns limit m (c + n) (head + w)%Z S'
      | Callback t y yS k => length y = n /\ sized n ns yS /\
          let xs := rhs_args y p in let t0 := map given xs in let rs := seq 0 (length xs) in
          well_formed (q t) rs t0 /\ in_place (fun i => P (c + i)) [] (q t) xs /\ (head + (6 * zlen xs + cost (q t) rs t0) <= limit)%Z /\
          match trace (q t) rs t0 with
          | None => True
          | Some (ys, tr) => length ys = n /\ orderly P q p par n ns limit nout c head (k (sens_vectors tr n ys yS par))
          end
      end
  end.
End Sens.
