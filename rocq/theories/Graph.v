(* The abstract machine the concrete model is proved to refine: an expression
   graph with one adjoint per node, no words and no addresses arithmetic beyond
   the start of each record.  It is proof machinery; the property theorems talk
   about the concrete model. *)
From Verif Require Export Ops.

Section Graph.
Context {N : Num} {C : Cfg N}.

(* What a record refers to: operand nodes and data, or an entry of a matrix
   product (row, column, the two stored arrays). *)
Inductive body :=
| BRec (ops : list nat) (ds : list F)
| BMat (i j : nat) (a b : nat).

Record node := mkNode { n_val : F; n_body : body; n_loc : Z }.

Inductive acont := AVar (ids : list nat) | ADat (ds : list F).

(* a matrix stored in the tape, column-major *)
Record arr := mkArr { a_m : nat; a_n : nat; a_c : acont; a_loc : Z }.

(* a nested environment: nodes, arrays and tape head at its start *)
Record mark := mkMark { mk_n : nat; mk_a : nat; mk_top : Z }.

Record graph := mkGraph {
  g_nodes : list node;
  g_adj : nat -> F;
  g_arrs : list arr;
  g_ch : nat -> chain;       (* chain pointer of every slot, live or not *)
  g_nest : list mark;        (* innermost first *)
  g_top : Z;                 (* tape head *)
  g_peak : Z                 (* largest tape head so far *)
}.

Definition g_init : graph :=
  {| g_nodes := []; g_adj := fun _ => f0; g_arrs := []; g_ch := fun _ => ChDummy;
     g_nest := []; g_top := 1; g_peak := 1 |}.

Definition nupd {A} (f : nat -> A) (k : nat) (x : A) : nat -> A :=
  fun j => if Nat.eqb j k then x else f j.

Definition set_gadj (g : graph) (f : nat -> F) : graph :=
  {| g_nodes := g_nodes g; g_adj := f; g_arrs := g_arrs g; g_ch := g_ch g;
     g_nest := g_nest g; g_top := g_top g; g_peak := g_peak g |}.

Definition set_gch (g : graph) (f : nat -> chain) : graph :=
  {| g_nodes := g_nodes g; g_adj := g_adj g; g_arrs := g_arrs g; g_ch := f;
     g_nest := g_nest g; g_top := g_top g; g_peak := g_peak g |}.

Definition set_gnodes (g : graph) (l : list node) : graph :=
  {| g_nodes := l; g_adj := g_adj g; g_arrs := g_arrs g; g_ch := g_ch g;
     g_nest := g_nest g; g_top := g_top g; g_peak := g_peak g |}.

Definition gsize (g : graph) : nat := length (g_nodes g).

Definition gval (g : graph) (k : nat) : F :=
  match nth_error (g_nodes g) k with Some nd => n_val nd | None => f0 end.
Definition gloc (g : graph) (k : nat) : Z :=
  match nth_error (g_nodes g) k with Some nd => n_loc nd | None => 0 end.
Definition galoc (g : graph) (k : nat) : Z :=
  match nth_error (g_arrs g) k with Some ar => a_loc ar | None => 0 end.

(* operand words of a record *)
Definition zops (g : graph) (b : body) : list Z :=
  match b with
  | BRec ops _ => map (gloc g) ops
  | BMat i j a b => [Z.of_nat i + 1; Z.of_nat j + 1; galoc g a; galoc g b]
  end.
Definition bdata (b : body) : list F := match b with BRec _ ds => ds | BMat _ _ _ _ => [] end.
Definition bwidth (b : body) : Z :=
  match b with
  | BRec ops ds => 6 + zlen ops + 2 * zlen ds
  | BMat _ _ _ _ => 10
  end.
Definition alen (ar : arr) : Z :=
  match a_c ar with AVar ids => 2 + zlen ids | ADat ds => 2 + 2 * zlen ds end.

(* ---- adjoint contributions ---- *)

Definition is_mat (ch : chain) : bool :=
  match ch with ChMatVV | ChMatVD | ChMatDV => true | _ => false end.

(* chains with no local array of a fixed size other than the operand count *)
Definition sizeless (ch : chain) : bool :=
  match ch with
  | ChDummy | ChAddVV | ChAddVD | ChSubVV | ChSubVD | ChSubDV | ChHypot
  | ChTan | ChExp | ChSqrt | ChInvLogit | ChAbs | ChSum | ChNorm2 | ChLse
  | ChDotVV | ChDotVD | ChEager => true
  | _ => false
  end.

(* a stale chain pointer is harmless on a record without operands *)
Definition leaf_safe (ch : chain) : bool :=
  match junk with None => sizeless ch | Some _ => negb (is_mat ch) end.

Definition is_nil {A} (l : list A) : bool := match l with [] => true | _ => false end.

(* Contributions to the operands, in order; None: nothing is claimed. *)
Definition contrib (ch : chain) (v a : F) (xs ds : list F) : option (list F) :=
  match ch with
  | ChDummy => Some []
  | _ =>
    if is_nil xs && is_nil ds then (if leaf_safe ch then Some [] else None) else
    match ch, xs, ds with
    | ChAddVV, [_; _], _ => Some [a; a]
    | ChAddVD, [_], _ => Some [a]
    | ChSubVV, [_; _], _ => Some [a; fneg a]
    | ChSubVD, [_], _ => Some [a]
    | ChSubDV, [_], _ => Some [fneg a]
    | ChMulVV, [x; y], _ => Some [fmul y a; fmul x a]
    | ChMulVD, [_], [d] => Some [fmul a d]
    | ChDivVV, [x; y], _ => Some [fdiv a y; fneg (fdiv (fmul v a) y)]
    | ChDivVD, [_], [d] => Some [fdiv a d]
    | ChDivDV, [x], _ => Some [fneg (fdiv (fmul v a) x)]
    | ChPowVV, [x; y], _ =>
        Some (if fne x f0 then [fdiv (fmul (fmul a y) v) x; fmul (fmul a v) (flog x)] else [])
    | ChPowVD, [x], [d] => Some (if fne x f0 then [fdiv (fmul (fmul a d) v) x] else [])
    | ChPowDV, [x], [d] => Some (if fne d f0 then [fmul (fmul a v) (flog d)] else [])
    | ChHypot, _, _ => Some (map (fun x => fdiv (fmul a x) v) xs)
    | ChSin, [x], _ => Some [fmul a (fcos x)]
    | ChCos, [x], _ => Some [fneg (fmul a (fsin x))]
    | ChTan, [x], _ => Some [fmul a (fadd f1 (fmul v v))]
    | ChAsin, [x], _ => Some [fdiv a (fsqrt (fsub f1 (fmul x x)))]
    | ChAcos, [x], _ => Some [fneg (fdiv a (fsqrt (fsub f1 (fmul x x))))]
    | ChAtan, [x], _ => Some [fdiv a (fadd f1 (fmul x x))]
    | ChSinh, [x], _ => Some [fmul a (fcosh x)]
    | ChCosh, [x], _ => Some [fmul a (fsinh x)]
    | ChTanh, [x], _ => Some [fdiv a (fmul (fcosh x) (fcosh x))]
    | ChAsinh, [x], _ => Some [fdiv a (fsqrt (fadd (fmul x x) f1))]
    | ChAcosh, [x], _ => Some [fdiv a (fsqrt (fsub (fmul x x) f1))]
    | ChAtanh, [x], _ => Some [fdiv a (fsub f1 (fmul x x))]
    | ChExp, [x], _ => Some [fmul a v]
    | ChLog, [x], _ => Some [fdiv a x]
    | ChSqrt, [x], _ => Some [fdiv (fmul fhalf a) v]
    | ChSq, [x], _ => Some [fmul (fmul a f2) x]
    | ChInv, [x], _ => Some [fneg (fdiv a (fmul x x))]
    | ChIsq, [x], _ => Some [fneg (fdiv (fmul a f2) (fmul (fmul x x) x))]
    | ChIsqrt, [x], _ => Some [fneg (fdiv (fmul fhalf a) (fmul x (fsqrt x)))]
    | ChLogit, [x], _ => Some [fdiv a (fsub x (fmul x x))]
    | ChInvLogit, [x], _ => Some [fmul (fmul a v) (fsub f1 v)]
    | ChErf, [x], _ => Some [fmul (fmul a c_two_over_sqrt_pi) (fexp (fneg (fmul x x)))]
    | ChErfc, [x], _ => Some [fneg (fmul (fmul a c_two_over_sqrt_pi) (fexp (fneg (fmul x x))))]
    | ChLogGamma, [x], _ => Some [fmul a (digamma x)]
    | ChAbs, [x], _ => Some (if is_nan_d v then [c_nan] else [])
    | ChSum, _, _ => Some (map (fun _ => a) xs)
    | ChNorm2, _, _ => Some (map (fun x => fdiv (fmul a x) v) xs)
    | ChLse, _, _ => Some (map (fun x => fmul a (fexp (fsub x v))) xs)
    | ChDotVV, _, _ =>
        let n := Nat.div2 (length xs) in
        if Nat.eqb (length xs) (2 * n)
        then Some (map (fmul a) (skipn n xs) ++ map (fmul a) (firstn n xs)) else None
    | ChDotVD, _, _ => if Nat.eqb (length xs) (length ds) then Some (map (fmul a) ds) else None
    | ChEager, _, _ => if Nat.eqb (length xs) (length ds) then Some (map (fmul a) ds) else None
    | _, _, _ => None
    end
  end.

(* nodes of row i / column j of a stored variable matrix, data likewise *)
Definition arow (ar : arr) (i : nat) : list nat :=
  match a_c ar with AVar l => mrow O (a_m ar) (a_n ar) i l | ADat _ => [] end.
Definition acol (ar : arr) (j : nat) : list nat :=
  match a_c ar with AVar l => mcol O (a_m ar) j l | ADat _ => [] end.
Definition adrow (ar : arr) (i : nat) : list F :=
  match a_c ar with ADat l => mrow f0 (a_m ar) (a_n ar) i l | AVar _ => [] end.
Definition adcol (ar : arr) (j : nat) : list F :=
  match a_c ar with ADat l => mcol f0 (a_m ar) j l | AVar _ => [] end.

(* adjoint updates of one chain step: (node, increment) in order *)
Definition effect (g : graph) (k : nat) : option (list (nat * F)) :=
  match nth_error (g_nodes g) k with
  | None => None
  | Some nd =>
    let a := g_adj g k in
    match n_body nd with
    | BRec ops ds =>
        option_map (combine ops) (contrib (g_ch g k) (n_val nd) a (map (gval g) ops) ds)
    | BMat i j ia ib =>
        match g_ch g k, nth_error (g_arrs g) ia, nth_error (g_arrs g) ib with
        | ChDummy, _, _ => Some []
        | ChMatVV, Some (mkArr m kk (AVar la) l1), Some (mkArr kk' n (AVar lb) l2) =>
            if Nat.ltb i m && Nat.ltb j n && Nat.eqb kk kk' then
              let r := mrow O m kk i la in
              let c := mcol O kk' j lb in
              Some (combine r (map (fun x => fmul a (gval g x)) c) ++
                    combine c (map (fun x => fmul a (gval g x)) r))
            else None
        | ChMatVD, Some (mkArr m kk (AVar la) l1), Some (mkArr kk' n (ADat lb) l2) =>
            if Nat.ltb i m && Nat.ltb j n && Nat.eqb kk kk' then
              Some (combine (mrow O m kk i la) (map (fmul a) (mcol f0 kk' j lb)))
            else None
        | ChMatDV, Some (mkArr m kk (ADat la) l1), Some (mkArr kk' n (AVar lb) l2) =>
            if Nat.ltb i m && Nat.ltb j n && Nat.eqb kk kk' then
              Some (combine (mcol O kk' j lb) (map (fmul a) (mrow f0 m kk i la)))
            else None
        | _, _, _ => None
        end
    end
  end.

Definition addto (f : nat -> F) (p : nat * F) : nat -> F :=
  nupd f (fst p) (fadd (f (fst p)) (snd p)).

Definition apply_effect (l : list (nat * F)) (f : nat -> F) : nat -> F := fold_left addto l f.

(* chain steps of nodes lo+n-1, ..., lo *)
Fixpoint asweep (lo n : nat) (g : graph) : option graph :=
  match n with
  | O => Some g
  | S m =>
      match effect g (lo + m) with
      | None => None
      | Some l => asweep lo m (set_gadj g (apply_effect l (g_adj g)))
      end
  end.

(* ---- results of library calls ---- *)

Inductive ares (A : Type) :=
| AOk (a : A)
| AStop            (* error stop *)
| ABad.            (* outside the contract: nothing is claimed *)
Arguments AOk {A} a.
Arguments AStop {A}.
Arguments ABad {A}.

Definition abind {A B} (r : ares A) (f : A -> ares B) : ares B :=
  match r with AOk a => f a | AStop => AStop | ABad => ABad end.

Definition push_top (g : graph) (n : Z) (nodes : list node) (adj : nat -> F) (arrs : list arr)
    (ch : nat -> chain) : graph :=
  {| g_nodes := nodes; g_adj := adj; g_arrs := arrs; g_ch := ch; g_nest := g_nest g;
     g_top := g_top g + n; g_peak := Z.max (g_peak g) (g_top g + n) |}.

(* append a node; the slot keeps its chain pointer unless one is given *)
Definition a_new (g : graph) (v : F) (b : body) (ch : option chain) : graph :=
  let k := gsize g in
  push_top g (bwidth b) (g_nodes g ++ [mkNode v b (g_top g)]) (nupd (g_adj g) k f0) (g_arrs g)
    (match ch with Some c => nupd (g_ch g) k c | None => g_ch g end).

Definition a_arr (g : graph) (m n : nat) (c : acont) : graph :=
  let ar := mkArr m n c (g_top g) in
  push_top g (alen ar) (g_nodes g) (g_adj g) (g_arrs g ++ [ar]) (g_ch g).

(* What a scalar-valued call does once its operands are known. *)
Inductive act :=
| ANew (v : F) (ops : list nat) (ds : list F) (ch : option chain)
| AAlias (k : nat) (ch : option chain)
| AErr
| ABadCall.

Definition do_act (g : graph) (a : act) : ares (nat * graph) :=
  match a with
  | ANew v ops ds ch => AOk (gsize g, a_new g v (BRec ops ds) ch)
  | AAlias k None => AOk (k, g)
  | AAlias k (Some c) => AOk (k, set_gch g (nupd (g_ch g) k c))
  | AErr => AStop
  | ABadCall => ABad
  end.

Definition anew1 (f : F -> F) (ch : chain) (g : graph) (k : nat) : act :=
  ANew (f (gval g k)) [k] [] (Some ch).

Definition act_abs (g : graph) (k : nat) (ch : option chain) : act :=
  let x := gval g k in
  if fgt x f0 then AAlias k ch
  else if flt x f0 then ANew (fneg x) [k] [] (Some (match ch with Some c => c | None => ChSubDV end))
  else if feq x f0 then ANew f0 [] [] ch
  else ANew c_nan [k] [] (Some (match ch with Some c => c | None => ChAbs end)).

Definition act_un (u : un) (g : graph) (k : nat) : act :=
  let x := gval g k in
  match u with
  | USin => anew1 fsin ChSin g k
  | UCos => anew1 fcos ChCos g k
  | UTan => anew1 ftan ChTan g k
  | UAsin => anew1 fasin ChAsin g k
  | UAcos => anew1 facos ChAcos g k
  | UAtan => anew1 fatan ChAtan g k
  | USinh => anew1 fsinh ChSinh g k
  | UCosh => anew1 fcosh ChCosh g k
  | UTanh => anew1 ftanh ChTanh g k
  | UAsinh => anew1 fasinh ChAsinh g k
  | UAcosh => if is_nan_d x then AAlias k None
              else if fle x f1 then AErr else anew1 facosh ChAcosh g k
  | UAtanh => if is_nan_d x then AAlias k None
              else if fle x (fneg f1) || fge x f1 then AErr else anew1 fatanh ChAtanh g k
  | UExp => anew1 fexp ChExp g k
  | ULog => anew1 flog ChLog g k
  | USqrt => anew1 fsqrt ChSqrt g k
  | USquare => anew1 (fun x => fmul x x) ChSq g k
  | UInv => anew1 (fun x => fdiv f1 x) ChInv g k
  | UInvSqrt => anew1 (fun x => fdiv f1 (fsqrt x)) ChIsqrt g k
  | UInvSquare => anew1 (fun x => fmul (fdiv f1 x) x) ChIsq g k
  | ULogit => anew1 logit_d ChLogit g k
  | UInvLogit => anew1 inv_logit_d ChInvLogit g k
  | UErf => anew1 ferf ChErf g k
  | UErfc => anew1 ferfc ChErfc g k
  | ULogGamma => anew1 floggamma ChLogGamma g k
  | UNeg => anew1 fneg ChSubDV g k
  | UPos => AAlias k None
  | UAbs => act_abs g k None
  end.

Definition act_vv (b : bin) (g : graph) (k1 k2 : nat) : act :=
  let x := gval g k1 in
  let y := gval g k2 in
  match b with
  | BAdd => ANew (fadd x y) [k1; k2] [] (Some ChAddVV)
  | BSub => ANew (fsub x y) [k1; k2] [] (Some ChSubVV)
  | BMul => ANew (fmul x y) [k1; k2] [] (Some ChMulVV)
  | BDiv => ANew (fdiv x y) [k1; k2] [] (Some ChDivVV)
  | BPow => ANew (fpow x y) [k1; k2] [] (Some ChPowVV)
  | BHypot => ANew (fhypot x y) [k1; k2] [] (Some ChHypot)
  end.

Definition act_vd (b : bin) (g : graph) (k : nat) (d : F) : act :=
  let x := gval g k in
  match b with
  | BAdd => if fne d f0 then ANew (fadd x d) [k] [] (Some ChAddVD) else AAlias k (Some ChAddVD)
  | BSub => if fne d f0 then ANew (fsub x d) [k] [] (Some ChSubVD) else AAlias k (Some ChSubVD)
  | BMul => if fne d f1 then ANew (fmul x d) [k] [d] (Some ChMulVD) else AAlias k (Some ChMulVD)
  | BDiv => if fne d f1 then ANew (fdiv x d) [k] [d] (Some ChDivVD) else AAlias k (Some ChDivVD)
  | BPow =>
      if feq d fhalf then anew1 fsqrt ChSqrt g k
      else if feq d f1 then AAlias k None
      else if feq d f2 then anew1 (fun x => fmul x x) ChSq g k
      else if feq d (fneg f2) then anew1 (fun x => fmul (fdiv f1 x) x) ChIsq g k
      else if feq d (fneg f1) then anew1 (fun x => fdiv f1 x) ChInv g k
      else if feq d (fneg fhalf) then anew1 (fun x => fdiv f1 (fsqrt x)) ChIsqrt g k
      else ANew (fpow x d) [k] [d] (Some ChPowVD)
  | BHypot => if fne d f0 then ANew (fhypot x d) [k] [] (Some ChHypot) else act_abs g k (Some ChHypot)
  end.

Definition act_dv (b : bin) (g : graph) (d : F) (k : nat) : act :=
  let x := gval g k in
  match b with
  | BAdd => if fne d f0 then ANew (fadd d x) [k] [] (Some ChAddVD) else AAlias k (Some ChAddVD)
  | BSub => ANew (fsub d x) [k] [] (Some ChSubDV)
  | BMul => if fne d f1 then ANew (fmul x d) [k] [d] (Some ChMulVD) else AAlias k (Some ChMulVD)
  | BDiv => ANew (fdiv d x) [k] [d] (Some ChDivDV)
  | BPow => ANew (fpow d x) [k] [d] (Some ChPowDV)
  | BHypot => if fne d f0 then ANew (fhypot x d) [k] [] (Some ChHypot) else AAlias k (Some ChHypot)
  end.

(* node in a register, if it is live *)
Definition areg (g : graph) (env : list nat) (r : nat) : option nat :=
  match nth_error env r with
  | Some k => if Nat.ltb k (gsize g) then Some k else None
  | None => None
  end.

Fixpoint aregs (g : graph) (env : list nat) (l : list nat) : option (list nat) :=
  match l with
  | [] => Some []
  | r :: t => match areg g env r, aregs g env t with
              | Some k, Some ks => Some (k :: ks)
              | _, _ => None
              end
  end.

(* action of a call with a scalar result; matrix products are separate *)
Definition act_op (g : graph) (env : list nat) (o : op) : act :=
  match o with
  | OVar d => ANew d [] [] None
  | OVar0 => ANew f0 [] [] None
  | OUn u a => match areg g env a with Some k => act_un u g k | None => ABadCall end
  | OVV b a1 a2 =>
      match areg g env a1, areg g env a2 with
      | Some k1, Some k2 => act_vv b g k1 k2
      | _, _ => ABadCall
      end
  | OVD b a d => match areg g env a with Some k => act_vd b g k d | None => ABadCall end
  | ODV b d a => match areg g env a with Some k => act_dv b g d k | None => ABadCall end
  | OSum l => match aregs g env l with
              | Some ks => ANew (fsum (map (gval g) ks)) ks [] (Some ChSum) | None => ABadCall end
  | ONorm2 l => match aregs g env l with
              | Some ks => ANew (fnorm2 (map (gval g) ks)) ks [] (Some ChNorm2) | None => ABadCall end
  | OLse l => match aregs g env l with
              | Some ks => ANew (log_sum_exp_d (map (gval g) ks)) ks [] (Some ChLse) | None => ABadCall end
  | ODotVV l1 l2 =>
      match aregs g env l1, aregs g env l2 with
      | Some k1, Some k2 =>
          if Nat.eqb (length k1) (length k2)
          then ANew (fdot (map (gval g) k1) (map (gval g) k2)) (k1 ++ k2) [] (Some ChDotVV)
          else ABadCall
      | _, _ => ABadCall
      end
  | ODotVD l d =>
      match aregs g env l with
      | Some ks => if Nat.eqb (length ks) (length d)
                   then ANew (fdot (map (gval g) ks) d) ks d (Some ChDotVD) else ABadCall
      | None => ABadCall
      end
  | ODotDV d l =>
      match aregs g env l with
      | Some ks => if Nat.eqb (length d) (length ks)
                   then ANew (fdot d (map (gval g) ks)) ks d (Some ChDotVD) else ABadCall
      | None => ABadCall
      end
  | OPart v p l =>
      match aregs g env l with
      | Some ks => let xs := map (gval g) ks in
                   if Nat.eqb (length (p xs)) (length ks)
                   then ANew (v xs) ks (p xs) (Some ChEager) else ABadCall
      | None => ABadCall
      end
  | OMatVV _ _ _ _ _ | OMatVD _ _ _ _ _ | OMatDV _ _ _ _ _ => ABadCall
  end.

Definition dim_ok (n : nat) : bool := Z.of_nat n <=? max_int.
Definition dims_ok (m k n : nat) : bool := dim_ok m && dim_ok k && dim_ok n.

(* result entries of a matrix product over the arrays ia and ib *)
Definition mat_nodes (ch : chain) (ia ib : nat) (ps : list ((nat * nat) * F)) (g : graph) : graph :=
  fold_left (fun g q => a_new g (snd q) (BMat (fst (fst q)) (snd (fst q)) ia ib) (Some ch)) ps g.

Definition amat (ch : chain) (m k n : nat) (ca cb : acont) (av bv : list F) (g : graph)
    : ares (list nat * graph) :=
  if Nat.eqb (length av) (m * k) && Nat.eqb (length bv) (k * n) && dims_ok m k n then
    let ia := length (g_arrs g) in
    let g2 := a_arr (a_arr g m k ca) k n cb in
    let ps := combine (mpairs m n) (mat_vals m k n av bv) in
    AOk (seq (gsize g) (length ps), mat_nodes ch ia (S ia) ps g2)
  else ABad.

Definition aexec_op (g : graph) (env : list nat) (o : op) : ares (list nat * graph) :=
  match o with
  | OMatVV m k n a b =>
      match aregs g env a, aregs g env b with
      | Some ka, Some kb =>
          amat ChMatVV m k n (AVar ka) (AVar kb) (map (gval g) ka) (map (gval g) kb) g
      | _, _ => ABad
      end
  | OMatVD m k n a b =>
      match aregs g env a with
      | Some ka => amat ChMatVD m k n (AVar ka) (ADat b) (map (gval g) ka) b g
      | None => ABad
      end
  | OMatDV m k n a b =>
      match aregs g env b with
      | Some kb => amat ChMatDV m k n (ADat a) (AVar kb) a (map (gval g) kb) g
      | None => ABad
      end
  | _ => abind (do_act g (act_op g env o)) (fun p => AOk ([fst p], snd p))
  end.

Fixpoint aexec (prog : list op) (env : list nat) (g : graph) : ares (list nat * graph) :=
  match prog with
  | [] => AOk (env, g)
  | o :: t => abind (aexec_op g env o) (fun p => aexec t (env ++ fst p) (snd p))
  end.

(* ---- adjoint and nesting commands ---- *)

Definition a_seed (g : graph) (k : nat) : graph := set_gadj g (nupd (g_adj g) k f1).

Definition agrad (k : nat) (g : graph) : option graph :=
  if Nat.ltb k (gsize g) then asweep 0 (gsize g) (a_seed g k) else None.

Definition azero_from (lo : nat) (g : graph) : graph :=
  set_gadj g (fun j => if Nat.leb lo j && Nat.ltb j (gsize g) then f0 else g_adj g j).

Definition abegin (g : graph) : option graph :=
  if Nat.ltb (length (g_nest g)) 10 then
    Some {| g_nodes := g_nodes g; g_adj := g_adj g; g_arrs := g_arrs g; g_ch := g_ch g;
            g_nest := mkMark (gsize g) (length (g_arrs g)) (g_top g) :: g_nest g;
            g_top := g_top g; g_peak := g_peak g |}
  else None.

Definition atrunc (m : mark) (rest : list mark) (g : graph) : graph :=
  {| g_nodes := firstn (mk_n m) (g_nodes g); g_adj := g_adj g;
     g_arrs := firstn (mk_a m) (g_arrs g); g_ch := g_ch g; g_nest := rest;
     g_top := mk_top m; g_peak := g_peak g |}.

End Graph.

Arguments AOk {A} a.
Arguments AStop {A}.
Arguments ABad {A}.
