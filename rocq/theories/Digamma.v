(* Model of src/digamma.F90 (Cody's PSI): the branches and arithmetic as written.
   The labels 150, 200, 300 and 410 of the source are the functions [psi_150] ...
   Every literal m.nD+e is [fdec] of its digits and exponent. *)
From Verif Require Export Num.

Section Digamma.
Context {N : Num}.

(* a >= b, a > b *)
Definition fge (a b : F) : bool := fle b a.
Definition fgt (a b : F) : bool := flt b a.

(* src/digamma.F90:110 *)
Definition piov4 : F := (fdec (78539816339744830962) (-20)).
(* src/digamma.F90:113-118 *)
Definition psi_p1 : list F :=
  [(fdec (45104681245762934160) (-22));
   (fdec (54932855833000385356) (-19));
   (fdec (37646693175929276856) (-17));
   (fdec (79525490849151998065) (-16));
   (fdec (71451595818951933210) (-15));
   (fdec (30655976301987365674) (-14));
   (fdec (63606997788964458797) (-14));
   (fdec (58041312783537569993) (-14));
   (fdec (16585695029761022321) (-14))].
(* src/digamma.F90:119-123 *)
Definition psi_q1 : list F :=
  [(fdec (96141654774222358525) (-18));
   (fdec (26287715790581193330) (-16));
   (fdec (29862497022250277920) (-15));
   (fdec (16206566091533671639) (-14));
   (fdec (43487880712768329037) (-14));
   (fdec (54256384537269993733) (-14));
   (fdec (24242185002017985252) (-14));
   (fdec (64155223783576225996) (-27))].
(* src/digamma.F90:126-130 *)
Definition psi_p2 : list F :=
  [(fdec (-27103228277757834192) (-19));
   (fdec (-15166271776896121383) (-18));
   (fdec (-19784554148719218667) (-18));
   (fdec (-88100958828312219821) (-19));
   (fdec (-14479614616899842986) (-19));
   (fdec (-73689600332394549911) (-21));
   (fdec (-65135387732718171306) (-40))].
(* src/digamma.F90:131-134 *)
Definition psi_q2 : list F :=
  [(fdec (44992760373789365846) (-18));
   (fdec (20240955312679931159) (-17));
   (fdec (24736979003315290057) (-17));
   (fdec (10742543875702278326) (-17));
   (fdec (17463965060678569906) (-18));
   (fdec (88427520398873480342) (-20))].
(* src/digamma.F90:137-141 *)
Definition psi_x01 : F := (fdec (1870) (-1)).
Definition psi_x01d : F := (fdec (1280) (-1)).
Definition psi_x02 : F := (fdec (69464496836234126266) (-23)).
Definition psi_xinf : F := (fdec (170) (36)).
Definition psi_xmin1 : F := (fdec (589) (-41)).
Definition psi_xmax1 : F := (fdec (360) (14)).
Definition psi_xsmall : F := (fdec (205) (-11)).
Definition psi_xlarge : F := (fdec (204) (13)).
Definition f3 : F := fdec 3 0.
Definition f4 : F := fdec 4 0.
Definition fquart : F := fdec 25 (-2).

(* element k (1-based) of a coefficient table *)
Definition coef (l : list F) (k : nat) : F := nth (k - 1) l f0.

(* the Horner-like DO loops, src/digamma.F90:207-210 and 222-225:
   (den, upper) <- ((den + q(i)) * x, (upper + p(i+1)) * x) *)
Fixpoint psi_loop (p q : list F) (x : F) (is : list nat) (du : F * F) : F * F :=
  match is with
  | [] => du
  | i :: t => psi_loop p q x t (fmul (fadd (fst du) (coef q i)) x,
                                fmul (fadd (snd du) (coef p (S i))) x)
  end.

(* label 410: src/digamma.F90:233-234 *)
Definition psi_410 (x : F) : F := if fgt x f0 then fneg psi_xinf else psi_xinf.

(* label 300: src/digamma.F90:218-228 *)
Definition psi_300 (x aug : F) : F :=
  let aug' :=
    if flt x psi_xlarge then
      let w := fdiv f1 (fmul x x) in
      let du := psi_loop psi_p2 psi_q2 w [1;2;3;4;5]%nat (w, fmul (coef psi_p2 1) w) in
      fadd (fsub (fdiv (fadd (snd du) (coef psi_p2 7)) (fadd (fst du) (coef psi_q2 6)))
                 (fdiv fhalf x)) aug
    else aug in
  fadd aug' (flog x).

(* label 200: src/digamma.F90:201-214 *)
Definition psi_200 (x aug : F) : F :=
  if fgt x f3 then psi_300 x aug
  else
    let du := psi_loop psi_p1 psi_q1 x [1;2;3;4;5;6;7]%nat (x, fmul (coef psi_p1 1) x) in
    let den := fdiv (fadd (snd du) (coef psi_p1 9)) (fadd (fst du) (coef psi_q1 8)) in
    let x' := fsub (fsub x (fdiv psi_x01 psi_x01d)) psi_x02 in
    fadd (fmul den x') aug.

(* label 150: src/digamma.F90:200 *)
Definition psi_150 (x aug : F) : F := psi_200 (fsub f1 x) aug.

(* argument reduction for the cotangent, src/digamma.F90:170-199.
   None: the singular case that jumps to 410.  [pv4] is PIOV4. *)
Definition psi_aug (pv4 : F) (x w : F) : option F :=
  let sgn0 := if flt x f0 then pv4 else fneg pv4 in
  let w1 := fsub w (faint w) in
  let nq := fint (fmul w1 f4) in
  let w2 := fmul f4 (fsub w1 (fmul (fofZ nq) fquart)) in
  let n := Z.quot nq 2 in
  let w3 := if n + n =? nq then w2 else fsub f1 w2 in
  let z := fmul pv4 w3 in
  let sgn := if Z.rem n 2 =? 0 then sgn0 else fneg sgn0 in
  if Z.rem (Z.quot (nq + 1) 2) 2 =? 0 then
    if feq z f0 then None
    else Some (fmul sgn (fdiv f4 (ftan z)))
  else Some (fmul sgn (fmul f4 (ftan z))).

(* digamma: src/digamma.F90:144-237 *)
Definition digamma (xx : F) : F :=
  let x := xx in
  let w := fabs x in
  if fge (fneg x) psi_xmax1 || flt w psi_xmin1 then psi_410 x
  else if fge x fhalf then psi_200 x f0
  else if fle w psi_xsmall then psi_150 x (fneg (fdiv f1 x))
  else match psi_aug piov4 x w with
       | None => psi_410 x
       | Some aug => psi_150 x aug
       end.

End Digamma.
