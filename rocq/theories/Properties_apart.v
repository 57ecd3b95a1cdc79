(* C04, C05, C33, C41 for programs that call matmul inside nested blocks.
   Vocabulary (beyond that of Properties_session).
   ApartSpec.v: P marks variable slots.  [client_apart P p env s]: the client p meets the
   preconditions of its calls (as in client_ok), may call matmul at any level, and on the
   way it takes a variable without an operation only ever takes a slot marked by P and an
   entry of a matrix product made in a block a slot that is not.  [block_call_apart],
   [reachable_apart]: the same of a block and of the history of a state.  With every slot
   marked these are client_ok, block_call_ok and reachable (Claims_apart.client_all).
   Without such a P the claims are false: C41_refuted. *)
From Coq Require Import ZifyBool ZifyNat.
From Flocq Require Import IEEE754.BinarySingleNaN IEEE754.Binary IEEE754.Bits.
From Verif Require Import TapeFacts.
From Verif Require Export Claims_apart Properties_session.
Local Open Scope Z_scope.

(* ---- C04 ---- *)
Theorem C04_matmul {N : Num} {RL : RepLaws N} (C1 C2 : Cfg N) P p :
  @practical N C1 -> @practical N C2 ->
  @client_apart N C1 P p [] st_init -> @client_apart N C2 P p [] st_init ->
  same_outcome (@run N C1 p [] st_init) (@run N C2 p [] st_init).
Proof. exact (apart_start P p). Qed.
Print Assumptions C04_matmul.

(* ---- C05 ---- *)
Theorem C05_matmul {N : Num} {RL : RepLaws N} {C : Cfg N} P p :
  practical -> client_apart P p [] st_init ->
  match run p [] st_init with
  | Ok _ => True | ErrStop => True | Undef IntOverflow => True | _ => False
  end.
Proof. exact (apart_defined P p). Qed.
Print Assumptions C05_matmul.

(* ---- C33 ---- *)
Theorem C33_matmul {N : Num} {RL : RepLaws N} {C : Cfg N} P env s p r s3 :
  practical -> reachable_apart P env s -> block_call_apart P p env s -> block p env s = Ok (r, s3) ->
  s_head s3 = s_head s /\ s_lvl s3 = s_lvl s /\ t_head (s_tape s3) = t_head (s_tape s) /\
  (forall h, alive s h -> same_val s s3 h /\ same_op s s3 h) /\
  (forall i, t_head (s_tape s3) <= i -> t_mem (s_tape s3) i = w0).
Proof. exact (apart_block P env s p r s3). Qed.
Print Assumptions C33_matmul.

(* ---- C41 ---- *)
Theorem C41_matmul_partial {N : Num} {RL : RepLaws N} {C : Cfg N} P env s p r s3 q :
  practical -> reachable_apart P env s -> block_call_apart P p env s -> block p env s = Ok (r, s3) ->
  (forall h, alive s h -> same_adj s s3 h) ->
  client_apart P q env s -> client_apart P q env s3 ->
  same_outcome (run q env s) (run q env s3).
Proof. exact (apart_after P env s p r s3 q). Qed.
Print Assumptions C41_matmul_partial.
(* the step of a variable without an operation, whatever was in its slot before *)
Theorem C41_leaf_partial {N : Num} {RL : RepLaws N} {C : Cfg N} P env s h :
  practical -> reachable_apart P env s -> alive s h -> var_operands s h = Ok [] -> var_data s h = Ok [] ->
  exists s', chain_at s h = Ok s' /\ s_head s' = s_head s /\
    forall x, alive s x -> same_val s s' x /\ same_adj s s' x /\ same_op s s' x.
Proof. exact (apart_leaf P env s h). Qed.
Print Assumptions C41_leaf_partial.

(* ---- cases ---- *)
(* two variables; in a block their product by matmul in slot 3 and its gradient; afterwards
   a product in slot 3 and an independent variable in slot 4 *)
Section Cases.
Local Notation BN := (B64 libm0).
Local Notation BM := (demo BN).
Definition not3 (h : Z) : bool := negb (h =? 3).
Definition two : list (@cmd BN) := [COp (@OVar BN c3); COp (@OVar BN c4)].
Definition inner : list (@cmd BN) := [COp (OMatVV 1 1 1 [0%nat] [1%nat]); CGradNested 2; CAdj 0; COp (@OVar BN c5); CZeroAll].
Definition later : list (@cmd BN) := [COp (OVV BMul 0 1); COp (@OVar BN c5); COp (OVV BAdd 2 3); CGrad 4; CAdj 0; CAdj 1; CAdj 3].
Definition whole : list (@cmd BN) := two ++ [CBegin] ++ inner ++ [CEnd; COp (OUn USquare 0); COp (@OVar BN c5); CGrad 5].
Example C41_matmul_ex :
  reachable_apart (C := BM) not3 (env_of (C := BM) two) (state_of (C := BM) two) /\
  block_call_apart (C := BM) not3 (script inner) (env_of (C := BM) two) (state_of (C := BM) two) /\
  client_apart (C := BM) not3 (script later) (env_of (C := BM) two) (state_of (C := BM) two) /\
  match block (C := BM) (script inner) (env_of (C := BM) two) (state_of (C := BM) two) with
  | Ok (_, s3) => client_apart (C := BM) not3 (script later) (env_of (C := BM) two) s3 /\
      map (fun h => rbits (var_adj s3 h)) [1; 2] = map (fun h => rbits (var_adj (state_of (C := BM) two) h)) [1; 2] /\
      v_chain (s_varis s3 3) = ChMatVV
  | _ => False end.
Proof.
  split; [apply script_reach_apart; [repeat constructor|vm_compute; reflexivity|vm_compute; exact I]|].
  split; [apply block_apartb_ok; [repeat constructor|vm_compute; reflexivity]|].
  split; [apply script_apartb_ok; [repeat constructor|vm_compute; reflexivity]|].
  assert (H : match block (C := BM) (script inner) (env_of (C := BM) two) (state_of (C := BM) two) with
    | Ok (_, s3) => script_apartb (C := BM) not3 later (env_of (C := BM) two) s3 = true /\
        map (fun h => rbits (var_adj s3 h)) [1; 2] = map (fun h => rbits (var_adj (state_of (C := BM) two) h)) [1; 2] /\
        v_chain (s_varis s3 3) = ChMatVV
    | _ => False end) by (vm_compute; auto).
  destruct (block (script inner) (env_of two) (state_of two)) as [[r s3]| | |]; try contradiction.
  destruct H as (H1 & H2). split; [apply script_apartb_ok; [repeat constructor|exact H1]|exact H2].
Qed.
Example C05_matmul_ex : client_apart (C := BM) not3 (script whole) [] st_init /\
  ends (run (C := BM) (script whole) [] st_init) = Returns.
Proof. split; [apply script_apartb_ok; [repeat constructor|vm_compute; reflexivity]|vm_compute; reflexivity]. Qed.
Example C04_matmul_ex : @client_apart BN BM not3 (script whole) [] st_init /\
  @client_apart BN (big BN) not3 (script whole) [] st_init /\
  ends (run (C := big BN) (script whole) [] st_init) = Returns.
Proof.
  split; [apply script_apartb_ok; [repeat constructor|vm_compute; reflexivity]|].
  split; [apply script_apartb_ok; [repeat constructor|vm_compute; reflexivity]|vm_compute; reflexivity].
Qed.
(* the last variable of whole: an independent variable in slot 4, which an independent variable
   of the block had used *)
Example C41_leaf_ex : let s := state_of (C := BM) whole in reachable_apart (C := BM) not3 (env_of (C := BM) whole) s /\
  alive s 4 /\ var_operands s 4 = Ok [] /\ var_data s 4 = Ok [].
Proof.
  cbn zeta. split; [apply script_reach_apart; [repeat constructor|vm_compute; reflexivity|vm_compute; exact I]|].
  split; [apply aliveb_ok; vm_compute; reflexivity|]. split; vm_compute; reflexivity.
Qed.
End Cases.
