(** The WASM front end: lowering of blockless DAGs to the compiler's MIR.

    Models crates/wasm/src/lowering/{mod,context,ops,cfg}.rs.  The input is what the womir
    crate produces (its [BlocklessDag]); womir and wasmparser are not part of the repository.
    Simplifications: a DAG is a chain of nodes ([dag], where a loop node carries its sub-DAG)
    and node numbers are counted along the chain; hash maps are association lists with the
    latest entry first; [label_map] and [label_phi_nodes], which have the same keys and are
    filled together, are one table; the phis of a block, which always come before its other
    instructions, are kept apart; messages of errors are dropped, so [None] is an error or a
    panic; the current block is never absent. *)
From Coq Require Import ZArith Bool List.
From Verif Require Import M31 Isa Mir.
Import ListNotations.
Open Scope Z_scope.

(** ** Blockless DAGs *)
(** wasmparser: the value types and operators, as far as the lowering tells them apart. *)
Inductive wty : Set := I32 | OtherTy.
Inductive wop : Set :=
| WAdd | WSub | WMul | WDivU | WAnd | WOr | WXor
| WEq | WNe | WGtU | WGeU | WLtU | WLeU
| WLtS | WGtS | WLeS | WGeS
| WEqz | WConst (v : Z) | WLocal | WCall (f : nat)
| WLoad (offset : Z) | WStore (offset : Z) | WOther.
(** womir: [ValueOrigin] (node and output), [BreakTarget]. *)
Definition origin : Set := (nat * nat)%type.
Inductive target : Set := ToLabel (id depth : nat) | ToLoop (depth : nat).
(** womir: [Operation], apart from loops. *)
Inductive oper : Set :=
| OInputs | OWasm (w : wop) | OLabel (id : nat)
| OBr (t : target) | OBrIf (t : target) | OBrIfZero (t : target) | OBrTable.
(** womir: the nodes of a [BlocklessDag], each with its inputs and output types. *)
Inductive dag : Set :=
| Done
| Next (op : oper) (inputs : list origin) (outputs : list wty) (rest : dag)
| Loop (inputs : list origin) (sub_dag rest : dag).

(** ** Lowering state *)
Definition look {K A} (eqb : K -> K -> bool) (k : K) (l : list (K * A)) : option A :=
  match find (fun p => eqb (fst p) k) l with Some p => Some (snd p) | None => None end.
Definition origin_eqb (a b : origin) : bool := Nat.eqb (fst a) (fst b) && Nat.eqb (snd a) (snd b).

(** context.rs 9-25 [DagToMirContext], [ActiveLoop], with the function under construction. *)
Record st : Type := St {
  nb : nat; ph : nat -> list nat; body : nat -> list minstr; tm : nat -> term;
  nx : nat; tys : nat -> option ty;
  maps : list (list (origin * nat));      (* value_maps, innermost first *)
  labs : list (nat * (nat * list nat));   (* label -> block, phis *)
  cur : nat;
  loops : list (nat * list nat);          (* loop_stack, innermost first: header, phis *)
  defer : list (nat * nat * nat * value)  (* block, phi, source block, source value *) }.
Definition upf {A} (f : nat -> A) (k : nat) (a : A) : nat -> A := fun x => if Nat.eqb x k then a else f x.

(** context.rs 28-42 [new]; function.rs 92-111: one empty block. *)
Definition start : st :=
  St 1 (fun _ => []) (fun _ => []) (fun _ => TUnreachable) 0 (fun _ => None) [[]] [] 0 [] [].
(** function.rs 114-116, 140-160 [new_typed_value_id]; context.rs 56-59, 75-79, 96-106. *)
Definition add_block (s : st) : nat * st :=
  (nb s, St (S (nb s)) (ph s) (body s) (tm s) (nx s) (tys s) (maps s) (labs s) (cur s) (loops s) (defer s)).
Definition set_cur (b : nat) (s : st) : st :=
  St (nb s) (ph s) (body s) (tm s) (nx s) (tys s) (maps s) (labs s) b (loops s) (defer s).
Definition set_tm (b : nat) (t : term) (s : st) : st :=
  St (nb s) (ph s) (body s) (upf (tm s) b t) (nx s) (tys s) (maps s) (labs s) (cur s) (loops s) (defer s).
Definition push (is : list minstr) (s : st) : st :=
  St (nb s) (ph s) (upf (body s) (cur s) (body s (cur s) ++ is)) (tm s) (nx s) (tys s) (maps s) (labs s) (cur s) (loops s) (defer s).
Definition new_value (t : ty) (s : st) : nat * st :=
  (nx s, St (nb s) (ph s) (body s) (tm s) (S (nx s)) (upf (tys s) (nx s) (Some t)) (maps s) (labs s) (cur s) (loops s) (defer s)).
Definition insert_value (o : origin) (v : nat) (s : st) : st :=
  St (nb s) (ph s) (body s) (tm s) (nx s) (tys s)
    match maps s with m :: r => ((o, v) :: m) :: r | [] => [] end (labs s) (cur s) (loops s) (defer s).
Definition set_maps (ms : list (list (origin * nat))) (s : st) : st :=
  St (nb s) (ph s) (body s) (tm s) (nx s) (tys s) ms (labs s) (cur s) (loops s) (defer s).
Definition add_label (id b : nat) (phis : list nat) (s : st) : st :=
  St (nb s) (ph s) (body s) (tm s) (nx s) (tys s) (maps s) ((id, (b, phis)) :: labs s) (cur s) (loops s) (defer s).
Definition set_loops (ls : list (nat * list nat)) (s : st) : st :=
  St (nb s) (ph s) (body s) (tm s) (nx s) (tys s) (maps s) (labs s) (cur s) ls (defer s).
Definition add_deferred (ds : list (nat * nat * nat * value)) (s : st) : st :=
  St (nb s) (ph s) (body s) (tm s) (nx s) (tys s) (maps s) (labs s) (cur s) (loops s) (defer s ++ ds).
Definition add_phi (b v : nat) (s : st) : st :=
  St (nb s) (upf (ph s) b (ph s b ++ [v])) (body s) (tm s) (nx s) (tys s) (maps s) (labs s) (cur s) (loops s) (defer s).

(** mod.rs 73-87 [wasm_type_to_mir_type]. *)
Definition mir_type (t : wty) : option ty := match t with I32 => Some TU32 | OtherTy => None end.
Fixpoint mir_types (ts : list wty) : option (list ty) :=
  match ts with
  | [] => Some []
  | t :: r => match mir_type t, mir_types r with Some a, Some l => Some (a :: l) | _, _ => None end
  end.
(** context.rs 81-88 [get_value], 152-175 [get_input_value]. *)
Fixpoint get_value (o : origin) (ms : list (list (origin * nat))) : option nat :=
  match ms with
  | [] => None
  | m :: r => match look origin_eqb o m with Some v => Some v | None => get_value o r end
  end.
Fixpoint get_inputs (os : list origin) (s : st) : option (list value) :=
  match os with
  | [] => Some []
  | o :: r => match get_value o (maps s), get_inputs r s with Some v, Some l => Some (Op v :: l) | _, _ => None end
  end.
(** context.rs 178-196 [create_phi_nodes]. *)
Fixpoint create_phi_nodes (b : nat) (ts : list ty) (s : st) : list nat * st :=
  match ts with
  | [] => ([], s)
  | t :: r => let (v, s1) := new_value t s in
              let (vs, s2) := create_phi_nodes b r (add_phi b v s1) in (v :: vs, s2)
  end.
Fixpoint insert_outputs (node out : nat) (vs : list nat) (s : st) : st :=
  match vs with [] => s | v :: r => insert_outputs node (S out) r (insert_value (node, out) v s) end.

(** cfg.rs 12-42 [allocate_blocks_and_phi_nodes]. *)
Fixpoint allocate (d : dag) (k : nat) (s : st) : option st :=
  match d with
  | Done => Some s
  | Next (OLabel id) _ outs rest =>
    let (b, s1) := add_block s in
    match mir_types outs with
    | None => None
    | Some ts =>
      let (phis, s2) := create_phi_nodes b ts s1 in
      allocate rest (S k) (add_label id b phis (insert_outputs k 0 phis s2))
    end
  | Next _ _ _ rest | Loop _ _ rest => allocate rest (S k) s
  end.

(** ** Operations *)
(** ops.rs 12-41 [wasm_binary_opcode_to_mir]. *)
Definition bin_opcode (w : wop) : option binop :=
  match w with
  | WAdd => Some U32Add | WSub => Some U32Sub | WMul => Some U32Mul | WDivU => Some U32Div
  | WEq => Some U32Eq | WNe => Some U32Neq | WGtU => Some U32Greater | WGeU => Some U32GreaterEqual
  | WLtU => Some U32Less | WLeU => Some U32LessEqual
  | WAnd => Some U32BitwiseAnd | WOr => Some U32BitwiseOr | WXor => Some U32BitwiseXor
  | _ => None
  end.
(** ops.rs 130-134. *)
Definition signed_opcode (w : wop) : option binop :=
  match w with
  | WLtS => Some U32Less | WGtS => Some U32Greater | WLeS => Some U32LessEqual | WGeS => Some U32GreaterEqual
  | _ => None
  end.
(** runner/src/memory/mod.rs 14-19. *)
Definition MAX_ADDRESS : Z := 2 ^ 28 - 1.
(** ops.rs 94-97 [cm_offset_from_wasm_i32_offset] and 79: [as i32] wraps. *)
Definition i32 (z : Z) : Z := (z + 2 ^ 31) mod 2 ^ 32 - 2 ^ 31.
Definition heap_constant (offset : Z) : Z := (MAX_ADDRESS + (- i32 (offset / 2) - 1)) mod 2 ^ 32.
(** ops.rs 58-92 [compute_cm_address_from_wasm_address]. *)
Definition address_code (n : nat) (a : value) (offset : Z) : list minstr :=
  [ IBinary U32Div n a (Lit (LInt 2)); ICast (S n) (Op n) TU32 TFelt;
    IBinary Sub (S (S n)) (Lit (LInt (heap_constant offset))) (Op (S n)) ].
(** ops.rs 100-272 [convert_wasm_op_to_mir]: the instructions for an operation on the values
    [vs] when the next free id is [n], the types of the new ids, and the result.  [params]
    gives the parameter types of the functions of the module. *)
Definition code (params : nat -> option (list wty)) (w : wop) (vs : list value) (n : nat)
  : option (list minstr * list ty * option nat) :=
  match w, vs with
  | WConst v, _ => Some ([IAssign n (Lit (LInt (v mod 2 ^ 32))) TU32], [TU32], Some n)
  | WCall f, _ =>
    match params f with
    | Some ps => match mir_types ps with
                 | Some ts => Some ([ICall [n] f vs ts], [TU32], Some n)
                 | None => None
                 end
    | None => None
    end
  | WEqz, a :: _ => Some ([IBinary U32Eq n a (Lit (LInt 0))], [TBool], Some n)
  | WLoad off, a :: _ =>
    Some (address_code n a off ++ [ILoad (3 + n)%nat (Place (2 + n)%nat []) TU32], [TU32; TFelt; TFelt; TU32], Some (3 + n)%nat)
  | WStore off, a :: v :: _ =>
    Some (address_code n a off ++ [IStore (Place (2 + n)%nat []) v TU32], [TU32; TFelt; TFelt], None)
  | (WAdd | WSub | WMul | WDivU | WAnd | WOr | WXor), a :: b :: _ =>
    match bin_opcode w with Some op => Some ([IBinary op n a b], [TU32], Some n) | None => None end
  | (WEq | WNe | WGtU | WGeU | WLtU | WLeU), a :: b :: _ =>
    match bin_opcode w with Some op => Some ([IBinary op n a b], [TBool], Some n) | None => None end
  | (WLtS | WGtS | WLeS | WGeS), a :: b :: _ =>
    match signed_opcode w with
    | Some op => Some ([ IBinary U32Add n a (Lit (LInt (2 ^ 31))); IBinary U32Add (S n) b (Lit (LInt (2 ^ 31)));
                         IBinary op (S (S n)) (Op n) (Op (S n)) ], [TU32; TU32; TBool], Some (S (S n)))
    | None => None
    end
  | _, _ => None
  end.
Fixpoint new_values (ts : list ty) (s : st) : st :=
  match ts with [] => s | t :: r => new_values r (snd (new_value t s)) end.

(** ** Control flow *)
(** cfg.rs 287-330 [get_branch_values]: the inputs without the condition. *)
Definition data (op : oper) (ins : list origin) : list origin :=
  match op with OBrIf _ | OBrIfZero _ => removelast ins | _ => ins end.
(** cfg.rs 232-285 [resolve_break_target]. *)
Definition resolve (t : target) (ins : list origin) (s : st) : option (nat * st) :=
  match t with
  | ToLabel id _ => match look Nat.eqb id (labs s) with Some (b, _) => Some (b, s) | None => None end
  | ToLoop depth =>
    match nth_error (loops s) depth, loops s with
    | Some (h, _), _ => Some (h, s)
    | None, _ :: _ => None
    | None, [] =>
      let (b, s1) := add_block s in
      match get_inputs ins s with Some vs => Some (b, set_tm b (TReturn vs) s1) | None => None end
    end
  end.
(** cfg.rs 219-229, 305-398 [record_edge_values]. *)
Definition edges (b : nat) (phis : list nat) (from : nat) (vs : list value) : list (nat * nat * nat * value) :=
  map (fun p => (b, fst p, from, snd p)) (combine phis vs).
Definition record_edge_values (op : oper) (t : target) (ins : list origin) (s : st) : option st :=
  match t with
  | ToLabel id _ =>
    match get_inputs (data op ins) s, look Nat.eqb id (labs s) with
    | Some vs, Some (b, phis) => Some (add_deferred (edges b phis (cur s) vs) s)
    | _, _ => None
    end
  | ToLoop depth =>
    match nth_error (loops s) depth with
    | None => Some s
    | Some (h, phis) =>
      match get_inputs (data op ins) s with Some vs => Some (add_deferred (edges h phis (cur s) vs) s) | None => None end
    end
  end.
Definition last_input (ins : list origin) : option origin :=
  match ins with [] => None | o :: r => Some (last ins o) end.

Definition obind {A B} (o : option A) (k : A -> option B) : option B := match o with Some a => k a | None => None end.
Section Lower.
  Variable params : nat -> option (list wty).

  (** cfg.rs 49-64. *)
  Definition lower_op (k : nat) (w : wop) (ins : list origin) (s : st) : option st :=
    obind (get_inputs ins s) (fun vs =>
    obind (code params w vs (nx s)) (fun c =>
    let '(is, ts, r) := c in
    let s1 := push is (new_values ts s) in
    Some match r with Some v => insert_value (k, O) v s1 | None => s1 end)).
  (** cfg.rs 77-87. *)
  Definition lower_br (t : target) (ins : list origin) (s : st) : option st :=
    obind (resolve t ins s) (fun x => let (b, s1) := x in
    obind (record_edge_values (OBr t) t ins s1) (fun s2 =>
    Some (set_cur b (set_tm (cur s2) (TJump b) s2)))).
  (** cfg.rs 89-127. *)
  Definition lower_br_if (zero : bool) (t : target) (ins : list origin) (s : st) : option st :=
    obind (last_input ins) (fun o =>
    obind (get_value o (maps s)) (fun c =>
    obind (resolve t ins s) (fun x => let (b, s1) := x in
    let (next, s2) := add_block s1 in
    obind (record_edge_values (OBrIf t) t ins s2) (fun s3 =>
    Some (set_cur next (set_tm (cur s3) (if zero then TIf (Op c) next b else TIf (Op c) b next) s3)))))).
  (** cfg.rs 133-205: what comes before the lowering of the sub-DAG. *)
  Definition enter_loop (ins : list origin) (sub : dag) (s : st) : option st :=
    match sub with
    | Next OInputs _ outs _ =>
      let (h, s1) := add_block s in
      obind (mir_types outs) (fun ts =>
      let (phis, s2) := create_phi_nodes h ts s1 in
      obind (get_inputs (firstn (length phis) ins) s2) (fun vs =>
      let s3 := set_tm (cur s) (TJump h) (add_deferred (edges h phis (cur s) vs) s2) in
      let (b, s4) := add_block (set_cur h s3) in
      let s5 := set_cur b (set_tm h (TJump b) s4) in
      let s6 := set_maps ([] :: maps s5) (set_loops ((h, phis) :: loops s5) s5) in
      allocate sub O (insert_outputs O O phis s6)))
    | _ => None
    end.
  (** cfg.rs 44-215 [generate_instructions_from_dag]. *)
  Fixpoint lower (d : dag) (k : nat) (s : st) : option st :=
    match d with
    | Done => Some s
    | Next op ins _ rest =>
      obind match op with
            | OInputs => Some s
            | OWasm w => lower_op k w ins s
            | OLabel id => match look Nat.eqb id (labs s) with Some (b, _) => Some (set_cur b s) | None => None end
            | OBr t => lower_br t ins s
            | OBrIf t => lower_br_if false t ins s
            | OBrIfZero t => lower_br_if true t ins s
            | OBrTable => None
            end (lower rest (S k))
    | Loop ins sub rest =>
      obind (enter_loop ins sub s) (fun s1 =>
      obind (lower sub O s1) (fun s2 =>
      lower rest (S k) (set_maps (tl (maps s2)) (set_loops (tl (loops s2)) s2))))
    end.

  (** context.rs 110-150 [finalize_phi_nodes]. *)
  Definition operands (s : st) (b d : nat) : list (nat * value) :=
    flat_map (fun x => let '(b', d', from, v) := x in
                       if Nat.eqb b' b && Nat.eqb d' d then [(from, v)] else []) (defer s).
  Definition finish_block (s : st) (b : nat) : block :=
    Block (map (fun d => IPhi d TU32 (operands s b d)) (ph s b) ++ body s b) (tm s b) [].
  Fixpoint param_values (k : nat) (ts : list ty) (s : st) : list nat * st :=
    match ts with
    | [] => ([], s)
    | t :: r => let (v, s1) := new_value t s in
                let (vs, s2) := param_values (S k) r (insert_value (O, k) v s1) in (v :: vs, s2)
    end.
  (** mod.rs 89-186 [function_to_mir]. *)
  Definition function_to_mir (ptys rtys : list wty) (d : dag) : option func :=
    obind (mir_types ptys) (fun pts =>
    obind (mir_types rtys) (fun rts =>
    let (ps, s0) := param_values O pts start in
    obind (allocate d O s0) (fun s1 =>
    obind (lower d O s1) (fun s2 =>
    let s3 := new_values rts s2 in
    Some (Func (map (finish_block s2) (seq 0 (nb s2))) O ps (seq (nx s2) (length rts)) (nx s3) (tys s3)))))).
End Lower.
