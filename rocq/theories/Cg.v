(** Code generation: MIR functions to labelled instructions.

    Models crates/compiler/codegen/src/{layout,builder,generator}.rs and builder/*.rs,
    and the sizes of crates/compiler/mir/src/layout.rs.  Simplifications, for the whole
    file: frame offsets and slot counts are unbounded integers (the code uses [i32] and
    [usize]), and so are label counters within a function; instructions and labels are emitted as one stream in emission order (the
    code keeps two vectors, a label holding the index of the next instruction;
    [CgLink.split] gives those two vectors back); comments are dropped; the result types
    of a call's signature are those the callee declares; [ValueLayout::Constant] and
    [OptimizedOut], never constructed by the generator, are left out. *)
From Coq Require Import ZArith Bool String List.
From Coq Require Import Numbers.DecimalString.
From Verif Require Import M31 Instr Mir.
Import ListNotations.
Open Scope Z_scope.

(** [CodegenResult]; the second failure is a panic ([todo!], [unreachable!], [expect]). *)
Inductive cres (A : Type) : Type := COk (a : A) | CErr | CPanic.
Arguments COk {A} a. Arguments CErr {A}. Arguments CPanic {A}.

(** mir/src/layout.rs 32-56: [value_size_of]. *)
Fixpoint value_size (t : ty) : Z :=
  match t with
  | TFelt | TBool | TPtr _ | TFun | TErr | TUnknown => 1
  | TU32 => 2
  | TTuple ts => (fix go l := match l with [] => 0 | t :: r => value_size t + go r end) ts
  | TStruct _ fs => (fix go l := match l with [] => 0 | f :: r => value_size (snd f) + go r end) fs
  | TArr e n => value_size e * Z.of_nat n
  | TUnit => 0
  end.
(** mir/src/layout.rs 62-77: [memory_size_of] (an array is a pointer). *)
Fixpoint msize (t : ty) : Z :=
  match t with
  | TFelt | TBool | TArr _ _ | TPtr _ | TFun | TErr | TUnknown => 1
  | TU32 => 2
  | TTuple ts => (fix go l := match l with [] => 0 | t :: r => msize t + go r end) ts
  | TStruct _ fs => (fix go l := match l with [] => 0 | f :: r => msize (snd f) + go r end) fs
  | TUnit => 0
  end.
Definition sizes (ts : list ty) : Z := fold_right (fun t n => msize t + n) 0 ts.
(** mir/src/layout.rs 83-121: [field_offset], [tuple_offset], with the type found there. *)
Fixpoint field_at (fs : list (string * ty)) (n : string) : option (Z * ty) :=
  match fs with
  | [] => None
  | (m, t) :: r => if String.eqb m n then Some (0, t)
                   else match field_at r n with Some (o, u) => Some (msize t + o, u) | None => None end
  end.
Definition field_of (t : ty) (n : string) : option (Z * ty) :=
  match t with TStruct _ fs => field_at fs n | _ => None end.
Definition elem_of (t : ty) (k : nat) : option (Z * ty) :=
  match t with
  | TTuple ts => match nth_error ts k with Some u => Some (sizes (firstn k ts), u) | None => None end
  | _ => None
  end.

(** layout.rs 40-64: [FunctionLayout].  A value has an offset from [fp] and a number of
    slots ([ValueLayout::Slot] is size one); [frame] is [frame_size], [nret] is
    [num_return_slots]. *)
Record layout : Type := Lay { slots : nat -> option (Z * Z); frame : Z; nret : Z }.
Definition set_slot (L : layout) (v : nat) (o n : Z) : layout :=
  Lay (fun x => if Nat.eqb x v then Some (o, n) else slots L x) (frame L) (nret L).
Definition set_frame (L : layout) (n : Z) : layout := Lay (slots L) n (nret L).
(** layout.rs 312-330: [get_value_size], [is_contiguous]. *)
Definition get_size (L : layout) (v : nat) : Z :=
  match slots L v with Some (_, n) => n | None => 1 end.
Definition contiguous (L : layout) (v : nat) (o n : Z) : bool :=
  match slots L v with Some (o', n') => (o' =? o) && (n' =? n) | None => false end.
(** layout.rs 266-284: [map_value]. *)
Definition map_value (L : layout) (v : nat) (o : Z) : layout :=
  let n := get_size L v in
  set_frame (set_slot L v o n) (Z.max (frame L) (o + n)).

Fixpoint types_of (f : func) (vs : list nat) : option (list ty) :=
  match vs with
  | [] => Some []
  | v :: r => match f_types f v, types_of f r with Some t, Some ts => Some (t :: ts) | _, _ => None end
  end.
(** layout.rs 92-143: parameters at [fp - M - K - 2] upwards. *)
Fixpoint lay_params (L : layout) (o : Z) (ps : list nat) (ts : list ty) : layout :=
  match ps, ts with
  | p :: ps', t :: ts' => lay_params (set_slot L p o (msize t)) (o + msize t) ps' ts'
  | _, _ => L
  end.
(** layout.rs 146-236: every destination without a slot gets the next free ones. *)
Fixpoint lay_dests (f : func) (L : layout) (ds : list nat) : cres layout :=
  match ds with
  | [] => COk L
  | d :: r => match slots L d with
              | Some _ => lay_dests f L r
              | None => match f_types f d with
                        | None => CErr
                        | Some t => lay_dests f (set_frame (set_slot L d (frame L) (msize t))
                                                          (frame L + msize t)) r
                        end
              end
  end.
Definition all_dests (f : func) : list nat :=
  flat_map (fun b => flat_map dests (b_instrs b)) (f_blocks f).
(** layout.rs 70-89: [FunctionLayout::new]. *)
Definition lay_new (f : func) : cres layout :=
  match types_of f (f_params f), types_of f (f_rets f) with
  | Some ps, Some rs =>
    lay_dests f (lay_params (Lay (fun _ => None) 0 (sizes rs))
                            (- sizes ps - sizes rs - 2) (f_params f) ps) (all_dests f)
  | _, _ => CErr
  end.

(** One emitted item: an instruction with the label it refers to, or a label. *)
Inductive item : Set := CI (i : instr) (target : option string) | CL (name : string).

(** What emission updates: the builder's layout, its label counter and
    [max_written_offset]; the generator's label counter, its read-only blobs (words and
    label, in insertion order) and whether the heap cursor was requested. *)
Record est : Type := Est {
  lay : layout; lbl : N; maxw : Z; gcnt : N; blobs : list (list Z * string); heap : bool }.
Definition with_lay (s : est) (L : layout) : est :=
  Est L (lbl s) (maxw s) (gcnt s) (blobs s) (heap s).

(** Emission: fail, or return a value, the items emitted and the new state. *)
Definition M (A : Type) : Type := est -> cres (A * list item * est).
Definition ret {A} (a : A) : M A := fun s => COk (a, [], s).
Definition fail {A} : M A := fun _ => CErr.
Definition panic {A} : M A := fun _ => CPanic.
Definition bind {A B} (c : M A) (k : A -> M B) : M B := fun s =>
  match c s with
  | COk (a, i, s1) =>
    match k a s1 with COk (b, j, s2) => COk (b, (i ++ j)%list, s2) | CErr => CErr | CPanic => CPanic end
  | CErr => CErr
  | CPanic => CPanic
  end.
Notation "x <- c ;; k" := (bind c (fun x => k)) (at level 61, c at next level, right associativity).
Notation "c ;;; k" := (bind c (fun _ => k)) (at level 61, right associativity).
Definition emit (i : instr) (t : option string) : M unit := fun s => COk (tt, [CI i t], s).
Definition out (i : instr) : M unit := emit i None.
Definition label (n : string) : M unit := fun s => COk (tt, [CL n], s).
Definition get_lay : M layout := fun s => COk (lay s, [], s).
Definition get_maxw : M Z := fun s => COk (maxw s, [], s).
Definition put_lay (L : layout) : M unit := fun s => COk (tt, [], with_lay s L).
Fixpoint each {A} (f : A -> M unit) (l : list A) : M unit :=
  match l with [] => ret tt | a :: r => f a ;;; each f r end.

(** layout.rs 288-310 and 239-262: [reserve_stack], [get_offset], [allocate_local]. *)
Definition reserve (n : Z) : M Z :=
  fun s => COk (frame (lay s), [], with_lay s (set_frame (lay s) (frame (lay s) + n))).
Definition offset (v : nat) : M Z :=
  fun s => match slots (lay s) v with Some (o, _) => COk (o, [], s) | None => CErr end.
Definition allocate (v : nat) (n : Z) : M Z :=
  fun s => match slots (lay s) v with
           | Some (o, _) => COk (o, [], s)
           | None => let L := lay s in
                     COk (frame L, [], with_lay s (set_frame (set_slot L v (frame L) n) (frame L + n)))
           end.
Definition map_to (v : nat) (o : Z) : M unit :=
  fun s => COk (tt, [], with_lay s (map_value (lay s) v o)).
(** builder/emit.rs: [emit_new_label_name]. *)
Definition dec (n : N) : string := NilEmpty.string_of_uint (N.to_uint n).
Definition numbered (p : string) (n : N) : string := (p ++ "_" ++ dec n)%string.
(** lib.rs 121-123: [Label::for_block]. *)
Definition block_label (fn : string) (b : nat) : string := numbered fn (N.of_nat b).
Definition fresh (p : string) : M string :=
  fun s => COk (numbered p (lbl s), [],
                Est (lay s) (N.succ (lbl s)) (maxw s) (gcnt s) (blobs s) (heap s)).

(** [u32 as i32], [split_u32_value], [twos_complement_u32]. *)
Definition i32_of (n : Z) : Z := if n <? 2147483648 then n else n - 4294967296.
Definition lo16 (n : Z) : Z := n mod 65536.
Definition hi16 (n : Z) : Z := n / 65536.
Definition neg32 (n : Z) : Z := (4294967296 - n) mod 4294967296.
Definition bz (b : bool) : Z := if b then 1 else 0.

(** builder/store.rs: immediates and copies. *)
Definition store_imm (n d : Z) : M unit := out (StoreImm (mfrom n) (mfrom d)).
Definition store_u32 (n d : Z) : M unit := out (U32StoreImm (lo16 n) (hi16 n) (mfrom d)).
Definition copy1 (s d : Z) : M unit := out (StoreAddFpImm (mfrom s) 0 (mfrom d)).
Definition copy32 (s d : Z) : M unit := out (U32StoreAddFpImm (mfrom s) 0 0 (mfrom d)).
Fixpoint copies (s d : Z) (n : nat) : M unit :=
  match n with O => ret tt | S k => copy1 s d ;;; copies (s + 1) (d + 1) k end.
Definition copy_slots (s d n : Z) : M unit := copies s d (Z.to_nat n).
(** builder/store.rs 153-226: [copy_value_to_offset]. *)
Definition copy_value (v : value) (d n : Z) : M unit :=
  if n =? 0 then ret tt else
  match v with
  | Lit (LInt k) => if n =? 1 then store_imm k d else if n =? 2 then store_u32 k d else fail
  | Lit (LBool b) => store_imm (bz b) d
  | Lit LUnit => ret tt
  | Op i => o <- offset i ;; copy_slots o d n
  | VErr => fail
  end.

(** builder/ctrlflow.rs 11-70: jumps to a label. *)
Definition jump (t : string) : M unit := emit (JmpRelImm 0) (Some t).
Definition jnz_off (o : Z) (t : string) : M unit := emit (JnzFpImm (mfrom o) 0) (Some t).
Definition jnz (c : value) (t : string) : M unit :=
  match c with
  | Op i => o <- offset i ;; jnz_off o t
  | Lit (LBool b) => if b then jump t else ret tt
  | _ => fail
  end.

(** builder/felt.rs 45-58: [literal_to_i32]. *)
Definition lit_i32 (l : lit) : Z :=
  match l with LInt n => i32_of n | LBool b => bz b | LUnit => 0 end.
(** [literal_to_i32 as u32]. *)
Definition lit_u32 (l : lit) : Z :=
  match l with LInt n => n | LBool b => bz b | LUnit => 0 end.
(** builder/felt.rs 183-265. *)
Definition felt_fp_fp (op : binop) (a b d : Z) : M unit :=
  match op with
  | Add => out (StoreAddFpFp (mfrom a) (mfrom b) (mfrom d))
  | Sub => out (StoreSubFpFp (mfrom a) (mfrom b) (mfrom d))
  | Mul => out (StoreMulFpFp (mfrom a) (mfrom b) (mfrom d))
  | Div => out (StoreDivFpFp (mfrom a) (mfrom b) (mfrom d))
  | _ => fail
  end.
(** The immediate of addition and multiplication is the literal as an [i32]; subtraction
    adds the negated field element, division multiplies by the inverse. *)
Definition felt_fp_imm (op : binop) (a : Z) (l : lit) (d : Z) : M unit :=
  match op with
  | Add => out (StoreAddFpImm (mfrom a) (mfrom (lit_i32 l)) (mfrom d))
  | Sub => out (StoreAddFpImm (mfrom a) (mneg (mfrom (lit_u32 l))) (mfrom d))
  | Mul => out (StoreMulFpImm (mfrom a) (mfrom (lit_i32 l)) (mfrom d))
  | Div => if mfrom (lit_u32 l) =? 0 then fail
           else out (StoreMulFpImm (mfrom a) (minv (mfrom (lit_u32 l))) (mfrom d))
  | _ => fail
  end.
(** builder/normalize.rs 30-58. *)
Definition swap_imm (commutes : bool) (l r : value) : value * value :=
  if commutes then match l, r with Lit (LInt _), Op _ => (r, l) | _, _ => (l, r) end else (l, r).
Definition commutes_felt (op : binop) : bool := match op with Add | Mul => true | _ => false end.
Definition commutes_u32 (op : binop) : bool :=
  match op with
  | U32Add | U32Mul | U32BitwiseAnd | U32BitwiseOr | U32BitwiseXor | U32Eq | U32Neq => true
  | _ => false
  end.
(** builder/felt.rs 60-129: [felt_arith]. *)
Definition felt_arith (op : binop) (d : Z) (l0 r0 : value) : M unit :=
  match swap_imm (commutes_felt op) l0 r0 with
  | (Op a, Op b) => x <- offset a ;; y <- offset b ;; felt_fp_fp op x y d
  | (Op a, Lit n) => x <- offset a ;; felt_fp_imm op x n d
  | (Lit n, Op b) =>
    match op with
    | Add | Mul => y <- offset b ;; felt_fp_imm op y n d
    | Sub | Div =>
      t <- reserve 1 ;; store_imm (lit_u32 n) t ;;; y <- offset b ;; felt_fp_fp op t y d
    | _ => panic
    end
  | (Lit n, Lit m) =>
    let x := mfrom (lit_u32 n) in
    let y := mfrom (lit_u32 m) in
    match op with
    | Add => store_imm (madd x y) d
    | Sub => store_imm (msub x y) d
    | Mul => store_imm (mmul x y) d
    | Div => if y =? 0 then fail else store_imm (mmul x (minv y)) d
    | _ => fail
    end
  | _ => panic
  end.
(** builder/felt.rs 131-181: equality tests through the difference. *)
Definition set_bool (d : Z) (on_zero : bool) (nz e : string) : M unit :=
  jnz_off d nz ;;; store_imm (bz on_zero) d ;;; jump e ;;;
  label nz ;;; store_imm (bz (negb on_zero)) d ;;; label e.
Definition felt_eq (d : Z) (l r : value) : M unit :=
  felt_arith Sub d l r ;;;
  nz <- fresh "not_zero"%string ;; e <- fresh "end"%string ;; set_bool d true nz e.
Definition felt_neq (d : Z) (l r : value) : M unit :=
  felt_arith Sub d l r ;;;
  nz <- fresh "neq_non_zero"%string ;; e <- fresh "neq_end"%string ;; set_bool d false nz e.

(** builder/ctrlflow.rs 72-212: short-circuit operators. *)
Definition truthiness (v : value) : option bool :=
  match v with Lit (LInt n) => Some (negb (n =? 0)) | Lit (LBool b) => Some b | _ => None end.
Definition branch_nz (v : value) (t : string) : M unit :=
  match truthiness v with
  | Some true => jump t
  | Some false => ret tt
  | None => match v with Op i => o <- offset i ;; jnz_off o t | _ => fail end
  end.
Definition sc_or (d : Z) (l r : value) : M unit :=
  store_imm 0 d ;;;
  t <- fresh "or_true"%string ;; e <- fresh "or_end"%string ;;
  branch_nz l t ;;; branch_nz r t ;;;
  jump e ;;; label t ;;; store_imm 1 d ;;; label e.
Definition sc_and (d : Z) (l r : value) : M unit :=
  store_imm 0 d ;;;
  c <- fresh "and_check_right"%string ;; t <- fresh "and_true"%string ;; e <- fresh "and_end"%string ;;
  let check := label c ;;; branch_nz r t ;;; jump e ;;; label t ;;; store_imm 1 d ;;; label e in
  match truthiness l with
  | Some false => label e
  | Some true => check
  | None => match l with
            | Op i => o <- offset i ;; jnz_off o c ;;; jump e ;;; check
            | _ => fail
            end
  end.
Definition sc_not (d : Z) (v : value) : M unit :=
  z <- fresh "not_zero"%string ;; e <- fresh "not_end"%string ;;
  match v with
  | Op i => o <- offset i ;; jnz_off o z ;;; store_imm 1 d ;;; jump e ;;;
            label z ;;; store_imm 0 d ;;; label e
  | Lit (LBool b) => store_imm (bz (negb b)) d
  | Lit (LInt n) => store_imm (bz (n =? 0)) d
  | _ => fail
  end.

(** builder/u32_ops.rs. *)
Definition u32_fp_fp (op : binop) (a b d : Z) : M unit :=
  let a' := mfrom a in let b' := mfrom b in let d' := mfrom d in
  match op with
  | U32Add => out (U32StoreAddFpFp a' b' d')
  | U32Sub => out (U32StoreSubFpFp a' b' d')
  | U32Mul => out (U32StoreMulFpFp a' b' d')
  | U32Div => r <- reserve 2 ;; out (U32StoreDivRemFpFp a' b' d' (mfrom r))
  | U32Rem => q <- reserve 2 ;; out (U32StoreDivRemFpFp a' b' (mfrom q) d')
  | U32Eq => out (U32StoreEqFpFp a' b' d')
  | U32Less => out (U32StoreLtFpFp a' b' d')
  | U32BitwiseAnd => out (U32StoreAndFpFp a' b' d')
  | U32BitwiseOr => out (U32StoreOrFpFp a' b' d')
  | U32BitwiseXor => out (U32StoreXorFpFp a' b' d')
  | _ => fail
  end.
Definition u32_fp_imm (op : binop) (a n d : Z) : M unit :=
  let a' := mfrom a in let d' := mfrom d in
  let lo := lo16 n in let hi := hi16 n in
  match op with
  | U32Add => out (U32StoreAddFpImm a' lo hi d')
  | U32Sub => out (U32StoreAddFpImm a' (lo16 (neg32 n)) (hi16 (neg32 n)) d')
  | U32Mul => out (U32StoreMulFpImm a' lo hi d')
  | U32Div => r <- reserve 2 ;; out (U32StoreDivRemFpImm a' lo hi d' (mfrom r))
  | U32Rem => q <- reserve 2 ;; out (U32StoreDivRemFpImm a' lo hi (mfrom q) d')
  | U32Eq => out (U32StoreEqFpImm a' lo hi d')
  | U32Less => out (U32StoreLtFpImm a' lo hi d')
  | U32BitwiseAnd => out (U32StoreAndFpImm a' lo hi d')
  | U32BitwiseOr => out (U32StoreOrFpImm a' lo hi d')
  | U32BitwiseXor => out (U32StoreXorFpImm a' lo hi d')
  | _ => fail
  end.
Definition u32_op (op : binop) (d : Z) (l0 r0 : value) : M unit :=
  match op with
  | U32Neq | U32Greater | U32GreaterEqual | U32LessEqual => fail
  | _ =>
    match swap_imm (commutes_u32 op) l0 r0 with
    | (Op a, Op b) => x <- offset a ;; y <- offset b ;; u32_fp_fp op x y d
    | (Op a, Lit (LInt n)) =>
      x <- offset a ;;
      match op with
      | U32Div | U32Rem => if n =? 0 then fail else u32_fp_imm op x n d
      | _ => u32_fp_imm op x n d
      end
    | (Lit (LInt n), Op b) =>
      y <- offset b ;;
      match op with
      | U32Add | U32Mul | U32Eq | U32BitwiseAnd | U32BitwiseOr | U32BitwiseXor => u32_fp_imm op y n d
      | U32Sub | U32Div | U32Rem | U32Less =>
        t <- reserve 2 ;; store_u32 n t ;;; u32_fp_fp op t y d
      | _ => fail
      end
    | (Lit (LInt n), Lit (LInt m)) =>
      match op with
      | U32Eq => store_imm (bz (n =? m)) d
      | U32Less => store_imm (bz (n <? m)) d
      | U32Add => store_u32 ((n + m) mod 4294967296) d
      | U32Sub => store_u32 ((n - m) mod 4294967296) d
      | U32Mul => store_u32 ((n * m) mod 4294967296) d
      | U32Div => if m =? 0 then fail
                  else store_u32 (n / m) d ;;; r <- reserve 2 ;; store_u32 (n mod m) r
      | U32Rem => if m =? 0 then fail else store_u32 (n mod m) d
      | U32BitwiseAnd => store_u32 (Z.land n m) d
      | U32BitwiseOr => store_u32 (Z.lor n m) d
      | U32BitwiseXor => store_u32 (Z.lxor n m) d
      | _ => fail
      end
    | _ => fail
    end
  end.

(** builder.rs 288-331: [compute_into_offset]; the same dispatch serves [binary_op]. *)
Definition compute (op : binop) (d : Z) (l r : value) : M unit :=
  match op with
  | Add | Sub | Mul | Div => felt_arith op d l r
  | Eq => felt_eq d l r
  | Neq => felt_neq d l r
  | And => sc_and d l r
  | Or => sc_or d l r
  | Less | Greater | LessEqual | GreaterEqual => fail
  | _ => u32_op op d l r
  end.
(** The destination of [assign], [unary_op] and [binary_op]: the target, mapped, or the
    slot the value already has. *)
Definition place_dest (d : nat) (target : option Z) : M Z :=
  match target with Some o => map_to d o ;;; ret o | None => offset d end.
(** builder.rs 227-284, 182-221. *)
Definition binary_op (op : binop) (d : nat) (l r : value) (target : option Z) : M unit :=
  o <- place_dest d target ;; compute op o l r.
Definition unary_op (op : unop) (d : nat) (v : value) (target : option Z) : M unit :=
  o <- place_dest d target ;;
  match op with Neg => felt_arith Sub o (Lit (LInt 0)) v | Not => sc_not o v end.
(** builder.rs 97-179: [assign]. *)
Definition assign (d : nat) (v : value) (t : ty) (target : option Z) : M unit :=
  let n := msize t in
  o <- match target with Some o => map_to d o ;;; ret o | None => allocate d n end ;;
  match v with
  | Lit (LInt k) => if n =? 1 then store_imm k o
                    else match t with TU32 => store_u32 k o | _ => fail end
  | Lit (LBool b) => if n =? 1 then store_imm (bz b) o else fail
  | Op i =>
    s <- offset i ;;
    if n =? 1 then copy1 s o else match t with TU32 => copy32 s o | _ => copy_slots s o n end
  | _ => fail
  end.
(** builder.rs 366-494: [generate_cast]. *)
Definition cast (d : nat) (v : value) (st tt_ : ty) : M unit :=
  match st, tt_ with
  | TU32, TFelt =>
    o <- allocate d 1 ;;
    match v with
    | Op i =>
      s <- offset i ;;
      t1 <- reserve 1 ;; out (StoreLeFpImm (mfrom (s + 1)) 32766 (mfrom t1)) ;;;
      ok <- fresh "u32_cast_ok"%string ;; jnz_off t1 ok ;;;
      t2 <- reserve 1 ;; out (StoreLeFpImm (mfrom (s + 1)) 32767 (mfrom t2)) ;;;
      t3 <- reserve 1 ;; out (StoreSubFpFp (mfrom t2) (mfrom t1) (mfrom t3)) ;;;
      t4 <- reserve 1 ;; out (StoreLeFpImm (mfrom s) 65534 (mfrom t4)) ;;;
      t5 <- reserve 1 ;; out (StoreMulFpFp (mfrom t3) (mfrom t4) (mfrom t5)) ;;;
      out (AssertEqFpImm (mfrom t5) 1) ;;;
      label ok ;;;
      t6 <- reserve 1 ;; out (StoreMulFpImm (mfrom (s + 1)) 65536 (mfrom t6)) ;;;
      out (StoreAddFpFp (mfrom s) (mfrom t6) (mfrom o))
    | Lit (LInt n) => if mfrom n =? n then store_imm n o else fail
    | _ => fail
    end
  | _, _ => fail
  end.

(** builder/calls.rs 121-227: [pass_arguments].  Are all arguments operands lying one
    after the other from [o] on, with the parameter sizes? *)
Fixpoint in_row (L : layout) (o : Z) (args : list value) (ps : list ty) : bool :=
  match args, ps with
  | [], _ | _, [] => true
  | Op a :: args', p :: ps' => contiguous L a o (msize p) && in_row L (o + msize p) args' ps'
  | _ :: _, _ :: _ => false
  end.
Definition first_off (L : layout) (args : list value) : option Z :=
  match args with
  | Op a :: _ => match slots L a with Some (o, _) => Some o | None => None end
  | _ => None
  end.
Definition all_ops (vs : list value) : bool :=
  forallb (fun v => match v with Op _ => true | _ => false end) vs.
(** Where the arguments already are, if they can be passed in place: they end at the
    frame size, or at the high-water mark of written slots. *)
Definition in_place (L : layout) (mw : Z) (args : list value) (ps : list ty) : option Z :=
  if all_ops args then
    match first_off L args with
    | Some o => if in_row L o args ps
                   && ((o + sizes ps =? frame L) || ((0 <=? mw) && (o + sizes ps =? mw + 1)))
                then Some o else None
    | None => None
    end
  else None.
Fixpoint copy_args (o : Z) (args : list value) (ps : list ty) : M unit :=
  match args, ps with
  | a :: args', p :: ps' =>
    match a with
    | Lit (LInt n) => match p with
                      | TBool | TFelt => store_imm n o
                      | TU32 => store_u32 n o
                      | _ => fail
                      end
    | Op i => L <- get_lay ;; s <- offset i ;;
              if (s =? o) && contiguous L i o (msize p) then ret tt else copy_slots s o (msize p)
    | _ => fail
    end ;;; copy_args (o + msize p) args' ps'
  | _, _ => ret tt
  end.
Definition pass_args (args : list value) (ps : list ty) : M Z :=
  if Nat.eqb (length args) (length ps) then
    L <- get_lay ;; mw <- get_maxw ;;
    match in_place L mw args ps with
    | Some o => ret o
    | None => copy_args (frame L) args ps ;;; ret (frame L)
    end
  else fail.
(** builder/calls.rs 12-69: [lower_call]; [rs] are the result types. *)
Fixpoint map_dests (o : Z) (ds : list nat) (rs : list ty) : M unit :=
  match ds with
  | [] => ret tt
  | d :: ds' => map_to d o ;;;
                match rs with
                | r :: rs' => map_dests (o + msize r) ds' rs'
                | [] => map_dests o ds' []
                end
  end.
Definition bump_maxw (o : Z) : M unit :=
  fun s => COk (tt, [], Est (lay s) (lbl s) (Z.max (maxw s) o) (gcnt s) (blobs s) (heap s)).
Definition lower_call (callee : string) (args : list value) (ps rs : list ty) (ds : list nat) : M unit :=
  o <- pass_args args ps ;;
  match ds with
  | [] => match rs with
          | [] => emit (CallAbsImm (mfrom (o + sizes ps)) 0) (Some callee)
          | _ => fail
          end
  | _ => map_dests (o + sizes ps) ds rs ;;; reserve (sizes rs) ;;;
         bump_maxw (o + sizes ps + sizes rs - 1) ;;;
         emit (CallAbsImm (mfrom (o + sizes ps + sizes rs)) 0) (Some callee)
  end.
(** builder/calls.rs 230-342: [return_values]; [c] is the cumulative slot. *)
Fixpoint return_vals (c : Z) (vs : list value) (rs : list ty) : M unit :=
  match vs with
  | [] => out Ret
  | v :: vs' =>
    match rs with
    | [] => panic
    | r :: rs' =>
      L <- get_lay ;;
      let slot := - (nret L + 2) + c in
      let is32 := match r with TU32 => true | _ => false end in
      match v with
      | Lit (LInt n) => (if is32 then store_u32 n slot else store_imm n slot) ;;;
                        return_vals (c + (if is32 then 2 else 1)) vs' rs'
      | Lit (LBool b) => (if is32 then store_u32 (bz b) slot else store_imm (bz b) slot) ;;;
                         return_vals (c + (if is32 then 2 else 1)) vs' rs'
      | Op i => (if match slots L i with Some (o, _) => o =? slot | None => 0 =? slot end then ret tt
                 else o <- offset i ;; copy_slots o slot (get_size L i)) ;;;
                return_vals (c + get_size L i) vs' rs'
      | _ => fail
      end
    end
  end.

(** generator.rs 605-666: [AssertEq]. *)
Definition lit_int (l : lit) : option Z :=
  match l with LInt n => Some n | LBool b => Some (bz b) | LUnit => None end.
Definition assert_off (i : nat) (n : Z) : M unit :=
  o <- offset i ;; out (AssertEqFpImm (mfrom o) (mfrom n)).
Definition assert_eq (l r : value) : M unit :=
  match l, r with
  | Op _, Op _ => fail
  | Op i, Lit (LInt n) | Lit (LInt n), Op i => assert_off i (i32_of n)
  | Op i, Lit (LBool b) | Lit (LBool b), Op i => assert_off i (bz b)
  | Lit x, Lit y =>
    match lit_int x, lit_int y with
    | Some a, Some b => t <- reserve 1 ;; store_imm (bz (a =? b)) t ;;;
                        out (AssertEqFpImm (mfrom t) 1)
    | _, _ => panic
    end
  | _, _ => panic
  end.

(** builder/aggregates.rs: aggregates live in consecutive slots. *)
Definition set_layout (v : nat) (o n : Z) : M unit :=
  L <- get_lay ;; put_lay (set_slot L v o n).
Fixpoint put_fields (b : Z) (t : ty) (fs : list (string * value)) : M unit :=
  match fs with
  | [] => ret tt
  | (n, v) :: r => match field_of t n with
                   | Some (o, u) => copy_value v (b + o) (msize u) ;;; put_fields b t r
                   | None => fail
                   end
  end.
Definition make_struct (d : nat) (fs : list (string * value)) (t : ty) : M unit :=
  b <- allocate d (msize t) ;; put_fields b t fs.
Definition operand (v : value) : M nat := match v with Op i => ret i | _ => fail end.
Definition extract (f : func) (d : nat) (v : value) (at_ : ty -> option (Z * ty)) (t : ty) : M unit :=
  i <- operand v ;; o <- offset i ;;
  match f_types f i with
  | Some u => match at_ u with
              | Some (k, _) => set_layout d (o + k) (msize t)
              | None => fail
              end
  | None => fail
  end.
Definition insert (d : nat) (v : value) (at_ : option (Z * ty)) (w : value) (t : ty) : M unit :=
  i <- operand v ;; o <- offset i ;;
  match at_ with
  | Some (k, u) => copy_value w (o + k) (msize u) ;;; set_layout d o (msize t)
  | None => fail
  end.
Fixpoint elem_sizes (f : func) (L : layout) (ts : list ty) (es : list value) : list Z :=
  match es with
  | [] => []
  | e :: r =>
    match e with
    | Op i => match f_types f i with Some t => msize t | None => get_size L i end
    | Lit _ => match ts with t :: _ => msize t | [] => 1 end
    | VErr => 1
    end :: elem_sizes f L (tl ts) r
  end.
Fixpoint put_elems (o : Z) (es : list value) (ns : list Z) : M unit :=
  match es, ns with
  | e :: es', n :: ns' => copy_value e o n ;;; put_elems (o + n) es' ns'
  | _, _ => ret tt
  end.
Definition make_tuple (f : func) (d : nat) (es : list value) : M unit :=
  L <- get_lay ;;
  let ns := elem_sizes f L (match f_types f d with Some (TTuple ts) => ts | _ => [] end) es in
  b <- allocate d (fold_right Z.add 0 ns) ;; put_elems b es ns.
(** builder/aggregates.rs 344-372: elements equal to the literal 0 are skipped. *)
Fixpoint put_array (o n : Z) (es : list value) : M unit :=
  match es with
  | [] => ret tt
  | e :: r => (if value_eqb e (Lit (LInt 0)) then ret tt else copy_value e o n) ;;; put_array (o + n) n r
  end.
Definition make_array (d : nat) (es : list value) (t : ty) : M unit :=
  let n := value_size t in
  b <- reserve (n * Z.of_nat (length es)) ;;
  put_array b n es ;;;
  o <- allocate d 1 ;; out (StoreFramePointer (mfrom b) (mfrom o)).

(** generator.rs 280-340: the words of a read-only array; 450-500: its registration. *)
Fixpoint rodata (t : ty) (es : list value) : option (list Z) :=
  match es with
  | [] => Some []
  | Lit l :: r =>
    match t, l, rodata t r with
    | (TFelt | TBool), LInt n, Some w => Some (mfrom n :: w)
    | (TFelt | TBool), LBool b, Some w => Some (bz b :: w)
    | TU32, LInt n, Some w => Some (lo16 n :: hi16 n :: w)
    | _, _, _ => None
    end
  | _ :: _ => None
  end.
Fixpoint find_blob (w : list Z) (bs : list (list Z * string)) : option string :=
  match bs with
  | [] => None
  | (u, l) :: r => if (Nat.eqb (length u) (length w) && forallb (fun p => fst p =? snd p) (combine u w))%bool
                   then Some l else find_blob w r
  end.
Definition blob_label (w : list Z) : M string := fun s =>
  match find_blob w (blobs s) with
  | Some l => COk (l, [], s)
  | None => let l := numbered "RODATA"%string (gcnt s) in
            COk (l, [], Est (lay s) (lbl s) (maxw s) (N.succ (gcnt s)) (blobs s ++ [(w, l)]) (heap s))
  end.
Definition array (d : nat) (es : list value) (t : ty) (const : bool) : M unit :=
  if const && forallb (fun v => match v with Lit _ => true | _ => false end) es
     && match t with TFelt | TBool | TU32 => true | _ => false end
  then match rodata t es with
       | Some w => o <- allocate d 1 ;; l <- blob_label w ;; emit (StoreImm 0 (mfrom o)) (Some l)
       | None => fail
       end
  else make_array d es t.

(** generator.rs 89-188: heap allocation downwards from the top of memory. *)
Definition HEAP : string := "HEAP_CURSOR"%string.
Definition want_heap : M unit :=
  fun s => COk (tt, [], Est (lay s) (lbl s) (maxw s) (gcnt s) (blobs s) true).
Definition heap_alloc (d : nat) (c : value) : M unit :=
  want_heap ;;;
  hp <- reserve 1 ;; emit (StoreImm 0 (mfrom hp)) (Some HEAP) ;;;
  cur <- reserve 1 ;; out (StoreDoubleDerefFp (mfrom hp) 0 (mfrom cur)) ;;;
  sz <- match c with
        | Op i => offset i
        | Lit (LInt n) => o <- reserve 1 ;; store_imm n o ;;; ret o
        | Lit (LBool b) => o <- reserve 1 ;; store_imm (bz b) o ;;; ret o
        | _ => fail
        end ;;
  sum <- reserve 1 ;; felt_fp_fp Add cur sz sum ;;;
  felt_fp_imm Sub sum (LInt 1) sum ;;;
  mx <- reserve 1 ;; store_imm 268435455 mx ;;;
  b <- reserve 1 ;; felt_fp_fp Sub mx sum b ;;;
  nc <- reserve 1 ;; felt_fp_fp Add cur sz nc ;;;
  out (StoreToDoubleDerefFpImm (mfrom hp) 0 (mfrom nc)) ;;;
  o <- allocate d 1 ;; copy1 b o.

(** generator.rs 836-960: the address of a place: a constant part, and the slot holding
    the dynamic part if there is one. *)
Fixpoint place_addr (f : func) (t : ty) (imm : Z) (dyn : option Z) (ps : list proj)
  : M (Z * option Z) :=
  match ps with
  | [] => ret (imm, dyn)
  | PIdx v :: r =>
    match t with
    | TArr u _ | TPtr u =>
      let stride := msize u in
      match v with
      | Lit (LInt n) => place_addr f u (imm + i32_of n * stride) dyn r
      | Op i =>
        L <- get_lay ;;
        match slots L i with
        | Some (o, 1) =>
          if match f_types f i with Some TFelt | None => true | _ => false end then
            sc <- (if stride =? 1 then ret o
                   else x <- reserve 1 ;; out (StoreMulFpImm (mfrom o) (mfrom stride) (mfrom x)) ;;; ret x) ;;
            dy <- match dyn with
                  | None => ret sc
                  | Some e => x <- reserve 1 ;; felt_fp_fp Add e sc x ;;; ret x
                  end ;;
            place_addr f u imm (Some dy) r
          else fail
        | _ => fail
        end
      | _ => fail
      end
    | _ => fail
    end
  | PField n :: r => match field_of t n with
                     | Some (o, u) => place_addr f u (imm + o) dyn r
                     | None => fail
                     end
  | PTup k :: r => match elem_of t k with
                   | Some (o, u) => place_addr f u (imm + o) dyn r
                   | None => fail
                   end
  end.
(** The slot holding the dynamic part plus a constant; no addition when both the
    constant part and the slot number are zero. *)
Definition slot_off (o imm s : Z) : M Z :=
  if (imm =? 0) && (s =? 0) then ret o
  else t <- reserve 1 ;; out (StoreAddFpImm (mfrom o) (mfrom (imm + s)) (mfrom t)) ;;; ret t.
(** generator.rs 962-1010: [Load], slot by slot. *)
Fixpoint load_slots (b imm : Z) (dyn : option Z) (d s : Z) (n : nat) : M unit :=
  match n with
  | O => ret tt
  | S k =>
    match dyn with
    | None => out (StoreDoubleDerefFp (mfrom b) (mfrom (imm + s)) (mfrom (d + s)))
    | Some o => x <- slot_off o imm s ;;
                out (StoreDoubleDerefFpFp (mfrom b) (mfrom x) (mfrom (d + s)))
    end ;;; load_slots b imm dyn d (s + 1) k
  end.
Definition load (f : func) (d : nat) (p : place) (t : ty) : M unit :=
  b <- offset (pl_base p) ;;
  match f_types f (pl_base p) with
  | None => fail
  | Some u =>
    a <- place_addr f u 0 None (pl_projs p) ;;
    o <- allocate d (msize t) ;;
    load_slots b (fst a) (snd a) o 0 (Z.to_nat (msize t))
  end.
(** generator.rs 1145-1325: [Store].  A one-slot literal stored at a dynamic offset does
    not take the constant part of the offset into account. *)
Fixpoint store_slots (b imm : Z) (dyn : option Z) (src s : Z) (n : nat) : M unit :=
  match n with
  | O => ret tt
  | S k =>
    match dyn with
    | None => out (StoreToDoubleDerefFpImm (mfrom b) (mfrom (imm + s)) (mfrom (src + s)))
    | Some o => x <- slot_off o imm s ;;
                out (StoreToDoubleDerefFpFp (mfrom b) (mfrom x) (mfrom (src + s)))
    end ;;; store_slots b imm dyn src (s + 1) k
  end.
Definition store1 (b imm : Z) (dyn : option Z) (n : Z) : M unit :=
  t <- reserve 1 ;; store_imm n t ;;;
  match dyn with
  | Some o => out (StoreToDoubleDerefFpFp (mfrom b) (mfrom o) (mfrom t))
  | None => out (StoreToDoubleDerefFpImm (mfrom b) (mfrom imm) (mfrom t))
  end.
Definition store (f : func) (p : place) (v : value) (t : ty) : M unit :=
  b <- offset (pl_base p) ;;
  match f_types f (pl_base p) with
  | None => fail
  | Some u =>
    a <- place_addr f u 0 None (pl_projs p) ;;
    match v with
    | Lit (LInt n) =>
      if msize t =? 1 then store1 b (fst a) (snd a) n
      else match t with
           | TU32 => x <- reserve 2 ;; store_u32 n x ;;; store_slots b (fst a) (snd a) x 0 2
           | _ => fail
           end
    | Lit (LBool c) => if msize t =? 1 then store1 b (fst a) (snd a) (bz c) else fail
    | Op i => x <- offset i ;; store_slots b (fst a) (snd a) x 0 (Z.to_nat (msize t))
    | _ => fail
    end
  end.

(** A module: named functions; a callee is an index into it. *)
Notation funcs := (list (string * func)).

Fixpoint position (d : nat) (vs : list value) : option nat :=
  match vs with
  | [] => None
  | v :: r => if value_eqb v (Op d) then Some 0%nat
              else match position d r with Some n => Some (S n) | None => None end
  end.
(** generator.rs 543-576: is [d] an argument of the call that follows? *)
Definition arg_target (d : nat) (rest : list minstr) : M (option Z) :=
  L <- get_lay ;;
  match rest with
  | ICall _ _ args ps :: _ =>
    match position d args with
    | Some k => ret (Some (frame L + sizes (firstn k ps)))
    | None => ret None
    end
  | _ => ret None
  end.
(** generator.rs 1336-1396: is [d] returned by the block?  An index beyond the return
    types panics. *)
Definition ret_target (f : func) (d : nat) (t : term) : M (option Z) :=
  match t with
  | TReturn vs =>
    match types_of f (f_rets f) with
    | None => panic
    | Some rs => match position d vs with
                 | None => ret None
                 | Some k => if Nat.ltb k (length rs)
                             then ret (Some (- (sizes rs + 2) + sizes (firstn k rs)))
                             else panic
                 end
    end
  | _ => ret None
  end.
Definition target (f : func) (d : nat) (rest : list minstr) (t : term) (direct : bool) : M (option Z) :=
  a <- arg_target d rest ;;
  match a with
  | Some o => ret (Some o)
  | None => if direct then ret_target f d t else ret None
  end.
(** generator.rs 690-705: results of u32 arithmetic are not placed in return slots. *)
Definition direct_op (op : binop) : bool :=
  match op with U32Add | U32Sub | U32Mul | U32Div | U32Rem => false | _ => true end.

(** generator.rs 580-1330: one instruction, with the rest of its block. *)
Definition gen_instr (ms : funcs) (f : func) (t : term) (i : minstr) (rest : list minstr) : M unit :=
  match i with
  | IAssign d v u => o <- target f d rest t true ;; assign d v u o
  | IUnary op d v => o <- target f d rest t true ;; unary_op op d v o
  | IBinary op d l r => o <- target f d rest t (direct_op op) ;; binary_op op d l r o
  | ICall ds c args ps =>
    match nth_error ms c with
    | Some (n, g) => match types_of g (f_rets g) with
                     | Some rs => lower_call n args ps rs ds
                     | None => fail
                     end
    | None => fail
    end
  | ICast d v st u => cast d v st u
  | ILoad d p u => load f d p u
  | IStore p v u => store f p v u
  | IDebug _ _ => panic
  | INop => ret tt
  | IPhi _ _ _ => fail
  | IMakeTuple d es => make_tuple f d es
  | IExtractTuple d v k u => extract f d v (fun u => elem_of u k) u
  | IMakeStruct d fs u => make_struct d fs u
  | IExtractField d v n u => extract f d v (fun u => field_of u n) u
  | IInsertField d v n w u => insert d v (field_of u n) w u
  | IInsertTuple d v k w u => insert d v (elem_of u k) w u
  | IMakeArray d es u c => array d es u c
  | IAssertEq l r => assert_eq l r
  | IAlloc d c => heap_alloc d c
  end.
Fixpoint gen_instrs (ms : funcs) (f : func) (t : term) (is : list minstr) : M unit :=
  match is with [] => ret tt | i :: r => gen_instr ms f t i r ;;; gen_instrs ms f t r end.

(** generator.rs 1398-1540: [generate_terminator]; [next] is the following block. *)
Definition jump_unless_next (fn : string) (next : option nat) (b : nat) : M unit :=
  if match next with Some n => Nat.eqb n b | None => false end then ret tt else jump (block_label fn b).
Definition gen_term (fn : string) (f : func) (t : term) (next : option nat) : M unit :=
  match t with
  | TJump b => jump_unless_next fn next b
  | TIf c a b => jnz c (block_label fn a) ;;; jump (block_label fn b)
  | TCmp op l r a b =>
    x <- reserve 1 ;;
    match op with
    | Eq => compute Sub x l r ;;; jnz_off x (block_label fn b) ;;; jump_unless_next fn next a
    | Neq => compute Sub x l r ;;; jnz_off x (block_label fn a) ;;; jump_unless_next fn next b
    | U32Eq => compute U32Eq x l r ;;; jnz_off x (block_label fn a) ;;; jump_unless_next fn next b
    | U32Neq => compute U32Eq x l r ;;; jnz_off x (block_label fn b) ;;; jump_unless_next fn next a
    | _ => fail
    end
  | TReturn vs => match types_of f (f_rets f) with Some rs => return_vals 0 vs rs | None => panic end
  | TUnreachable => ret tt
  end.
(** generator.rs 437-537: the blocks in index order, each with its label. *)
Definition gen_block (ms : funcs) (fn : string) (f : func) (k : nat) (last : bool) (b : block) : M unit :=
  label (block_label fn k) ;;;
  gen_instrs ms f (b_term b) (b_instrs b) ;;;
  gen_term fn f (b_term b) (if last then None else Some (S k)).
Fixpoint gen_blocks (ms : funcs) (fn : string) (f : func) (k : nat) (bs : list block) : M unit :=
  match bs with
  | [] => ret tt
  | b :: r => gen_block ms fn f k (match r with [] => true | _ => false end) b ;;;
              gen_blocks ms fn f (S k) r
  end.
(** builder.rs 63-82 and generator.rs 352-418: a function's items.  The generator's
    counter at entry numbers the labels. *)
Definition est0 (L : layout) (c : N) (bs : list (list Z * string)) (h : bool) : est :=
  Est L c (if 0 <? frame L then frame L - 1 else -1) c bs h.
Definition gen_func (ms : funcs) (fn : string) (f : func) : M unit :=
  label fn ;;; gen_blocks ms fn f 0 (f_blocks f).
