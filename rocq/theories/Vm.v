(** The virtual machine: instruction handlers and the execution loop.
    Models crates/runner/src/vm. *)
From Coq Require Import ZArith Bool List.
From Verif Require Import M31 Instr VmMem.
Import ListNotations.
Open Scope Z_scope.
Open Scope vm_scope.

(** vm/state.rs 16-74. [M31::from(offset)] for a word count. *)
Definition advance_by (s : state) (n : Z) : state := St (madd (pc s) (mfrom n)) (fp s).
Definition jump_abs (s : state) (t : Z) : state := St t (fp s).
Definition jump_rel (s : state) (o : Z) : state := St (madd (pc s) o) (fp s).
Definition call_abs (s : state) (t off : Z) : state := St t (madd (fp s) off).

(** u32 operators used by the handlers (Rust [wrapping_*], [/], [%], [&|^], [==], [<]). *)
Definition W32 : Z := 4294967296.
Definition u_add (a b : Z) : Z := (a + b) mod W32.
Definition u_sub (a b : Z) : Z := (a - b) mod W32.
Definition u_mul (a b : Z) : Z := (a * b) mod W32.

(** vm/instructions/store.rs 15-33 [exec_u32_bin_op_fp_fp]. *)
Definition u32_bin_fp_fp (i : instr) (s : state) (s0 s1 d : Z) (op : Z -> Z -> Z) : M state :=
  a <- get_u32 (madd (fp s) s0) ;;
  b <- get_u32 (madd (fp s) s1) ;;
  insert_u32 (madd (fp s) d) (op a b) ;;;
  ret (advance_by s (size_qm31 i)).

(** store.rs 37-65 [exec_u32_bin_op_fp_imm]. *)
Definition u32_bin_fp_imm (i : instr) (s : state) (src lo hi d : Z) (op : Z -> Z -> Z) : M state :=
  if negb (limbs_ok lo hi) then fail (EMem (U32LimbOutOfRange lo hi))
  else
    a <- get_u32 (madd (fp s) src) ;;
    insert_u32 (madd (fp s) d) (op a (u32_of_limbs lo hi)) ;;;
    ret (advance_by s (size_qm31 i)).

(** store.rs 117-136 [impl_store_bin_op_fp_fp!]; a panicking operator gives [None]. *)
Definition bin_fp_fp (i : instr) (s : state) (s0 s1 d : Z) (op : Z -> Z -> option Z) : M state :=
  a <- get_data (madd (fp s) s0) ;;
  b <- get_data (madd (fp s) s1) ;;
  match op a b with
  | None => fail EPanic
  | Some v => insert (madd (fp s) d) (qofm v) ;;; ret (advance_by s (size_qm31 i))
  end.

(** store.rs 139-156 [impl_store_bin_op_fp_imm!]. *)
Definition bin_fp_imm (i : instr) (s : state) (src imm d : Z) (op : Z -> Z -> Z) : M state :=
  a <- get_data (madd (fp s) src) ;;
  insert (madd (fp s) d) (qofm (op a imm)) ;;;
  ret (advance_by s (size_qm31 i)).

(** store.rs 456-480 / 484-516: comparisons. *)
Definition u32_cmp_fp_fp (i : instr) (s : state) (s0 s1 d : Z) (op : Z -> Z -> bool) : M state :=
  a <- get_u32 (madd (fp s) s0) ;;
  b <- get_u32 (madd (fp s) s1) ;;
  insert (madd (fp s) d) (qofm (if op a b then 1 else 0)) ;;;
  ret (advance_by s (size_qm31 i)).
Definition u32_cmp_fp_imm (i : instr) (s : state) (src lo hi d : Z) (op : Z -> Z -> bool) : M state :=
  if negb (limbs_ok lo hi) then fail (EMem (U32LimbOutOfRange lo hi))
  else
    a <- get_u32 (madd (fp s) src) ;;
    insert (madd (fp s) d) (qofm (if op a (u32_of_limbs lo hi) then 1 else 0)) ;;;
    ret (advance_by s (size_qm31 i)).

(** vm/instructions/mod.rs 68-113 [instruction_to_fn] and the handlers in store.rs,
    call.rs, jump.rs, jnz.rs, assert.rs, print.rs.  Output to stdout of the print
    handlers is not modelled. *)
Definition exec (i : instr) (s : state) : M state :=
  match i with
  | StoreAddFpFp a b d => bin_fp_fp i s a b d (fun x y => Some (madd x y))
  | StoreSubFpFp a b d => bin_fp_fp i s a b d (fun x y => Some (msub x y))
  | StoreMulFpFp a b d => bin_fp_fp i s a b d (fun x y => Some (mmul x y))
  | StoreDivFpFp a b d => bin_fp_fp i s a b d mdiv
  | StoreAddFpImm a imm d => bin_fp_imm i s a imm d madd
  | StoreMulFpImm a imm d => bin_fp_imm i s a imm d mmul
  (* store.rs 179-191 *)
  | StoreLeFpImm a imm d =>
    v <- get_data (madd (fp s) a) ;;
    insert (madd (fp s) d) (qofm (mfrom (if v <=? imm then 1 else 0))) ;;;
    ret (advance_by s (size_qm31 i))
  (* assert.rs 13-26 *)
  | AssertEqFpImm a imm =>
    v <- get_data (madd (fp s) a) ;;
    if negb (v =? imm) then fail (EInstr (AssertionFailed v imm))
    else ret (advance_by s (size_qm31 i))
  (* store.rs 201-213 *)
  | StoreDoubleDerefFp b imm d =>
    base <- get_data (madd (fp s) b) ;;
    v <- get_data (madd base imm) ;;
    insert (madd (fp s) d) (qofm v) ;;;
    ret (advance_by s (size_qm31 i))
  (* store.rs 219-245 *)
  | StoreDoubleDerefFpFp b o d =>
    base <- get_data (madd (fp s) b) ;;
    off <- get_data (madd (fp s) o) ;;
    v <- get_data (madd base off) ;;
    insert (madd (fp s) d) (qofm v) ;;;
    ret (advance_by s (size_qm31 i))
  (* store.rs 309-318 *)
  | StoreImm imm d =>
    insert (madd (fp s) d) (qofm imm) ;;;
    ret (advance_by s (size_qm31 i))
  (* store.rs 324-334 *)
  | StoreFramePointer imm d =>
    insert (madd (fp s) d) (qofm (madd (fp s) imm)) ;;;
    ret (advance_by s (size_qm31 i))
  (* call.rs 48-61 *)
  | CallAbsImm off t =>
    insert (madd (fp s) off) (qofm (fp s)) ;;;
    insert (madd (madd (fp s) off) 1) (qofm (madd (pc s) (mfrom (size_qm31 i)))) ;;;
    ret (call_abs s t (madd off 2))
  (* call.rs 69-78 *)
  | Ret =>
    p <- get_data (msub (fp s) 1) ;;
    f <- get_data (msub (fp s) 2) ;;
    ret (St p f)
  (* jump.rs 13-36 *)
  | JmpAbsImm t => ret (jump_abs s t)
  | JmpRelImm o => ret (jump_rel s o)
  (* jnz.rs 18-32 *)
  | JnzFpImm c o =>
    v <- get_data (madd (fp s) c) ;;
    if negb (v =? 0) then ret (jump_rel s o) else ret (advance_by s (size_qm31 i))
  | U32StoreAddFpFp a b d => u32_bin_fp_fp i s a b d u_add
  | U32StoreSubFpFp a b d => u32_bin_fp_fp i s a b d u_sub
  | U32StoreMulFpFp a b d => u32_bin_fp_fp i s a b d u_mul
  (* store.rs 348-375 *)
  | U32StoreDivRemFpFp a b d r =>
    x <- get_u32 (madd (fp s) a) ;;
    y <- get_u32 (madd (fp s) b) ;;
    if y =? 0 then fail EDivByZero
    else
      insert_u32 (madd (fp s) d) (x / y) ;;;
      insert_u32 (madd (fp s) r) (x mod y) ;;;
      ret (advance_by s (size_qm31 i))
  | U32StoreAddFpImm a lo hi d => u32_bin_fp_imm i s a lo hi d u_add
  | U32StoreMulFpImm a lo hi d => u32_bin_fp_imm i s a lo hi d u_mul
  (* store.rs 389-425 *)
  | U32StoreDivRemFpImm a lo hi d r =>
    if negb (limbs_ok lo hi) then fail (EMem (U32LimbOutOfRange lo hi))
    else
      let y := u32_of_limbs lo hi in
      if y =? 0 then fail EDivByZero
      else
        x <- get_u32 (madd (fp s) a) ;;
        insert_u32 (madd (fp s) d) (x / y) ;;;
        insert_u32 (madd (fp s) r) (x mod y) ;;;
        ret (advance_by s (size_qm31 i))
  (* store.rs 431-449 *)
  | U32StoreImm lo hi d =>
    if negb (limbs_ok lo hi) then fail (EMem (U32LimbOutOfRange lo hi))
    else
      insert (madd (fp s) d) (qofm lo) ;;;
      insert (madd (madd (fp s) d) 1) (qofm hi) ;;;
      ret (advance_by s (size_qm31 i))
  | U32StoreEqFpFp a b d => u32_cmp_fp_fp i s a b d Z.eqb
  | U32StoreLtFpFp a b d => u32_cmp_fp_fp i s a b d Z.ltb
  | U32StoreEqFpImm a lo hi d => u32_cmp_fp_imm i s a lo hi d Z.eqb
  | U32StoreLtFpImm a lo hi d => u32_cmp_fp_imm i s a lo hi d Z.ltb
  | U32StoreAndFpFp a b d => u32_bin_fp_fp i s a b d Z.land
  | U32StoreOrFpFp a b d => u32_bin_fp_fp i s a b d Z.lor
  | U32StoreXorFpFp a b d => u32_bin_fp_fp i s a b d Z.lxor
  | U32StoreAndFpImm a lo hi d => u32_bin_fp_imm i s a lo hi d Z.land
  | U32StoreOrFpImm a lo hi d => u32_bin_fp_imm i s a lo hi d Z.lor
  | U32StoreXorFpImm a lo hi d => u32_bin_fp_imm i s a lo hi d Z.lxor
  (* store.rs 258-276 *)
  | StoreToDoubleDerefFpImm b imm src =>
    base <- get_data (madd (fp s) b) ;;
    v <- get_data (madd (fp s) src) ;;
    insert (madd base imm) (qofm v) ;;;
    ret (advance_by s (size_qm31 i))
  (* store.rs 284-303 *)
  | StoreToDoubleDerefFpFp b o src =>
    base <- get_data (madd (fp s) b) ;;
    off <- get_data (madd (fp s) o) ;;
    v <- get_data (madd (fp s) src) ;;
    insert (madd base off) (qofm v) ;;;
    ret (advance_by s (size_qm31 i))
  (* print.rs 15-39 *)
  | PrintM31 o =>
    get_data_no_trace (madd (fp s) o) ;;;
    ret (advance_by s (size_qm31 i))
  | PrintU32 o =>
    get_u32_no_trace (madd (fp s) o) ;;;
    ret (advance_by s (size_qm31 i))
  end.

(** common/src/execution.rs [Segment]; the initial memory is kept as the two
    vectors it is built from (finalize_segment, vm/mod.rs 204-220, turns them into a
    HashMap; see [seg_initial] below). *)
Record segment : Set := Seg {
  seg_locals : list qm31; seg_heap : list qm31;
  seg_mtrace : list entry; seg_trace : list state }.

(** vm/mod.rs 51-80 [VM] ([program_length] equals [final_pc] and is dropped). *)
Record vm : Set := VM {
  v_final : Z; v_init_locals : list qm31; v_init_heap : list qm31;
  v_mem : mem; v_st : state; v_trace : list state; v_segs : list segment }.

(** common/src/program.rs 143-156. *)
Inductive pdata : Set := PInstr (i : instr) | PValue (q : qm31).
Definition pwords (d : pdata) : list qm31 :=
  match d with PInstr i => to_words i | PValue q => [q] end.

(** vm/mod.rs 86-119 [TryFrom<&Program>].  [M31(len as u32)] does not reduce: the
    program is assumed shorter than P (see [load]'s users). *)
Definition load (p : list pdata) : vm :=
  let words := flat_map pwords p in
  let n := zlen words in
  VM n [] [] (Mem words [] []) (St 0 n) [] [].

Definition set_mem (v : vm) (m : mem) : vm :=
  VM (v_final v) (v_init_locals v) (v_init_heap v) m (v_st v) (v_trace v) (v_segs v).
Definition set_st (v : vm) (s : state) : vm :=
  VM (v_final v) (v_init_locals v) (v_init_heap v) (v_mem v) s (v_trace v) (v_segs v).
Definition push_trace (v : vm) (s : state) : vm :=
  VM (v_final v) (v_init_locals v) (v_init_heap v) (v_mem v) (v_st v) (v_trace v ++ [s]) (v_segs v).

(** vm/mod.rs 130-141 [step]. *)
Definition step (v : vm) : vm * option verr :=
  match get_instruction (pc (v_st v)) (v_mem v) with
  | (m1, Err e) => (set_mem v m1, Some e)
  | (m1, Ok ws) =>
    match decode ws with
    | DErr e => (set_mem v m1, Some (EInstr e))
    | DOk i =>
      let v1 := push_trace (set_mem v m1) (v_st v) in
      match exec i (v_st v) m1 with
      | (m2, Ok s') => (set_st (set_mem v1 m2) s', None)
      | (m2, Err e) => (set_mem v1 m2, Some e)
      end
    end
  end.

Inductive status : Set := Complete | Ongoing.
(** Outcome of a loop run on fuel: [OutOfFuel] means the loop had not ended. *)
Inductive lres (A : Type) : Type := LOk (a : A) | LErr (e : verr) | OutOfFuel.
Arguments LOk {A} a. Arguments LErr {A} e. Arguments OutOfFuel {A}.

(** vm/mod.rs 163-166, the loop of [execute]. *)
Fixpoint exec_loop (fuel : nat) (max_steps : Z) (v : vm) : vm * lres unit :=
  if negb (pc (v_st v) =? v_final v) && (zlen (v_trace v) <? max_steps) then
    match fuel with
    | O => (v, OutOfFuel)
    | S k => match step v with
             | (v', None) => exec_loop k max_steps v'
             | (v', Some e) => (v', LErr e)
             end
    end
  else (v, LOk tt).

(** vm/mod.rs 158-175 [execute]. *)
Definition execute (fuel : nat) (max_steps : Z) (v : vm) : vm * lres status :=
  if v_final v =? 0 then (v, LOk Complete)
  else match exec_loop fuel max_steps v with
       | (v', LOk _) =>
         (push_trace v' (v_st v'), LOk (if pc (v_st v') =? v_final v' then Complete else Ongoing))
       | (v', LErr e) => (v', LErr e)
       | (v', OutOfFuel) => (v', OutOfFuel)
       end.

(** vm/mod.rs 184-227 [finalize_segment]. *)
Definition finalize_segment (is_last : bool) (v : vm) : vm :=
  let m := v_mem v in
  let seg := Seg (v_init_locals v) (v_init_heap v) (mtrace m) (v_trace v) in
  let m' := Mem (locals m) (heap m) [] in
  if is_last then VM (v_final v) [] [] m' (v_st v) [] (v_segs v ++ [seg])
  else VM (v_final v) (locals m) (heap m) m' (v_st v) [] (v_segs v ++ [seg]).

(** vm/mod.rs 204-220: the HashMap built for a segment: locals first, then heap
    entries, later insertions overwriting earlier ones. *)
Definition seg_initial (sg : segment) (a : Z) : option qm31 :=
  match znth (seg_heap sg) (MAX_ADDRESS - a) with
  | Some v => Some v
  | None => znth (seg_locals sg) a
  end.

(** vm/mod.rs 275-281, the segment loop of [run_from_entrypoint]; [fuel] bounds the
    number of segments, [sfuel] the steps inside one segment. *)
Fixpoint seg_loop (fuel sfuel : nat) (max_steps : Z) (v : vm) : vm * lres unit :=
  match fuel with
  | O => (v, OutOfFuel)
  | S k =>
    match execute sfuel max_steps v with
    | (v', LOk Complete) => (finalize_segment true v', LOk tt)
    | (v', LOk Ongoing) => seg_loop k sfuel max_steps (finalize_segment false v')
    | (v', LErr e) => (v', LErr e)
    | (v', OutOfFuel) => (v', OutOfFuel)
    end
  end.

(** vm/mod.rs 260-265: the argument loop. *)
Fixpoint write_args (new_fp nargs nret i : Z) (args : list Z) : M unit :=
  match args with
  | [] => ret tt
  | x :: r =>
    insert_no_trace (msub new_fp (mfrom (nargs + nret + 2 - i))) (qofm x) ;;;
    write_args new_fp nargs nret (i + 1) r
  end.

(** vm/mod.rs 249-274: [run_from_entrypoint] up to the segment loop. *)
Definition prepare (v : vm) (entry_pc fp_offset : Z) (args : list Z) (nret : Z) : vm * res unit :=
  let new_fp := madd (fp (v_st v)) (mfrom fp_offset) in
  match write_args new_fp (zlen args) nret 0 args (v_mem v) with
  | (m1, Err e) => (set_mem v m1, Err e)
  | (m1, Ok _) =>
    let v1 := set_st (set_mem v m1) (St entry_pc new_fp) in
    match insert_entrypoint_call (v_final v) new_fp m1 with
    | (m2, Err e) => (set_mem v1 m2, Err e)
    | (m2, Ok _) =>
      (VM (v_final v) (locals m2) (heap m2) m2 (St entry_pc new_fp) (v_trace v) (v_segs v), Ok tt)
    end
  end.

(** vm/mod.rs 249-285 [run_from_entrypoint]. *)
Definition run_from_entrypoint (fuel sfuel : nat) (max_steps : Z) (v : vm)
    (entry_pc fp_offset : Z) (args : list Z) (nret : Z) : vm * lres unit :=
  match prepare v entry_pc fp_offset args nret with
  | (v', Ok _) => seg_loop fuel sfuel max_steps v'
  | (v', Err e) => (v', LErr e)
  end.
