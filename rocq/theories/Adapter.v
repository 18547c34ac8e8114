(** The prover's adapter: from a segment of a run to execution bundles, boundary memories
    and clock updates.  Models crates/prover/src/adapter/memory.rs and
    crates/prover/src/adapter/mod.rs (Merkle trees are in Merkle.v). *)
From Coq Require Import ZArith Bool List.
From Verif Require Import M31 Instr VmMem Vm Abi.
Import ListNotations.
Open Scope Z_scope.

(** memory.rs 16: [RC20_LIMIT]. *)
Definition RC20_LIMIT : Z := 1048575.

(** A [HashMap<M31, (QM31, M31, M31)>]: address, then value, clock and multiplicity.
    One entry per key; the order of the list stands for the iteration order. *)
Definition cellv : Set := (qm31 * Z * Z)%type.
Definition amap : Set := list (Z * cellv).
Fixpoint hget (l : amap) (a : Z) : option cellv :=
  match l with
  | [] => None
  | (k, v) :: r => if k =? a then Some v else hget r a
  end.
(** [HashMap::insert]: replaces or adds. *)
Fixpoint hset (l : amap) (a : Z) (v : cellv) : amap :=
  match l with
  | [] => [(a, v)]
  | (k, w) :: r => if k =? a then (k, v) :: r else (k, w) :: hset r a v
  end.

(** memory.rs 187-194 [Memory]; clock updates are (address, clock, value), in order. *)
Record amem : Set := AMem { a_ini : amap; a_fin : amap; a_cu : list (Z * Z * qm31) }.
(** memory.rs 418-424 [Memory::new]. *)
Definition amem_new (ini : amap) : amem := AMem ini ini [].

(** memory.rs 125-136 [MemoryArg] (the clock of the access is the caller's). *)
Record marg : Set := MArg { g_addr : Z; g_prev_val : qm31; g_val : qm31; g_prev_clock : Z }.

(** memory.rs 511-521: the clock updates for one access. *)
Fixpoint cu_steps (n : nat) (a clk : Z) (v : qm31) : list (Z * Z * qm31) * Z :=
  match n with
  | O => ([], clk)
  | S k => let (l, c) := cu_steps k a (madd clk (mfrom RC20_LIMIT)) v in ((a, clk, v) :: l, c)
  end.
(** memory.rs 470-535 [push]. *)
Definition push (m : amem) (a : Z) (v : qm31) (clk : Z) : amem * marg :=
  let '(pv, pclk, _) := match hget (a_fin m) a with Some c => c | None => (v, 0, P - 1) end in
  let fin := hset (a_fin m) a (v, clk, P - 1) in
  let ini :=
    if pclk =? 0 then
      match hget (a_ini m) a with
      | Some (iv, ic, _) => hset (a_ini m) a (iv, ic, 1)
      | None => hset (a_ini m) a (v, 0, 1)
      end
    else a_ini m in
  (* [initial_memory_entry.unwrap().0]: always present when used *)
  let iv := match hget ini a with Some (x, _, _) => x | None => v end in
  let (cus, pclk') :=
    if (pclk <? clk) && (RC20_LIMIT <? clk - pclk)
    then cu_steps (Z.to_nat ((clk - pclk) / RC20_LIMIT)) a pclk iv
    else ([], pclk) in
  (AMem ini fin (a_cu m ++ cus), MArg a pv v pclk').

(** memory.rs 56-66 [DataAccess] and 97-106 [ExecutionBundle]; the access span into the
    shared list of accesses is replaced by the accesses themselves. *)
Record daccess : Set := DA { d_addr : Z; d_prev_clock : Z; d_prev : Z; d_val : Z }.
Record bundle : Set := Bundle {
  b_st : state; b_clock : Z; b_instr : instr; b_prev_clock : Z; b_acc : list daccess }.

(** io.rs [VmImportError], the variants that [next] returns. *)
Inductive adres (A : Type) : Type := AdOk (a : A) | AdEmptyTrace | AdUnexpectedEnd | AdBadOpcode | AdBadInstr.
Arguments AdOk {A} a. Arguments AdEmptyTrace {A}. Arguments AdUnexpectedEnd {A}.
Arguments AdBadOpcode {A}. Arguments AdBadInstr {A}.

(** memory.rs 354-377: the operand loop. *)
Fixpoint operand_accesses (n : nat) (m : amem) (lg : list entry) (clk : Z) : adres (amem * list entry * list daccess) :=
  match n with
  | O => AdOk (m, lg, [])
  | S k =>
    match lg with
    | [] => AdUnexpectedEnd
    | e :: r =>
      let (m1, g) := push m (e_addr e) (e_val e) clk in
      match operand_accesses k m1 r clk with
      | AdOk (m2, q, l) => AdOk (m2, q, DA (g_addr g) (g_prev_clock g) (q0 (g_prev_val g)) (q0 (g_val g)) :: l)
      | AdEmptyTrace => AdEmptyTrace | AdUnexpectedEnd => AdUnexpectedEnd
      | AdBadOpcode => AdBadOpcode | AdBadInstr => AdBadInstr
      end
    end
  end.
(** memory.rs 271-402 [next], for an entry of the trace that is not the last one. *)
Definition next_bundle (m : amem) (lg : list entry) (clk : Z) (s : state) : adres (bundle * amem * list entry) :=
  match lg with
  | [] => AdEmptyTrace
  | e :: r =>
    let (m1, g) := push m (e_addr e) (e_val e) (mfrom clk) in
    match opcode_size (q0 (e_val e)) with
    | None => AdBadOpcode
    | Some sz =>
      let head := firstn (Z.to_nat sz) (qlist (e_val e)) in
      let more :=
        if 1 <? div_ceil4 sz then
          match r with
          | [] => AdUnexpectedEnd
          | e2 :: r2 =>
            let (m2, _) := push m1 (e_addr e2) (e_val e2) (mfrom clk) in
            AdOk (m2, r2, (if 4 <? sz then [q0 (e_val e2)] else []) ++ (if 5 <? sz then [q1 (e_val e2)] else []))
          end
        else AdOk (m1, r, []) in
      match more with
      | AdOk (m2, r2, tail) =>
        match Instr.decode (head ++ tail) with
        | DErr _ => AdBadInstr
        | DOk i =>
          match operand_accesses (Z.to_nat (memory_accesses i)) m2 r2 (mfrom clk) with
          | AdOk (m3, r3, acc) => AdOk (Bundle s (mfrom clk) i (g_prev_clock g) acc, m3, r3)
          | AdEmptyTrace => AdEmptyTrace | AdUnexpectedEnd => AdUnexpectedEnd
          | AdBadOpcode => AdBadOpcode | AdBadInstr => AdBadInstr
          end
        end
      | AdEmptyTrace => AdEmptyTrace | AdUnexpectedEnd => AdUnexpectedEnd
      | AdBadOpcode => AdBadOpcode | AdBadInstr => AdBadInstr
      end
    end
  end.

(** mod.rs 118-138: all bundles in order, the final registers and the memory.  Entries of
    the log left over at the end are not looked at. *)
Fixpoint bundles (tr : list state) (m : amem) (lg : list entry) (clk : Z) : adres (list bundle * state * amem) :=
  match tr with
  | [] => AdEmptyTrace
  | s :: r =>
    match r with
    | [] => AdOk ([], s, m)
    | _ =>
      match next_bundle m lg clk s with
      | AdOk (b, m1, lg1) =>
        match bundles r m1 lg1 (clk + 1) with
        | AdOk (bs, f, m2) => AdOk (b :: bs, f, m2)
        | AdEmptyTrace => AdEmptyTrace | AdUnexpectedEnd => AdUnexpectedEnd
        | AdBadOpcode => AdBadOpcode | AdBadInstr => AdBadInstr
        end
      | AdEmptyTrace => AdEmptyTrace | AdUnexpectedEnd => AdUnexpectedEnd
      | AdBadOpcode => AdBadOpcode | AdBadInstr => AdBadInstr
      end
    end
  end.

(** [Range<u32>::contains]. *)
Definition in_range (r : Z * Z) (a : Z) : bool := (fst r <=? a) && (a <? snd r).
Definition ranged (r : Z * Z) : list Z := map (fun k => fst r + Z.of_nat k) (seq 0 (Z.to_nat (snd r - fst r))).
(** memory.rs 427-461 [update_multiplicities]. *)
Definition set_mult (l : amap) (a : Z) (k : Z) : amap :=
  match hget l a with Some (v, c, _) => hset l a (v, c, k) | None => l end.
Definition publish_in (m : amem) (a : Z) : amem :=
  let ini := set_mult (a_ini m) (mfrom a) 0 in
  let fin := match hget (a_fin m) (mfrom a) with
             | Some (v, c, k) => if k =? 0 then hset (a_fin m) (mfrom a) (v, c, P - 1) else a_fin m
             | None => a_fin m end in
  AMem ini fin (a_cu m).
Definition publish_out (m : amem) (a : Z) : amem :=
  AMem (set_mult (a_ini m) (mfrom a) 1) (set_mult (a_fin m) (mfrom a) 0) (a_cu m).
Definition update_multiplicities (r : ranges) (m : amem) : amem :=
  fold_left publish_out (ranged (r_output r))
    (fold_left publish_in (ranged (r_program r) ++ ranged (r_input r)) m).

(** public_data.rs 84-100: the present entries of a range. *)
Definition extract (l : amap) (r : Z * Z) : list (Z * qm31 * Z) :=
  flat_map (fun a => match hget l (mfrom a) with Some (v, c, _) => [(mfrom a, v, c)] | None => [] end) (ranged r).

(** mod.rs 97-193 [import_internal] without the Merkle trees; bundles are kept in order
    instead of being grouped by opcode. *)
Record adapted : Set := Adapted {
  ad_bundles : list bundle; ad_first : state; ad_last : state; ad_mem : amem }.
Definition import (tr : list state) (lg : list entry) (ini : amap) (r : ranges) : adres adapted :=
  match tr with
  | [] => AdEmptyTrace
  | s0 :: _ =>
    match bundles tr (amem_new ini) lg 1 with
    | AdOk (bs, f, m) => AdOk (Adapted bs s0 f (update_multiplicities r m))
    | AdEmptyTrace => AdEmptyTrace | AdUnexpectedEnd => AdUnexpectedEnd
    | AdBadOpcode => AdBadOpcode | AdBadInstr => AdBadInstr
    end
  end.

(** runner/src/vm/mod.rs 204-220: the initial memory of a segment as a map, every cell with
    clock 0 and multiplicity 0; heap cells overwrite local ones. *)
Definition seg_map (sg : segment) : amap :=
  let loc := map (fun k => (Z.of_nat k, match znth (seg_locals sg) (Z.of_nat k) with Some q => (q, 0, 0) | None => (qzero, 0, 0) end))
                 (seq 0 (length (seg_locals sg))) in
  fold_left (fun l k => match znth (seg_heap sg) (Z.of_nat k) with
                        | Some q => hset l (mfrom (MAX_ADDRESS - Z.of_nat k)) (q, 0, 0)
                        | None => l end)
            (seq 0 (length (seg_heap sg))) loc.
