(** Binary trace files: what the runner writes and what the prover reads. *)
From Coq Require Import ZArith Bool List.
From Verif Require Import M31 Instr VmMem Vm.
Import ListNotations.
Open Scope Z_scope.

(** [u32::to_le_bytes] and its inverse (bytes are integers in 0..255). *)
Definition le4 (x : Z) : list Z := [x mod 256; x / 256 mod 256; x / 65536 mod 256; x / 16777216 mod 256].
Definition of_le4 (a b c d : Z) : Z := a + 256 * b + 65536 * c + 16777216 * d.

(** common/src/execution.rs 28-40 [serialize_segment_trace]. *)
Definition write_trace (tr : list state) : list Z :=
  flat_map (fun s => le4 (fp s) ++ le4 (pc s)) tr.
(** common/src/execution.rs 51-66 [serialize_segment_memory_trace]. *)
Definition write_entry (e : entry) : list Z :=
  le4 (e_addr e) ++ le4 (q0 (e_val e)) ++ le4 (q1 (e_val e)) ++ le4 (q2 (e_val e)) ++ le4 (q3 (e_val e)).
(** runner/src/vm/mod.rs 364-369 [write_binary_memory_trace]: the program length first. *)
Definition write_memory (program_length : Z) (es : list entry) : list Z :=
  le4 program_length ++ flat_map write_entry es.

(** prover/src/adapter/io.rs 83-95 [TraceIter::next] until it returns [None]: entries of
    8 bytes ([IoTraceEntry], fp first); 45-52: converted with [M31::from]. *)
Fixpoint read_trace (bs : list Z) : list state :=
  match bs with
  | a0 :: a1 :: a2 :: a3 :: b0 :: b1 :: b2 :: b3 :: r =>
    St (mfrom (of_le4 b0 b1 b2 b3)) (mfrom (of_le4 a0 a1 a2 a3)) :: read_trace r
  | _ => []
  end.
(** io.rs 132-142 [MemoryEntryIter::next]: entries of 20 bytes; 61-73: the address is
    reduced by [M31::from], the limbs are taken unchecked. *)
Fixpoint read_entries (bs : list Z) : list entry :=
  match bs with
  | a0 :: a1 :: a2 :: a3 :: b0 :: b1 :: b2 :: b3 :: c0 :: c1 :: c2 :: c3 ::
    d0 :: d1 :: d2 :: d3 :: e0 :: e1 :: e2 :: e3 :: r =>
    En (mfrom (of_le4 a0 a1 a2 a3))
       (Q (of_le4 b0 b1 b2 b3) (of_le4 c0 c1 c2 c3) (of_le4 d0 d1 d2 d3) (of_le4 e0 e1 e2 e3)) :: read_entries r
  | _ => []
  end.
(** io.rs 115-129 [MemoryEntryIter::new] (None: [MetadataError]), then all entries. *)
Definition read_memory (bs : list Z) : option (Z * list entry) :=
  match bs with
  | a0 :: a1 :: a2 :: a3 :: r => Some (of_le4 a0 a1 a2 a3, read_entries r)
  | _ => None
  end.
