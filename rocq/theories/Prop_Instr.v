(** Properties C01-C04: instruction encodings. *)
From Coq Require Import ZArith Bool List Lia.
From Verif Require Import M31 M31Facts Instr InstrFacts Hex HexFacts VmMem VmMemFacts Vm Machine VmFacts LoadFacts.
Import ListNotations.
Open Scope Z_scope.

(** C01 *)
Theorem C01_decode_encode : forall i : instr, decode (encode i) = DOk i.
Proof. exact decode_encode. Qed.
Print Assumptions C01_decode_encode.
Example C01_example : encode (U32StoreAddFpImm 5 65535 1 9) = [19; 5; 65535; 1; 9].
Proof. reflexivity. Qed.

(** C02: what decodes is canonical; everything else is rejected with its own error. *)
Theorem C02_decode_canonical : forall l i, decode l = DOk i -> encode i = l.
Proof. intros l i H. symmetry. exact (decode_canonical l i H). Qed.
Print Assumptions C02_decode_canonical.

(** The documented opcode table: opcode number and total number of field elements. *)
Definition opcode_table : list (Z * Z) :=
  [(0, 4); (1, 4); (2, 4); (3, 4); (4, 4); (6, 4); (8, 4); (9, 3); (10, 3); (11, 1); (12, 2); (13, 2); (14, 3); (15, 4); (16, 4); (17, 4); (18, 5); (19, 5); (21, 5); (22, 6);
   (23, 4); (24, 4); (28, 4); (30, 5); (34, 5); (36, 4); (37, 4); (38, 4); (39, 5); (40, 5); (41, 5); (42, 4); (43, 3); (44, 4); (45, 4); (46, 2); (47, 2); (48, 4); (50, 3)].
Definition table_size (op : Z) : option Z :=
  match find (fun e => fst e =? op) opcode_table with Some e => Some (snd e) | None => None end.
Lemma table_size_ok op : opcode_size op = table_size op.
Proof.
  destruct op as [|p|p]; [reflexivity| |reflexivity].
  repeat (destruct p as [p|p|]; try reflexivity).
Qed.

Theorem C02_decode_outcome : forall l,
  match l with
  | [] => decode l = DErr (SizeMismatch 1 0)
  | op :: args =>
    match table_size op with
    | None => decode l = DErr (InvalidOpcode op)
    | Some n =>
      if Z.of_nat (length args) =? n - 1
      then exists i, decode l = DOk i
      else decode l = DErr (SizeMismatch (n - 1) (Z.of_nat (length args)))
    end
  end.
Proof.
  intros [|op args]; [reflexivity|]. rewrite <- table_size_ok.
  destruct (opcode_size op) as [n|] eqn:E; [|exact (decode_unknown op args E)].
  destruct (Z.eqb_spec (Z.of_nat (length args)) (n - 1)) as [H|H].
  - exact (decode_match op args n E H).
  - exact (decode_mismatch op args n E H).
Qed.
Print Assumptions C02_decode_outcome.
(** The encoding table of crates/common/src/instruction.rs 313-577, written out: opcode
    number, then the operands in the order of the table. *)
Definition layout (i : instr) : list Z :=
  match i with
  | StoreAddFpFp a b c => [0; a; b; c]  (* src0_off, src1_off, dst_off *)
  | StoreSubFpFp a b c => [1; a; b; c]  (* src0_off, src1_off, dst_off *)
  | StoreMulFpFp a b c => [2; a; b; c]  (* src0_off, src1_off, dst_off *)
  | StoreDivFpFp a b c => [3; a; b; c]  (* src0_off, src1_off, dst_off *)
  | StoreAddFpImm a b c => [4; a; b; c]  (* src_off, imm, dst_off *)
  | StoreMulFpImm a b c => [6; a; b; c]  (* src_off, imm, dst_off *)
  | StoreLeFpImm a b c => [48; a; b; c]  (* src_off, imm, dst_off *)
  | AssertEqFpImm a b => [50; a; b]  (* src_off, imm *)
  | StoreDoubleDerefFp a b c => [8; a; b; c]  (* base_off, imm, dst_off *)
  | StoreDoubleDerefFpFp a b c => [42; a; b; c]  (* base_off, offset_off, dst_off *)
  | StoreImm a b => [9; a; b]  (* imm, dst_off *)
  | StoreFramePointer a b => [43; a; b]  (* imm, dst_off *)
  | CallAbsImm a b => [10; a; b]  (* frame_off, target *)
  | Ret => [11]  (* no operand *)
  | JmpAbsImm a => [12; a]  (* target *)
  | JmpRelImm a => [13; a]  (* offset *)
  | JnzFpImm a b => [14; a; b]  (* cond_off, offset *)
  | U32StoreAddFpFp a b c => [15; a; b; c]  (* src0_off, src1_off, dst_off *)
  | U32StoreSubFpFp a b c => [16; a; b; c]  (* src0_off, src1_off, dst_off *)
  | U32StoreMulFpFp a b c => [17; a; b; c]  (* src0_off, src1_off, dst_off *)
  | U32StoreDivRemFpFp a b c d => [18; a; b; c; d]  (* src0_off, src1_off, dst_off, dst_rem_off *)
  | U32StoreAddFpImm a b c d => [19; a; b; c; d]  (* src_off, imm_lo, imm_hi, dst_off *)
  | U32StoreMulFpImm a b c d => [21; a; b; c; d]  (* src_off, imm_lo, imm_hi, dst_off *)
  | U32StoreDivRemFpImm a b c d e => [22; a; b; c; d; e]  (* src_off, imm_lo, imm_hi, dst_off, dst_rem_off *)
  | U32StoreImm a b c => [23; a; b; c]  (* imm_lo, imm_hi, dst_off *)
  | U32StoreEqFpFp a b c => [24; a; b; c]  (* src0_off, src1_off, dst_off *)
  | U32StoreLtFpFp a b c => [28; a; b; c]  (* src0_off, src1_off, dst_off *)
  | U32StoreEqFpImm a b c d => [30; a; b; c; d]  (* src_off, imm_lo, imm_hi, dst_off *)
  | U32StoreLtFpImm a b c d => [34; a; b; c; d]  (* src_off, imm_lo, imm_hi, dst_off *)
  | U32StoreAndFpFp a b c => [36; a; b; c]  (* src0_off, src1_off, dst_off *)
  | U32StoreOrFpFp a b c => [37; a; b; c]  (* src0_off, src1_off, dst_off *)
  | U32StoreXorFpFp a b c => [38; a; b; c]  (* src0_off, src1_off, dst_off *)
  | U32StoreAndFpImm a b c d => [39; a; b; c; d]  (* src_off, imm_lo, imm_hi, dst_off *)
  | U32StoreOrFpImm a b c d => [40; a; b; c; d]  (* src_off, imm_lo, imm_hi, dst_off *)
  | U32StoreXorFpImm a b c d => [41; a; b; c; d]  (* src_off, imm_lo, imm_hi, dst_off *)
  | StoreToDoubleDerefFpImm a b c => [44; a; b; c]  (* base_off, imm, src_off *)
  | StoreToDoubleDerefFpFp a b c => [45; a; b; c]  (* base_off, offset_off, src_off *)
  | PrintM31 a => [46; a]  (* offset *)
  | PrintU32 a => [47; a]  (* offset *)
  end.
Theorem C02_documented_layout : forall i, encode i = layout i /\ decode (layout i) = DOk i.
Proof. intros i. split; [destruct i; reflexivity|]. replace (layout i) with (encode i) by (destruct i; reflexivity). apply C01_decode_encode. Qed.
Print Assumptions C02_documented_layout.
Example C02_examples :
  decode [50; 4; 7] = DOk (AssertEqFpImm 4 7) /\ decode [5; 1; 2; 3] = DErr (InvalidOpcode 5) /\
  decode [11; 1] = DErr (SizeMismatch 0 1).
Proof. repeat split. Qed.

(** C03: fetching item [k] of a loaded program of at most 2^28 words. *)
Theorem C03_loaded_program_fetched : forall p k i,
  zlen (flat_map pwords p) <= ADDRS ->
  nth_error p k = Some (PInstr i) ->
  exists m', get_instruction (start_of p k) (v_mem (load p)) = (m', Ok (encode i)) /\
    decode (encode i) = DOk i /\
    locals m' = locals (v_mem (load p)) /\ heap m' = heap (v_mem (load p)) /\
    start_of p (S k) = start_of p k + size_qm31 i.
Proof.
  intros p k i Hlen H. destruct (load_fetch p k i Hlen H) as (H1 & H2 & H3).
  destruct (fetch_complete _ _ _ H1 H2) as (m' & E & [Hc1 Hc2] & _).
  exists m'. rewrite decode_encode. auto.
Qed.
Print Assumptions C03_loaded_program_fetched.
(** Size in words: one per started group of four field elements. *)
Theorem C03_size_in_words : forall i,
  size_qm31 i = (Z.of_nat (length (encode i)) + 3) / 4 /\ 1 <= size_qm31 i <= 2.
Proof. intros i. destruct i; vm_compute; repeat split; discriminate. Qed.
Print Assumptions C03_size_in_words.
Theorem C03_data_words : forall p k q,
  nth_error p k = Some (PValue q) -> raw (v_mem (load p)) (start_of p k) = q.
Proof. exact load_data. Qed.
Print Assumptions C03_data_words.
Example C03_example :
  let p := [PInstr (StoreImm 7 0); PInstr (U32StoreAddFpImm 1 2 3 4); PValue (Q 1 2 3 4); PInstr Ret] in
  start_of p 1 = 1 /\ start_of p 3 = 4 /\
  snd (get_instruction 1 (v_mem (load p))) = Ok (encode (U32StoreAddFpImm 1 2 3 4)) /\
  snd (get_instruction 4 (v_mem (load p))) = Ok (encode Ret).
Proof. repeat split. Qed.

(** C04 *)
Theorem C04_json_roundtrip : forall i, iwf i -> of_json (to_json i) = JOk i.
Proof. exact json_roundtrip. Qed.
Print Assumptions C04_json_roundtrip.
(** and nothing but a hexadecimal form of the encoding is accepted. *)
Theorem C04_json_sound : forall l i, of_json l = JOk i -> hexes l = Some (encode i).
Proof. exact json_sound. Qed.
Print Assumptions C04_json_sound.
Example C04_example : to_json (StoreImm 2147483646 3) =
  [[48;120;57]; [48;120;55;102;102;102;102;102;102;101]; [48;120;51]].
Proof. reflexivity. Qed.
