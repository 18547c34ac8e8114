(** Encoding and decoding of instructions. *)
From Coq Require Import ZArith Bool List Lia.
From Verif Require Import M31 M31Facts Instr.
Import ListNotations.
Open Scope Z_scope.
Ltac Zify.zify_post_hook ::= Z.div_mod_to_equations.

Lemma opcode_mfrom i : mfrom (opcode i) = opcode i.
Proof. destruct i; reflexivity. Qed.

Lemma decode_encode i : decode (encode i) = DOk i.
Proof. unfold encode. rewrite opcode_mfrom. destruct i; reflexivity. Qed.

Lemma opcode_size_spec i : opcode_size (opcode i) = Some (size_m31 i).
Proof. destruct i; reflexivity. Qed.

Ltac dpos :=
  repeat match goal with
  | H : context [match ?p with xI _ => _ | xO _ => _ | xH => _ end] |- _ => destruct p; try discriminate H
  end.
Ltac dlist :=
  repeat match goal with
  | H : context [match ?l with [] => _ | _ :: _ => _ end] |- _ => destruct l; try discriminate H
  end.

Lemma decode_canonical l i : decode l = DOk i -> l = encode i.
Proof.
  unfold encode. rewrite opcode_mfrom.
  destruct l as [|op args]; cbn [decode]; [discriminate|]. intros H.
  destruct op as [|p|p]; [| |discriminate H]; dpos; dlist; injection H as <-; reflexivity.
Qed.

Lemma opcode_size_inv op sz : opcode_size op = Some sz -> 1 <= sz <= 6.
Proof.
  unfold opcode_size. intros H.
  destruct op as [|p|p]; [| |discriminate H]; dpos; injection H as <-; lia.
Qed.

Lemma size_m31_bounds i : 1 <= size_m31 i <= 6.
Proof. destruct i; vm_compute; split; discriminate. Qed.

Lemma encode_length i : Z.of_nat (length (encode i)) = size_m31 i.
Proof. unfold encode, size_m31. cbn [length]. lia. Qed.

(** Unknown opcodes and wrong operand counts. *)
Lemma decode_unknown op args : opcode_size op = None -> decode (op :: args) = DErr (InvalidOpcode op).
Proof.
  unfold opcode_size, decode. intros H.
  destruct op as [|p|p]; [discriminate H| |reflexivity]; dpos; reflexivity.
Qed.
Lemma decode_mismatch op args sz :
  opcode_size op = Some sz -> Z.of_nat (length args) <> sz - 1 ->
  decode (op :: args) = DErr (SizeMismatch (sz - 1) (Z.of_nat (length args))).
Proof.
  unfold opcode_size, decode. intros H Hn.
  destruct op as [|p|p]; [| |discriminate H]; dpos; injection H as <-;
  do 5 (destruct args as [|? args]; [first [reflexivity | exfalso; apply Hn; reflexivity]|]);
  first [reflexivity | destruct args; first [reflexivity | exfalso; apply Hn; reflexivity]].
Qed.
Lemma decode_match op args sz :
  opcode_size op = Some sz -> Z.of_nat (length args) = sz - 1 ->
  exists i, decode (op :: args) = DOk i.
Proof.
  unfold opcode_size, decode. intros H Hn.
  destruct op as [|p|p]; [| |discriminate H]; dpos; injection H as <-;
  do 6 (destruct args as [|? args]; [first [eexists; reflexivity | exfalso; cbn [length] in Hn; lia]|]);
  exfalso; cbn [length] in Hn; lia.
Qed.

Lemma encode_wf i : iwf i -> Forall wf (encode i).
Proof.
  intros H. constructor; [apply mfrom_wf|exact H].
Qed.
Lemma encode_iwf i : Forall wf (encode i) -> iwf i.
Proof. intros H. inversion H; assumption. Qed.

(** Word packing: the words hold the encoding followed by zero padding. *)
Lemma to_words_concat i :
  exists n, flat_map qlist (to_words i) = encode i ++ repeat 0 n /\ (n < 4)%nat.
Proof.
  destruct i; unfold to_words, encode; cbn [operands length chunks firstn skipn chunk4 nth flat_map qlist app q0 q1 q2 q3];
  first [exists 0%nat; split; [reflexivity|lia]|exists 1%nat; split; [reflexivity|lia]
        |exists 2%nat; split; [reflexivity|lia]|exists 3%nat; split; [reflexivity|lia]].
Qed.
Lemma to_words_length i : Z.of_nat (length (to_words i)) = size_qm31 i.
Proof. destruct i; reflexivity. Qed.
Lemma size_qm31_cases i : size_qm31 i = 1 /\ size_m31 i <= 4 \/ size_qm31 i = 2 /\ 4 < size_m31 i.
Proof. destruct i; vm_compute; intuition discriminate. Qed.
