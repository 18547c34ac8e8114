(** Trace files: reading what was written, and what is left of a truncated file. *)
From Coq Require Import ZArith Bool List Lia.
From Verif Require Import M31 M31Facts Instr VmMem Vm VmFacts TraceIo.
Import ListNotations.
Open Scope Z_scope.
Ltac Zify.zify_post_hook ::= Z.div_mod_to_equations.

Lemma of_le4_le4 x : 0 <= x < 4294967296 ->
  of_le4 (x mod 256) (x / 256 mod 256) (x / 65536 mod 256) (x / 16777216 mod 256) = x.
Proof. unfold of_le4. lia. Qed.
Lemma wf_u32 x : wf x -> 0 <= x < 4294967296.
Proof. unfold wf, P. lia. Qed.
Lemma wf_mfrom x : wf x -> mfrom x = x.
Proof. intros H. unfold mfrom. apply Z.mod_small. exact H. Qed.

Definition entry_wf (e : entry) : Prop := wf (e_addr e) /\ qwf (e_val e).

Lemma firstn_8 {A} n (x0 x1 x2 x3 x4 x5 x6 x7 : A) l : (8 <= n)%nat ->
  firstn n (x0 :: x1 :: x2 :: x3 :: x4 :: x5 :: x6 :: x7 :: l) =
  x0 :: x1 :: x2 :: x3 :: x4 :: x5 :: x6 :: x7 :: firstn (n - 8) l.
Proof. intros H. do 8 (destruct n as [|n]; [lia|]). cbn [firstn]. do 9 f_equal. lia. Qed.
Lemma read_short (bs : list Z) : (length bs < 8)%nat -> read_trace bs = [].
Proof. intros H. do 8 (destruct bs as [|? bs]; [reflexivity|]). cbn [length] in H. lia. Qed.
Lemma div_step (n d : nat) : (0 < d)%nat -> (d <= n)%nat -> (n / d = S ((n - d) / d))%nat.
Proof.
  intros Hd H. replace n with (n - d + 1 * d)%nat at 1 by lia. rewrite Nat.div_add by lia. lia.
Qed.
Theorem read_trace_prefix tr : Forall swf tr -> forall n,
  read_trace (firstn n (write_trace tr)) = firstn (n / 8) tr.
Proof.
  induction 1 as [|s tr [Hp Hf] _ IH]; intros n.
  - cbn [write_trace flat_map]. rewrite !firstn_nil. reflexivity.
  - destruct (le_lt_dec 8 n) as [H|H].
    + cbn [write_trace flat_map le4 app]. fold (write_trace tr). rewrite firstn_8 by exact H.
      cbn [read_trace]. rewrite IH, !of_le4_le4 by (apply wf_u32; assumption).
      rewrite !wf_mfrom by assumption. rewrite (div_step n 8) by lia. destruct s; reflexivity.
    + rewrite read_short by (rewrite firstn_length; lia). rewrite Nat.div_small by lia. reflexivity.
Qed.

Lemma firstn_20 {A} n (x0 x1 x2 x3 x4 x5 x6 x7 x8 x9 y0 y1 y2 y3 y4 y5 y6 y7 y8 y9 : A) l : (20 <= n)%nat ->
  firstn n (x0 :: x1 :: x2 :: x3 :: x4 :: x5 :: x6 :: x7 :: x8 :: x9 :: y0 :: y1 :: y2 :: y3 :: y4 :: y5 :: y6 :: y7 :: y8 :: y9 :: l) =
  x0 :: x1 :: x2 :: x3 :: x4 :: x5 :: x6 :: x7 :: x8 :: x9 :: y0 :: y1 :: y2 :: y3 :: y4 :: y5 :: y6 :: y7 :: y8 :: y9 :: firstn (n - 20) l.
Proof. intros H. do 20 (destruct n as [|n]; [lia|]). cbn [firstn]. do 21 f_equal. lia. Qed.
Lemma read_short20 (bs : list Z) : (length bs < 20)%nat -> read_entries bs = [].
Proof. intros H. do 20 (destruct bs as [|? bs]; [reflexivity|]). cbn [length] in H. lia. Qed.
Theorem read_entries_prefix es : Forall entry_wf es -> forall n,
  read_entries (firstn n (flat_map write_entry es)) = firstn (n / 20) es.
Proof.
  induction 1 as [|e es [Ha Hv] _ IH]; intros n.
  - cbn [flat_map]. rewrite !firstn_nil. reflexivity.
  - destruct e as [a [v0 v1 v2 v3]]. cbn [e_addr e_val] in *. destruct Hv as (H0 & H1 & H2 & H3). cbn [q0 q1 q2 q3] in *.
    destruct (le_lt_dec 20 n) as [H|H].
    + cbn [flat_map write_entry le4 app e_addr e_val q0 q1 q2 q3]. rewrite firstn_20 by exact H.
      cbn [read_entries]. rewrite IH, !of_le4_le4 by (apply wf_u32; assumption).
      rewrite wf_mfrom by assumption. rewrite (div_step n 20) by lia. reflexivity.
    + rewrite read_short20 by (rewrite firstn_length; lia). rewrite Nat.div_small by lia. reflexivity.
Qed.

Lemma firstn_whole {A} (l : list A) : firstn (length l) l = l.
Proof. apply firstn_all. Qed.
Lemma write_trace_length tr : length (write_trace tr) = (8 * length tr)%nat.
Proof. induction tr as [|s tr IH]; [reflexivity|]. change (length (write_trace (s :: tr))) with (8 + length (write_trace tr))%nat. rewrite IH. cbn [length]. lia. Qed.
Lemma write_entries_length es : length (flat_map write_entry es) = (20 * length es)%nat.
Proof. induction es as [|s es IH]; [reflexivity|]. cbn [flat_map write_entry le4 app length]. rewrite IH. lia. Qed.

Theorem trace_roundtrip tr : Forall swf tr -> read_trace (write_trace tr) = tr.
Proof.
  intros H. rewrite <- (firstn_all (write_trace tr)), write_trace_length, read_trace_prefix by exact H.
  rewrite Nat.mul_comm, Nat.div_mul by lia. apply firstn_all.
Qed.
Theorem memory_roundtrip len es : 0 <= len < 4294967296 -> Forall entry_wf es ->
  read_memory (write_memory len es) = Some (len, es).
Proof.
  intros Hl H. unfold write_memory. cbn [le4 app read_memory]. rewrite of_le4_le4 by exact Hl. f_equal. f_equal.
  rewrite <- (firstn_all (flat_map write_entry es)), write_entries_length, read_entries_prefix by exact H.
  rewrite Nat.mul_comm, Nat.div_mul by lia. apply firstn_all.
Qed.
Theorem memory_prefix len es n : 0 <= len < 4294967296 -> Forall entry_wf es ->
  read_memory (firstn n (write_memory len es)) =
    if (n <? 4)%nat then None else Some (len, firstn ((n - 4) / 20) es).
Proof.
  intros Hl H. unfold write_memory. cbn [le4 app]. destruct (Nat.ltb_spec n 4) as [Hn|Hn].
  - destruct n as [|[|[|[|n]]]]; try lia; reflexivity.
  - do 4 (destruct n as [|n]; [lia|]). cbn [firstn read_memory]. rewrite of_le4_le4 by exact Hl.
    rewrite read_entries_prefix by exact H. do 3 f_equal. f_equal. lia.
Qed.
