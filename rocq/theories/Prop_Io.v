(** Properties C15-C20: trace files, command-line arguments and the call interface. *)
From Coq Require Import ZArith Bool List Lia.
From Verif Require Import M31 M31Facts Instr VmMem VmMemFacts Vm Isa Machine VmFacts RunFacts LoadFacts
  TraceIo TraceIoFacts Cli CliSpec CliFacts Abi AbiSpec AbiFacts AbiDecodeFacts.
Import ListNotations.
Open Scope Z_scope.

(** ** C15: trace files *)
Theorem C15_trace_roundtrip : forall tr, Forall swf tr -> read_trace (write_trace tr) = tr.
Proof. exact trace_roundtrip. Qed.
Print Assumptions C15_trace_roundtrip.
Theorem C15_memory_roundtrip : forall len es, 0 <= len < 4294967296 -> Forall entry_wf es ->
  read_memory (write_memory len es) = Some (len, es).
Proof. exact memory_roundtrip. Qed.
Print Assumptions C15_memory_roundtrip.
(** A file cut after [n] bytes yields exactly the entries that were written completely. *)
Theorem C15_truncated_trace : forall tr n, Forall swf tr ->
  read_trace (firstn n (write_trace tr)) = firstn (n / 8) tr.
Proof. intros tr n H. exact (read_trace_prefix tr H n). Qed.
Print Assumptions C15_truncated_trace.
Theorem C15_truncated_memory : forall len es n, 0 <= len < 4294967296 -> Forall entry_wf es ->
  read_memory (firstn n (write_memory len es)) =
    if (n <? 4)%nat then None else Some (len, firstn ((n - 4) / 20) es).
Proof. intros len es n H1 H2. exact (memory_prefix len es n H1 H2). Qed.
Print Assumptions C15_truncated_memory.
Example C15_example :
  write_trace [St 3 258] = [2; 1; 0; 0; 3; 0; 0; 0] /\
  Forall swf [St 3 258; St 2147483646 5] /\
  read_memory (write_memory 7 [En 9 (Q 1 2 3 70000)]) = Some (7, [En 9 (Q 1 2 3 70000)]).
Proof.
  split; [reflexivity|]. split; [|reflexivity].
  repeat (apply Forall_cons; [unfold swf, wf, P; cbn [pc fp]; lia|]). apply Forall_nil.
Qed.

(** ** C16: signed numbers *)
Theorem C16_m31_from_i64 : forall n,
  0 <= m31_from_i64 n < 2147483647 /\ exists k, n = m31_from_i64 n + k * 2147483647.
Proof.
  intros n. destruct (m31_from_i64_spec n) as [H1 H2]. split; [exact H1|]. exists (n / P). rewrite H2.
  rewrite (Z.div_mod n P) at 1 by discriminate. unfold P. lia.
Qed.
Print Assumptions C16_m31_from_i64.
Example C16_example : m31_from_i64 (-1) = 2147483646 /\ m31_from_i64 (-9223372036854775808) = 2147483645.
Proof. split; reflexivity. Qed.

(** ** C17: argument syntax *)
Theorem C17_parse_iff_grammar : forall s v, parse_cli_arg s = POk v [] <-> spells v s.
Proof. exact parse_iff. Qed.
Print Assumptions C17_parse_iff_grammar.
Theorem C17_parse_total : forall s,
  (exists v, parse_cli_arg s = POk v []) \/ parse_cli_arg s = PErr.
Proof.
  intros s. destruct (parse_cli_arg s) as [v r| |] eqn:E.
  - left. exists v. rewrite (parse_rest _ _ _ E). reflexivity.
  - right. reflexivity.
  - exfalso. exact (parse_total _ E).
Qed.
Print Assumptions C17_parse_total.
(* "[ -12,(true , 3) ]" *)
Example C17_example :
  parse_cli_arg [91; 32; 45; 49; 50; 44; 40; 116; 114; 117; 101; 32; 44; 32; 51; 41; 32; 93] =
    POk (IList [INumber (-12); IList [IBool true; INumber 3]]) [] /\
  parse_cli_arg [91; 49; 44; 93] = PErr (* "[1,]" *).
Proof. split; reflexivity. Qed.

(** ** C18: arguments and return values *)
(** Encoding a value and decoding the slots with the same type gives the value. *)
Theorem C18_roundtrip : forall t v m cur m' cur' s,
  lengths_known t = true -> minv_ok m -> 0 <= cur <= ADDRS ->
  Abi.encode t v m cur = AOk (m', cur', s) ->
  exists c, denote t v = Some c /\ Abi.decode t m' (slot s 0) 0 = AOk (c, zlen s).
Proof.
  intros t v m cur m' cur' s HL Hm Hc H. destruct (encode_spec t v m cur m' cur' s H Hm Hc) as (_ & _ & _ & c & C).
  specialize (C (raw m') (fun a _ => eq_refl)). exists c. split; [exact (proj1 (layout_denote _) _ _ _ _ C HL)|].
  apply (proj1 (decode_layout m') _ _ _ _ C). intros i x Hi. unfold slot. rewrite !Z.add_0_l. rewrite Hi. reflexivity.
Qed.
Print Assumptions C18_roundtrip.
(** Encoding refuses exactly the values that are not of the type (or does not fit the memory). *)
Theorem C18_refused : forall t v m cur e,
  lengths_known t = true -> Abi.encode t v m cur = AErr e ->
  denote t v = None \/ exists x, e = AVm x.
Proof.
  intros t v m cur e HL H. destruct (encode_refuses t v m cur e H) as [K|[_ K]]; [right; exact K|left; exact (K HL)].
Qed.
Print Assumptions C18_refused.
Definition nested : abi := ATuple [AU32; AArray (AStruct [([120], AFelt); ([121], AArray ABool 2)]) 2; APointer AU32 (Some 1)].
Definition nested_value : input :=
  IList [INumber 70000; IList [IStruct [INumber (-3); IList [IBool true; INumber 0]]; IStruct [INumber 4; IList [INumber 1; IBool false]]];
         IList [INumber 4294967295]].
Example C18_example :
  exists m' s, Abi.encode nested nested_value (Mem [] [] []) 10 = AOk (m', 20, s) /\ zlen s = 4 /\ lengths_known nested = true /\
  denote nested nested_value =
    Some (VTuple [VU32 70000;
      VArray [VStruct [([120], VFelt 2147483644); ([121], VArray [VBool true; VBool false])];
              VStruct [([120], VFelt 4); ([121], VArray [VBool true; VBool false])]];
      VArray [VU32 4294967295]]).
Proof. eexists. eexists. split; [vm_compute; reflexivity|]. split; [reflexivity|]. split; [reflexivity|]. vm_compute. reflexivity. Qed.

(** What the called function finds: with the frame at [nf], its parameters stand just below
    the return slots, and decoding them yields the values given on the command line. *)
Theorem C18_call_frame : forall p ep args v slots nret cells,
  let n := zlen (flat_map pwords p) in
  let nf := n + cells + zlen slots + nret + 2 in
  Forall pdwf p -> 0 < n <= 134217728 -> wf (ep_pc ep) ->
  Forall (fun t => shallow t = true) (ep_params ep) -> forallb lengths_known (ep_params ep) = true ->
  0 <= nret -> all_cells (ep_params ep) args = Some cells -> nf <= 134217728 ->
  setup p ep args = AOk (v, slots, nret) ->
  v_st v = St (ep_pc ep) nf /\
  cells_at (raw (v_mem v)) (nf - 2 - nret - zlen slots) slots /\
  exists cs, denote_all (ep_params ep) args = Some cs /\ decode_all (ep_params ep) slots 0 (v_mem v) = AOk cs.
Proof.
  intros p ep args v slots nret cells n nf H1 H2 H3 H4 HL H5 H6 H7 H8.
  destruct (setup_spec p ep args v slots nret cells H1 H2 H3 H4 H5 H6 H7 H8) as (_ & A & _ & _ & _ & _ & _ & B & _ & _ & cs & C).
  split; [exact A|]. split. { replace (nf - 2 - nret - zlen slots) with (n + cells) by (unfold nf; lia). exact B. }
  exists cs. split.
  - exact (proj2 (proj2 (layout_denote _)) _ _ _ _ C HL).
  - exact (decode_all_parts (v_mem v) _ _ _ _ C []).
Qed.
Print Assumptions C18_call_frame.
(** What the caller gets back: if the finished run left the representation of [vals] in
    the return slots, [run_program] reports [vals]. *)
Theorem C18_returned_values : forall fuel sfuel max_steps p ep args v slots nret v' rvals rslots vals,
  setup p ep args = AOk (v, slots, nret) ->
  seg_loop fuel sfuel max_steps v = (v', LOk tt) ->
  wf (fp (v_st v')) -> nret <= ADDRS -> zlen rslots = nret ->
  cells_at (raw (v_mem v')) (fp (v_st v') - 2 - nret) rslots ->
  parts (raw (v_mem v')) (ep_returns ep) rvals rslots vals ->
  run_program fuel sfuel max_steps p ep args = AOk (vals, v', public_ranges (v_final v') (zlen slots) nret).
Proof.
  intros fuel sfuel max p ep args v slots nret v' rvals rslots vals H1 H2 H3 H4 H5 H6 H7. unfold run_program. rewrite H1. cbn [abind]. rewrite H2.
  pose proof (zlen_nonneg rslots). pose proof (return_frame_cells v' rslots 0 nret H6 H3 ltac:(lia) H4 H5) as R. rewrite Z.sub_0_r in R. rewrite R. cbn [abind skipn Z.to_nat].
  pose proof (decode_all_parts (v_mem v') _ _ _ _ H7 []) as D. cbn [app] in D. change (zlen (@nil Z)) with 0 in D. rewrite D. reflexivity.
Qed.
Print Assumptions C18_returned_values.
(** A program that returns its array argument. *)
Definition pass : list pdata := [PInstr (StoreAddFpImm (P - 4) 0 (P - 3)); PInstr Ret].
Definition pass_entry : entrypoint := Entry 0 [AArray AU32 2] [AArray AU32 2].
Example C18_run_example :
  match run_program 100 100 1000 pass pass_entry [IList [INumber 5; INumber 70000]] with
  | AOk (vals, v', r) => vals = [VArray [VU32 5; VU32 70000]] /\ fp (v_st v') = 10 /\ r_output r = (3, 4)
  | AErr _ => False
  end.
Proof. vm_compute. repeat split. Qed.
Example C18_frame_example :
  exists v slots, setup pass pass_entry [IList [INumber 5; INumber 70000]] = AOk (v, slots, 1) /\
  all_cells (ep_params pass_entry) [IList [INumber 5; INumber 70000]] = Some 4 /\ slots = [2] /\
  Forall pdwf pass /\ Forall (fun t => shallow t = true) (ep_params pass_entry) /\ forallb lengths_known (ep_params pass_entry) = true.
Proof.
  eexists. eexists. split; [vm_compute; reflexivity|]. split; [reflexivity|]. split; [reflexivity|]. split; [|split; [|reflexivity]].
  - repeat (apply Forall_cons; [cbn; unfold iwf; cbn; repeat (apply Forall_cons; [split; [intros H; discriminate H|reflexivity]|]); apply Forall_nil|]).
    apply Forall_nil.
  - apply Forall_cons; [reflexivity|apply Forall_nil].
Qed.

(** ** C19: nothing overlaps *)
(** When pointers occur only outside arrays, everything the caller puts in memory is there
    when the call starts: the program, the array contents, the argument slots, the return
    slots and the saved registers. *)
Theorem C19_no_overlap_partial : forall p ep args v slots nret cells,
  let n := zlen (flat_map pwords p) in
  let nf := n + cells + zlen slots + nret + 2 in
  Forall pdwf p -> 0 < n <= 134217728 -> wf (ep_pc ep) ->
  Forall (fun t => shallow t = true) (ep_params ep) ->
  0 <= nret -> all_cells (ep_params ep) args = Some cells -> nf <= 134217728 ->
  setup p ep args = AOk (v, slots, nret) ->
  fp (v_st v) = nf /\ 0 <= cells /\
  (forall a, a < n -> raw (v_mem v) a = raw (v_mem (load p)) a) /\
  (exists cs, parts (raw (v_mem v)) (ep_params ep) args slots cs) /\
  cells_at (raw (v_mem v)) (n + cells) slots /\
  raw (v_mem v) (nf - 2) = qofm nf /\ raw (v_mem v) (nf - 1) = qofm n.
Proof.
  intros p ep args v slots nret cells n nf H1 H2 H3 H4 H5 H6 H7 H8.
  destruct (setup_spec p ep args v slots nret cells H1 H2 H3 H4 H5 H6 H7 H8) as (_ & A & _ & B & _ & _ & C & D & E & F & G).
  rewrite A. cbn [fp]. auto 10.
Qed.
Print Assumptions C19_no_overlap_partial.
(** The space reserved for one argument is exactly the space its arrays take. *)
Theorem C19_reserved_space_partial : forall t v m cur m' cur' s n,
  shallow t = true -> minv_ok m -> 0 <= cur <= ADDRS ->
  Abi.encode t v m cur = AOk (m', cur', s) -> value_cells t v = Some n -> cur' - cur = n.
Proof.
  intros t v m cur m' cur' s n Hs Hm Hc H Hn. pose proof (shallow_cells t Hs v m cur m' cur' s n H Hm Hc Hn). lia.
Qed.
Print Assumptions C19_reserved_space_partial.
(** With a pointer inside an array the reservation is too small: the contents of the array
    [[ [1,2,3] ]] are overwritten by the argument slot and the saved registers. *)
Definition deep_entry : entrypoint := Entry 0 [AArray (APointer AFelt None) 1] [].
Definition deep_args : list input := [IList [IList [INumber 1; INumber 2; INumber 3]]].
Theorem C19_nested_pointer_refuted :
  exists v slots, setup pass deep_entry deep_args = AOk (v, slots, 0) /\
  all_cells (ep_params deep_entry) deep_args = Some 1 /\
  ~ exists cs, parts (raw (v_mem v)) (ep_params deep_entry) deep_args slots cs.
Proof.
  remember (setup pass deep_entry deep_args) as r eqn:Er. vm_compute in Er. subst r.
  eexists. eexists. split; [reflexivity|]. split; [reflexivity|]. intros [cs H].
  inversion H as [|? ? ? ? s ss c cs' Hv Hr Et Ev Es Ec]; subst. clear H.
  inversion Hr; subst. clear Hr. rewrite app_nil_r in Es.
  inversion Hv as [| | | |e k vs p cells ws Ek He Hc Ee Ei Ep Ew| | | | |]; subst. clear Hv. injection Ep as ->.
  inversion He as [|? ? ? s1 ss1 c1 cs1 Hv Hr E1 E2 E3 E4]; subst. clear He. inversion Hr; subst. clear Hr.
  inversion Hv as [| | | | | |e vs q cells ws He Hc' Ee Ei Eq Ew| | |]; subst. clear Hv.
  destruct Hc as (_ & _ & Hc). specialize (Hc 0 q eq_refl). vm_compute in Hc. injection Hc as <-.
  inversion He as [|? ? ? s1 ss1 c1 cs1 Hv Hr E1 E2 E3 E4]; subst. clear He. inversion Hv; subst. clear Hv.
  inversion Hr as [|? ? ? s2 ss2 c2 cs2 Hv Hr2 F1 F2 F3 F4]; subst. clear Hr. inversion Hv; subst. clear Hv.
  destruct Hc' as (_ & _ & Hc'). specialize (Hc' 1 2 eq_refl). vm_compute in Hc'. discriminate Hc'.
Qed.
Print Assumptions C19_nested_pointer_refuted.
(** A fixed-size array argument of the wrong length aborts instead of being refused. *)
Theorem C19_wrong_length_panics_refuted :
  setup pass pass_entry [IList [INumber 5]] = AErr APanic /\ denote_all (ep_params pass_entry) [IList [INumber 5]] = None.
Proof. split; reflexivity. Qed.
Print Assumptions C19_wrong_length_panics_refuted.

(** ** C20: public ranges *)
(** Without array data the published ranges are the cells of the program, of the argument
    slots and of the return slots. *)
Theorem C20_public_ranges_partial : forall p ep args v slots nret,
  let n := zlen (flat_map pwords p) in
  Forall pdwf p -> 0 < n <= 134217728 -> wf (ep_pc ep) ->
  Forall (fun t => shallow t = true) (ep_params ep) ->
  0 <= nret -> all_cells (ep_params ep) args = Some 0 -> n + zlen slots + nret + 2 <= 134217728 ->
  setup p ep args = AOk (v, slots, nret) ->
  let r := public_ranges (v_final v) (zlen slots) nret in
  r_program r = (0, n) /\
  fst (r_input r) = n /\ snd (r_input r) = n + zlen slots /\ cells_at (raw (v_mem v)) (fst (r_input r)) slots /\
  r_output r = (fp (v_st v) - 2 - nret, fp (v_st v) - 2).
Proof.
  intros p ep args v slots nret n H1 H2 H3 H4 H5 H6 H7 H8 r.
  destruct (setup_spec p ep args v slots nret 0 H1 H2 H3 H4 H5 H6 ltac:(fold n; lia) H8) as (_ & A & B & _ & _ & _ & _ & D & _).
  unfold r. rewrite A, B. fold n. cbn [public_ranges r_program r_input r_output fst snd fp].
  fold n in D. rewrite Z.add_0_r in D. split; [reflexivity|]. split; [reflexivity|]. split; [reflexivity|]. split; [exact D|]. f_equal; lia.
Qed.
Print Assumptions C20_public_ranges_partial.
Example C20_example :
  exists v, setup pass (Entry 0 [AFelt] [AFelt]) [INumber 7] = AOk (v, [7], 1) /\
  all_cells [AFelt] [INumber 7] = Some 0 /\ public_ranges (v_final v) 1 1 = Ranges (0, 2) (2, 3) (3, 4) /\ fp (v_st v) = 6.
Proof. eexists. split; [vm_compute; reflexivity|]. repeat split. Qed.
(** With an array argument the published input range holds array data, not the argument,
    and the published output range is not where the function returns its result. *)
Theorem C20_array_argument_refuted :
  match run_program 100 100 1000 pass pass_entry [IList [INumber 5; INumber 70000]] with
  | AOk (_, v', r) =>
    r_input r = (2, 3) /\ raw (v_mem v') 2 = qofm 5 (* the array; the argument slot is cell 6 *) /\
    raw (v_mem v') 6 = qofm 2 /\
    r_output r = (3, 4) /\ raw (v_mem v') 3 = qzero (* the result slot is cell 7 *) /\
    fp (v_st v') - 2 - 1 = 7 /\ raw (v_mem v') 7 = qofm 2
  | AErr _ => False
  end.
Proof. vm_compute. repeat split. Qed.
Print Assumptions C20_array_argument_refuted.
