(** Property C71: WASM functions are lowered to MIR functions that do the same. *)
From Coq Require Import ZArith Bool List Lia.
From Verif Require Import M31 Isa Mir MirSem Wasm WasmSpec WasmOps WasmFlow WasmFacts Pipe PipeSource MirPhi.
Import ListNotations.
Open Scope Z_scope.

(** ** C71: single operations *)
(** The code of an operation, on any values, in any environment that holds its operands and any
    memory: it computes what WebAssembly says (numbers modulo 2^32, signed comparisons in two's
    complement, words of a memory of bytes, calls), or fails where WebAssembly fails.  Operations
    are careful (see [WasmSpec]). *)
Theorem C71_operations : forall size params callee call T,
  size <= 2 ^ 28 ->
  (forall f zs m c, Forall num zs -> is_memory m -> holds size m c ->
    match callee f zs m with
    | ROk (rs, m') => Forall num rs /\ is_memory m' /\ exists c', call f (map VU32 zs) c = ROk (map VU32 rs, c') /\ holds size m' c'
    | RTrap => call f (map VU32 zs) c = RTrap
    | _ => True
    end) ->
  forall w ids zs n E c m is ts r, Forall num zs -> Forall (fun i => (i < n)%nat) ids -> map E ids = map (fun z => Some (VU32 z)) zs ->
  is_memory m -> holds size m c -> (forall off, w = WLoad off \/ w = WStore off -> 0 <= off) ->
  code params w (map Op ids) n = Some (is, ts, r) ->
  match operate size (arity params) callee true w zs m with
  | ROk (outs, m') => Forall dval_ok outs /\ is_memory m' /\ exists E' c',
      exec_list (cell_world call) T E c is = ROk (E', c') /\ holds size m' c' /\ leaves n E E' /\
      match outs with
      | [] => r = None
      | [v] => exists i, r = Some i /\ E' i = Some (mval v) /\ (n <= i < n + length ts)%nat
      | _ => False
      end
  | RTrap => exec_list (cell_world call) T E c is = RTrap
  | _ => True
  end.
Proof. exact code_runs. Qed.
Print Assumptions C71_operations.

(** ** C71: functions and modules *)
(** Whole functions, with any branches and loops: if the careful run of the DAG ends, the lowered
    function, called with the same arguments in a memory with the same words, ends with the same
    results and the same words; if the run of the DAG fails, so does the function.  Calls of other
    functions must do the same on both sides. *)
Theorem C71_functions_partial : forall size params callee call ptys rtys d f,
  size <= 2 ^ 28 ->
  (forall f zs m c, Forall num zs -> is_memory m -> holds size m c ->
    match callee f zs m with
    | ROk (rs, m') => Forall num rs /\ is_memory m' /\ exists c', call f (map VU32 zs) c = ROk (map VU32 rs, c') /\ holds size m' c'
    | RTrap => call f (map VU32 zs) c = RTrap
    | _ => True
    end) ->
  well_made d -> function_to_mir params ptys rtys d = Some f ->
  forall fuel args m c, length args = length ptys -> Forall num args -> is_memory m -> holds size m c ->
  match dcall size (fun g => option_map (@length wty) (params g)) callee (length rtys) true fuel d args m with
  | ROk (vs, m') => is_memory m' /\ Forall num vs /\ exists fuel' c',
      call_fn (cell_world call) f fuel' (map VU32 args) c = ROk (map VU32 vs, c') /\ holds size m' c'
  | RTrap => exists fuel', call_fn (cell_world call) f fuel' (map VU32 args) c = RTrap
  | _ => True
  end.
Proof. intros size params callee call ptys rtys d f Hs Hc Hw Hf. exact (lowered_runs params size callee call ptys rtys d f Hs Hc Hw Hf). Qed.
Print Assumptions C71_functions_partial.

(** Whole modules, with any calls, recursive ones included: [call] answers calls by running the
    lowered functions.  Partial, as above: only careful runs, and before the compiler's passes;
    the refutations below show that the full property does not hold. *)
Theorem C71_modules_partial : forall size M call compiled, size <= 2 ^ 28 ->
  (forall f g, M f = Some g -> well_made (w_dag g) /\ exists F, compiled f = Some F /\
    function_to_mir (fun h => option_map w_params (M h)) (w_params g) (w_results g) (w_dag g) = Some F) ->
  runs_as compiled call ->
  forall fuel f args m c, Forall num args -> is_memory m -> holds size m c ->
  match mrun size M true fuel f args m with
  | ROk (vs, m') => Forall num vs /\ is_memory m' /\ exists c', call f (map VU32 args) c = ROk (map VU32 vs, c') /\ holds size m' c'
  | RTrap => call f (map VU32 args) c = RTrap
  | _ => True
  end.
Proof. exact module_runs. Qed.
Print Assumptions C71_modules_partial.

(** ** C71: refutations *)
Definition zero : bytes := fun _ => 0.
Definition no_calls {A B C D : Type} : A -> B -> C -> res D := fun _ _ _ => RStuck.
(** What the function [d] returns, as a DAG (carefully or not) and as a MIR function. *)
Definition wasm_result (careful : bool) (results : nat) (d : dag) (args : list Z) : option (list Z) :=
  match dcall (2 ^ 16) (fun _ => None) no_calls results careful 1000 d args zero with ROk (v, _) => Some v | _ => None end.
Definition mir_result (f : option func) (args : list Z) : option (res (list val)) :=
  option_map (fun f => match call_fn (cell_world no_calls) f 1000 (map VU32 args) (fun _ => 0) with
    | ROk (v, _) => ROk v | RTrap => RTrap | RStuck => RStuck | RFuel => RFuel end) f.
Definition no_params : nat -> option (list wty) := fun _ => None.
Definition lowered (ptys : list wty) (d : dag) : option func := function_to_mir no_params ptys [I32] d.

(** let i = 0; do { j = i; i = i + 1 } while i < n; return j: *)
Definition do_while : dag :=
  Next OInputs [] [I32] (Next (OWasm (WConst 0)) [] [I32]
  (Loop [(0, 0); (1, 0)]%nat
    (Next OInputs [] [I32; I32] (Next (OWasm (WConst 1)) [] [I32] (Next (OWasm WAdd) [(0, 1); (1, 0)]%nat [I32]
    (Next (OWasm WLtU) [(2, 0); (0, 0)]%nat [I32] (Next (OBrIf (ToLoop 0)) [(0, 0); (2, 0); (3, 0)]%nat []
    (Next (OBr (ToLabel 7 1)) [(0, 1)%nat] [] Done))))))
  (Next (OLabel 7) [] [I32] (Next (OBr (ToLoop 0)) [(3, 0)%nat] [] Done)))).
(** The lowered function is right, but the compiler's passes make it wrong: the front end does
    not fill in the predecessors of blocks, so phi elimination does not see that the edge back
    to the loop is critical, and the copies for the next round are made before the loop is left. *)
Theorem C71_passes_refuted : exists d n f g, well_made d /\ lowered [I32] d = Some f /\ standard some_hashes f = Some g /\
  valid_hashes some_hashes /\ wasm_result true 1 d [n] = Some [2] /\ mir_result (Some f) [n] = Some (ROk [VU32 2]) /\
  mir_result (Some g) [n] = Some (ROk [VU32 3]).
Proof.
  exists do_while, 3. destruct (lowered [I32] do_while) as [f|] eqn:L; [|vm_compute in L; discriminate L].
  destruct (standard some_hashes f) as [g|] eqn:G; [|vm_compute in L; injection L as <-; vm_compute in G; discriminate G].
  exists f, g. split; [split; [reflexivity|repeat constructor; cbn; auto]|]. split; [reflexivity|]. split; [exact G|]. split; [exact some_hashes_valid|].
  split; [vm_compute; reflexivity|]. 
  assert (A : mir_result (lowered [I32] do_while) [3] = Some (ROk [VU32 2])) by (vm_compute; reflexivity).
  assert (B : mir_result (match lowered [I32] do_while with Some f => standard some_hashes f | None => None end) [3] = Some (ROk [VU32 3])) by (vm_compute; reflexivity).
  rewrite L in A, B. rewrite G in B. split; assumption.
Qed.
Print Assumptions C71_passes_refuted.

(** x != 0 ? 1 : 0, with the number as the condition: *)
Definition truth_of : dag :=
  Next OInputs [] [I32] (Next (OWasm (WConst 1)) [] [I32] (Next (OWasm (WConst 0)) [] [I32]
  (Next (OBrIf (ToLabel 0 0)) [(1, 0); (0, 0)]%nat [] (Next (OBr (ToLabel 0 0)) [(2, 0)%nat] []
  (Next (OLabel 0) [] [I32] (Next (OBr (ToLoop 0)) [(5, 0)%nat] [] Done)))))).
Theorem C71_conditions_refuted : exists d x, well_made d /\
  wasm_result false 1 d [x] = Some [1] /\ mir_result (lowered [I32] d) [x] = Some (ROk [VU32 0]).
Proof. exists truth_of, 65536. split; [split; [reflexivity|repeat constructor; cbn; auto]|]. split; vm_compute; reflexivity. Qed.
Print Assumptions C71_conditions_refuted.

(** A word is stored at address 0, and read again at address 2: *)
Definition unaligned : dag :=
  Next OInputs [] [I32] (Next (OWasm (WConst 0)) [] [I32] (Next (OWasm (WStore 0)) [(1, 0); (0, 0)]%nat []
  (Next (OWasm (WLoad 2)) [(1, 0)%nat] [I32] (Next (OBr (ToLoop 0)) [(3, 0)%nat] [] Done)))).
Theorem C71_unaligned_refuted : exists d x, well_made d /\
  wasm_result false 1 d [x] = Some [1] /\ mir_result (lowered [I32] d) [x] = Some (ROk [VU32 131072]).
Proof. exists unaligned, 65538. split; [split; [reflexivity|repeat constructor; cbn; auto]|]. split; vm_compute; reflexivity. Qed.
Print Assumptions C71_unaligned_refuted.

(** (x < y) + 1: the result of a comparison has one machine word and is read as two, which has
    no meaning. *)
Definition compare_and_add : dag :=
  Next OInputs [] [I32; I32] (Next (OWasm WLtU) [(0, 0); (0, 1)]%nat [I32] (Next (OWasm (WConst 1)) [] [I32]
  (Next (OWasm WAdd) [(1, 0); (2, 0)]%nat [I32] (Next (OBr (ToLoop 0)) [(3, 0)%nat] [] Done)))).
Theorem C71_comparisons_refuted : exists d x y, well_made d /\
  wasm_result false 1 d [x; y] = Some [2] /\ mir_result (lowered [I32; I32] d) [x; y] = Some RStuck.
Proof. exists compare_and_add, 1, 2. split; [split; [reflexivity|repeat constructor; cbn; auto]|]. split; vm_compute; reflexivity. Qed.
Print Assumptions C71_comparisons_refuted.

(** A conditional return hands over the condition as a second result. *)
Definition early_return : dag :=
  Next OInputs [] [I32] (Next (OWasm WEqz) [(0, 0)%nat] [I32] (Next (OWasm (WConst 7)) [] [I32]
  (Next (OBrIf (ToLoop 0)) [(2, 0); (1, 0)]%nat [] (Next (OBr (ToLoop 0)) [(0, 0)%nat] [] Done)))).
Theorem C71_conditional_return_refuted : exists d f, well_made d /\ lowered [I32] d = Some f /\
  wasm_result false 1 d [0] = Some [7] /\ mir_result (Some f) [0] = Some RStuck /\
  exists b, nth_error (f_blocks f) 1 = Some b /\ b_term b = TReturn [Op 2%nat; Op 1%nat] /\ length (f_rets f) = 1%nat.
Proof.
  exists early_return. destruct (lowered [I32] early_return) as [f|] eqn:L; [|vm_compute in L; discriminate L]. exists f.
  split; [split; [reflexivity|repeat constructor; cbn; auto]|]. split; [reflexivity|]. split; [vm_compute; reflexivity|].
  assert (A : mir_result (lowered [I32] early_return) [0] = Some RStuck) by (vm_compute; reflexivity). rewrite L in A. split; [exact A|].
  vm_compute in L. injection L as <-. eexists. split; [reflexivity|]. split; reflexivity.
Qed.
Print Assumptions C71_conditional_return_refuted.

(** A return inside a loop cannot be compiled. *)
Definition return_in_loop : dag :=
  Next OInputs [] [I32] (Loop [(0, 0)%nat]
    (Next OInputs [] [I32] (Next (OBr (ToLoop 1)) [(0, 0)%nat] [] Done)) Done).
Theorem C71_return_in_loop_refuted : exists d, well_made d /\ wasm_result true 1 d [5] = Some [5] /\ lowered [I32] d = None.
Proof. exists return_in_loop. split; [split; [reflexivity|constructor]|]. split; vm_compute; reflexivity. Qed.
Print Assumptions C71_return_in_loop_refuted.

(** *** Examples *)
(** Operations of a careful run: a signed comparison, and a store. *)
Example C71_signed_example : operate (2 ^ 16) (fun _ => None) no_calls true WLtS [2 ^ 32 - 1; 1] zero = ROk ([(1, true)], zero).
Proof. reflexivity. Qed.
Example C71_code_example : code (fun _ => None) WLtS [Op 0%nat; Op 1%nat] 2%nat =
  Some ([IBinary U32Add 2 (Op 0) (Lit (LInt (2 ^ 31))); IBinary U32Add 3 (Op 1) (Lit (LInt (2 ^ 31))); IBinary U32Less 4 (Op 2) (Op 3)],
        [TU32; TU32; TBool], Some 4%nat).
Proof. reflexivity. Qed.
Example C71_holds_example : holds (2 ^ 16) zero (fun _ => 0) /\ is_memory zero.
Proof. split; [intros k A B; cbv; repeat split; congruence|intros a; cbv; split; congruence]. Qed.
(** The loop above meets the hypotheses of [C71_functions_partial], and so does its careful run. *)
Example C71_functions_example : exists f, function_to_mir no_params [I32] [I32] do_while = Some f /\ well_made do_while /\
  exists fuel c, call_fn (cell_world no_calls) f fuel [VU32 3] (fun _ => 0) = ROk ([VU32 2], c).
Proof.
  assert (S : exists f, function_to_mir no_params [I32] [I32] do_while = Some f) by (destruct (function_to_mir no_params [I32] [I32] do_while) as [f|] eqn:L; [exists f; reflexivity|vm_compute in L; discriminate L]).
  destruct S as (f & L). exists f.
  assert (W : well_made do_while) by (split; [reflexivity|constructor; [intros []|constructor]]). split; [exact L|]. split; [exact W|]. 
  assert (R : forall r, dcall (2 ^ 16) (fun g => option_map (@length wty) (no_params g)) no_calls (length [I32]) true 1000 do_while [3] zero = r ->
    match r with ROk (vs, _) => exists fuel c, call_fn (cell_world no_calls) f fuel (map VU32 [3]) (fun _ => 0) = ROk (map VU32 vs, c) | _ => True end).
  { intros r D. destruct C71_holds_example as [H Z]. assert (N : Forall num [3]) by (constructor; [cbv; split; congruence|constructor]).
    pose proof (C71_functions_partial (2 ^ 16) no_params no_calls no_calls [I32] [I32] do_while f ltac:(lia) ltac:(intros; exact I) W L 1000%nat [3] zero (fun _ => 0) eq_refl N Z H) as R.
    rewrite D in R. destruct r as [[vs m']| | |]; try exact I. destruct R as (_ & _ & fl & c' & R & _). exists fl, c'. exact R. }
  exact (R (ROk ([2], zero)) ltac:(vm_compute; reflexivity)).
Qed.
(** A module of two functions: 2^31 + 1, and the first one called twice and added. *)
Definition a_number : dag :=
  Next OInputs [] [] (Next (OWasm (WConst (2 ^ 31 + 1))) [] [I32] (Next (OBr (ToLoop 0)) [(1, 0)%nat] [] Done)).
Definition twice : dag :=
  Next OInputs [] [] (Next (OWasm (WCall 0)) [] [I32] (Next (OWasm (WCall 0)) [] [I32]
  (Next (OWasm WAdd) [(1, 0); (2, 0)]%nat [I32] (Next (OBr (ToLoop 0)) [(3, 0)%nat] [] Done)))).
Definition two_functions (f : nat) : option wfun :=
  match f with 0%nat => Some (Wfun [] [I32] a_number) | 1%nat => Some (Wfun [] [I32] twice) | _ => None end.
Definition two_compiled (f : nat) : option func :=
  match two_functions f with
  | Some g => function_to_mir (fun h => option_map w_params (two_functions h)) (w_params g) (w_results g) (w_dag g)
  | None => None
  end.
Definition two_calls (f : nat) (args : list val) (c : cells) : res (list val * cells) :=
  match f, args with 0%nat, [] => ROk ([VU32 (2 ^ 31 + 1)], c) | 1%nat, [] => ROk ([VU32 2], c) | _, _ => RStuck end.
Example C71_modules_example : (forall f g, two_functions f = Some g -> well_made (w_dag g) /\ exists F, two_compiled f = Some F) /\
  runs_as two_compiled two_calls /\ mrun (2 ^ 16) two_functions true 10 1 [] zero = ROk ([2], zero).
Proof.
  split; [intros [|[|f]] g H; try discriminate H; injection H as <-; (split; [split; [reflexivity|constructor]|]); (destruct (two_compiled _) eqn:E; [eauto|vm_compute in E; discriminate E])|].
  split; [|vm_compute; reflexivity].
  intros [|[|f]] F fuel args c H; try discriminate H; vm_compute in H; injection H as <-;
    (destruct args as [|a args]; [destruct fuel as [|[|n]]; vm_compute; try exact I; reflexivity|exact I]).
Qed.
