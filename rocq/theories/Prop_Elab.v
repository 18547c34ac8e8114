(** Property C61: a file means what it says, from its text to the machine. *)
From Coq Require Import ZArith NArith Bool String List Lia Arith Permutation.
From Verif Require Import M31 Isa Mir MirSem Lex Parse Src SrcSem SrcCheck SrcFacts Syn Sema Elab Named ElabFile
  Cg CgLink CgRun CgCheck CgVm Vm Machine Lower LowerSpec Pipe PipeCheck PipeSource Prop_Pipe.
Import ListNotations.
Open Scope list_scope.
Open Scope nat_scope.

(** ** The program that is lowered means what the file says *)

(** The compiler reads a file with its index of names (Sema.v) and its types (Elab.v): the result
    [fs] is a program in which variables are numbers and literals have types.  For each function
    of the file and all arguments of its declared types, that program returns what the file
    says (Named.v): names stand for the innermost declaration, functions are called by name,
    constants are the values of their expressions, numbers take the type of what they meet; and
    it fails or does not end exactly if the file says so.  [fs] has the functions in the order of
    the file.  Missing: files with structs, tuples, arrays; constants inside functions whose values
    mention variables ([C61_local_constants_refuted] below); literals for which checker and
    lowering disagree (C59, C60).  Imports are in C68. *)
Definition written (m : module) : list fdef := flat_map (fun i => match i with IFn f => [f] | _ => [] end) m.
Lemma written_fns : forall m, written m = fns_of m.
Proof. induction m as [|[f|s|c|u] m IH]; cbn; [reflexivity|now f_equal|exact IH..]. Qed.
Theorem C61_reading_partial : forall m fs, elab m = Some fs -> module_ok fs = true ->
  forall F n k d ps args, nth_error (written m) k = Some d -> types_named (f_params d) = Some ps -> Forall2 fits ps args ->
  file_call m F n (f_name d) args = src_call fs F n k args.
Proof. intros m fs E Ok F n k d ps args H1 H2 H3. rewrite written_fns in H1. exact (proj1 (elab_means m fs E Ok F n k d args ps H1 H2 H3)). Qed.
Print Assumptions C61_reading_partial.
Lemma written_in m d : In (IFn d) m <-> In d (written m).
Proof.
  unfold written. rewrite in_flat_map. split.
  - intro I. exists (IFn d). split; [exact I|now left].
  - intros (i & I & X). destruct i; cbn in X; try contradiction. destruct X as [->|[]]. exact I.
Qed.
(** The result has the declared type. *)
Theorem C61_result_type_partial : forall m fs, elab m = Some fs -> module_ok fs = true ->
  forall F n d ps args o, In (IFn d) m -> types_named (f_params d) = Some ps -> Forall2 fits ps args ->
  file_call m F n (f_name d) args = ROk o -> fit_ret (type_named (f_ret d)) o.
Proof.
  intros m fs E Ok F n d ps args o I H2 H3 H. apply written_in in I. rewrite written_fns in I. apply In_nth_error in I as (k & I).
  destruct (elab_means m fs E Ok F n k d args ps I H2 H3) as (K1 & K2). apply K2. now rewrite <- K1.
Qed.
Print Assumptions C61_result_type_partial.

(** ** From the text to the machine *)

Definition function_names (m : module) : list string := map f_name (written m).
Definition result_cells (d : fdef) : Z := sizes (match type_named (f_ret d) with Some t => [t] | None => [] end).

Lemma types_named_scalar l ps : types_named l = Some ps -> forallb scalar ps = true.
Proof.
  revert ps. induction l as [|(x & t) l IH]; intros ps H; cbn in H; [injection H as <-; reflexivity|].
  destruct (type_named t) as [t'|] eqn:E; [|discriminate H]. destruct (types_named l) as [ts|]; [|discriminate H]. injection H as <-. cbn. rewrite IH by reflexivity.
  destruct t as [nm| | |]; try discriminate E. destruct nm; try discriminate E; injection E as <-; reflexivity.
Qed.
Lemma elab_function m fs k d ps : elab m = Some fs -> nth_error (written m) k = Some d -> types_named (f_params d) = Some ps ->
  exists f, nth_error fs k = Some f /\ s_params f = ps /\ ret_tys f = (match type_named (f_ret d) with Some t => [t] | None => [] end) /\
  nth_error (function_names m) k = Some (f_name d).
Proof.
  intros E Hk Ht. pose proof Hk as Hk'. rewrite written_fns in Hk'. destruct (elab_signature m fs E k d Hk') as (f & Ef & Hs). exists f. split; [exact Ef|].
  destruct (types_signature _ _ _ Hs) as (T1 & T2). rewrite T1 in Ht. injection Ht as <-. split; [reflexivity|]. split; [unfold ret_tys; now rewrite T2|].
  unfold function_names. now rewrite nth_error_map, Hk.
Qed.

(** The text is accepted and compiled without optimizations: each function of the file, called by its name on
    the machine, leaves exactly the result that the file assigns to the call. *)
Theorem C61_text_to_machine_partial : forall h text m fs ms ms' p FS lives,
  parse_file text = Some m -> elab m = Some fs -> map fst ms = function_names m ->
  built h (no_opt h) (no_opt_ready h) fs ms ms' p FS lives ->
  forall F n d ps args r, In (IFn d) m -> types_named (f_params d) = Some ps -> Forall2 fits ps args ->
    fits_memory p FS n (sizes ps + result_cells d)%Z ->
    file_call m F n (f_name d) args = ROk r ->
  exists N, forall fuel sfuel seg, N <= fuel -> N <= sfuel -> (1 <= seg)%Z ->
    run_program fuel sfuel seg p (f_name d) (flat_map vcells args) (result_cells d) = Some (map Some (flat_map vcells (outs r))).
Proof.
  intros h text m fs ms ms' p FS lives _ E Nm B F n d ps args r I Ht Hf Hm H. apply written_in in I. apply In_nth_error in I as (k & Hk).
  destruct (elab_function m fs k d ps E Hk Ht) as (f & Ef & <- & Er & En). unfold result_cells in *. rewrite <- Er in *.
  rewrite (C61_reading_partial m fs E (b_accepted _ _ _ _ _ _ _ _ _ B) F n k d _ args Hk Ht Hf) in H.
  apply (C53_no_opt_results_partial h fs ms ms' p FS lives B F n k (f_name d) f args r); try assumption.
  - rewrite <- nth_error_map, Nm. exact En.
  - exact (types_named_scalar _ _ Ht).
Qed.
Print Assumptions C61_text_to_machine_partial.
(** Where the file says that the call fails, the machine stops with an error. *)
Theorem C61_text_failures_partial : forall h text m fs ms ms' p FS lives,
  parse_file text = Some m -> elab m = Some fs -> map fst ms = function_names m ->
  built h (no_opt h) (no_opt_ready h) fs ms ms' p FS lives ->
  forall F n d ps args, In (IFn d) m -> types_named (f_params d) = Some ps -> Forall2 fits ps args ->
    fits_memory p FS n (sizes ps + result_cells d)%Z ->
    file_call m F n (f_name d) args = RTrap ->
  exists a N, find_entry (f_name d) (p_entries p) = Some a /\
    forall fuel sfuel seg, N <= fuel -> N <= sfuel -> (1 <= seg)%Z ->
    exists v e, run_from_entrypoint fuel sfuel seg (Vm.load (image p)) a (sizes ps + result_cells d + 2)%Z
                  (flat_map vcells args) (result_cells d) = (v, LErr e).
Proof.
  intros h text m fs ms ms' p FS lives _ E Nm B F n d ps args I Ht Hf Hm H. apply written_in in I. apply In_nth_error in I as (k & Hk).
  destruct (elab_function m fs k d ps E Hk Ht) as (f & Ef & <- & Er & En). unfold result_cells in *. rewrite <- Er in *.
  rewrite (C61_reading_partial m fs E (b_accepted _ _ _ _ _ _ _ _ _ B) F n k d _ args Hk Ht Hf) in H.
  apply (C53_no_opt_failures_partial h fs ms ms' p FS lives B F n k (f_name d) f args); try assumption.
  - rewrite <- nth_error_map, Nm. exact En.
  - exact (types_named_scalar _ _ Ht).
Qed.
Print Assumptions C61_text_failures_partial.
(** The same with all optimizations, for calls that do not fail. *)
Theorem C61_text_optimized_partial : forall h text m fs ms ms' p FS lives,
  parse_file text = Some m -> elab m = Some fs -> map fst ms = function_names m ->
  built h (standard h) (standard_ready h) fs ms ms' p FS lives ->
  forall F n d ps args r, In (IFn d) m -> types_named (f_params d) = Some ps -> Forall2 fits ps args ->
    fits_memory p FS n (sizes ps + result_cells d)%Z ->
    file_call m F n (f_name d) args = ROk r ->
  exists N, forall fuel sfuel seg, N <= fuel -> N <= sfuel -> (1 <= seg)%Z ->
    run_program fuel sfuel seg p (f_name d) (flat_map vcells args) (result_cells d) = Some (map Some (flat_map vcells (outs r))).
Proof.
  intros h text m fs ms ms' p FS lives _ E Nm B F n d ps args r I Ht Hf Hm H. apply written_in in I. apply In_nth_error in I as (k & Hk).
  destruct (elab_function m fs k d ps E Hk Ht) as (f & Ef & <- & Er & En). unfold result_cells in *. rewrite <- Er in *.
  rewrite (C61_reading_partial m fs E (b_accepted _ _ _ _ _ _ _ _ _ B) F n k d _ args Hk Ht Hf) in H.
  apply (C53_standard_results_partial h fs ms ms' p FS lives B F n k (f_name d) f args r); try assumption.
  - rewrite <- nth_error_map, Nm. exact En.
  - exact (types_named_scalar _ _ Ht).
Qed.
Print Assumptions C61_text_optimized_partial.

(** A file with constants at the top level and inside functions, recursion, a call of a later and of an earlier function, a loop, and names that
    are declared again in inner blocks: it meets all hypotheses, for both pipelines. *)
Open Scope string_scope.
Definition demo_text : string :=
"const LIMIT: u32 = 5;
const STEP = 1;
fn both(n: felt) -> u32 {
  let a = LIMIT;
  let s = sum_to(n);
  const TWICE: u32 = 2;
  if s == 12 { let a = fib(a); return a * TWICE; } else { sum_to(1); }
  return a;
}
fn fib(n: u32) -> u32 {
  if (n < 1) { return 0; }
  if n == 1 { return 1; }
  return fib(n - 1) + fib(n - 2);
}
const BAD = 2 * (STEP + 8);
fn sum_to(n: felt) -> felt {
  let s = 0;
  for (let i = 0; i != n + 1; i = i + STEP) {
    if (i == 3) { continue; }
    let n = s + i;
    s = n;
    { const STEP = BAD; let i = STEP; assert(n != i); }
  }
  return s;
}".
Definition demo_file : module := match parse_file demo_text with Some m => m | None => [] end.
Definition demo_read : list sfun := match elab demo_file with Some fs => fs | None => [] end.
Definition demo_names : list string := ["both"; "fib"; "sum_to"].
Example C61_case : parse_file demo_text = Some demo_file /\ elab demo_file = Some demo_read /\ function_names demo_file = demo_names /\
  map fst (name_all demo_names demo_read) = demo_names /\ module_ok demo_read = true /\
  (exists ms', built some_hashes (no_opt some_hashes) (no_opt_ready some_hashes) demo_read (name_all demo_names demo_read) ms' (prog_of ms') 64 (find_lives ms')) /\
  (exists ms', built some_hashes (standard some_hashes) (standard_ready some_hashes) demo_read (name_all demo_names demo_read) ms' (prog_of ms') 64 (find_lives ms')).
Proof.
  split; [vm_compute; reflexivity|]. split; [vm_compute; reflexivity|]. split; [vm_compute; reflexivity|]. split; [vm_compute; reflexivity|]. split; [vm_compute; reflexivity|]. split.
  - destruct (built_example (no_opt some_hashes) (no_opt_ready some_hashes) demo_read demo_names) as (ms' & _ & B); [vm_compute; reflexivity..|]. exists ms'. exact B.
  - destruct (built_example (standard some_hashes) (standard_ready some_hashes) demo_read demo_names) as (ms' & _ & B); [vm_compute; reflexivity..|]. exists ms'. exact B.
Qed.
(** What the file says. *)
Example C61_case_runs :
  file_call demo_file 60 10 "both" [VFelt 5] = ROk (Some (VU32 10)) /\
  file_call demo_file 60 10 "both" [VFelt 2] = ROk (Some (VU32 5)) /\
  file_call demo_file 60 10 "sum_to" [VFelt 6] = RTrap /\
  run_program 3000 3000 100 (prog_of (match optimize (standard some_hashes) (name_all demo_names demo_read) with Some x => x | None => [] end)) "both" [5%Z] 2 = Some [Some 10%Z; Some 0%Z].
Proof. split; [vm_compute; reflexivity|]. split; [vm_compute; reflexivity|]. split; vm_compute; reflexivity. Qed.

(** ** Constants that mention variables *)

(** The same claim without the restriction on constants inside functions is false: a constant is
    lowered again at each of its uses (lowering/expr.rs 188-212), so that it changes with the
    variables it mentions.  No check of the compiler rejects the program. *)
Definition open_text : string :=
"fn f() -> felt {
  let x = 1;
  const C = x;
  x = 2;
  return C;
}".
Definition open_file : module := match parse_file open_text with Some m => m | None => [] end.
Definition open_read : list sfun := match elab_with (fun _ => true) open_file with Some fs => fs | None => [] end.
Theorem C61_local_constants_refuted : ~ (forall m fs, elab_with (fun _ => true) m = Some fs -> module_ok fs = true ->
  forall F n k d ps args, nth_error (written m) k = Some d -> types_named (f_params d) = Some ps -> Forall2 fits ps args ->
  file_call m F n (f_name d) args = src_call fs F n k args).
Proof.
  intro H. assert (E : elab_with (fun _ => true) open_file = Some open_read) by (vm_compute; reflexivity).
  assert (Ok : module_ok open_read = true) by (vm_compute; reflexivity).
  assert (X : nth_error (written open_file) 0 = Some (match written open_file with d :: _ => d | [] => Fdef "" [] (TyTuple []) [] end)) by (vm_compute; reflexivity).
  specialize (H _ _ E Ok 20 5 0 _ [] [] X eq_refl (Forall2_nil _)). vm_compute in H. discriminate H.
Qed.
Print Assumptions C61_local_constants_refuted.
(** What the file says, what is lowered, and what the machine computes. *)
Example C61_local_constants_runs :
  parse_file open_text = Some open_file /\ elab open_file = None /\
  file_call open_file 20 5 "f" [] = ROk (Some (VFelt 1)) /\ src_call open_read 20 5 0 [] = ROk (Some (VFelt 2)) /\
  run_program 3000 3000 100 (prog_of (match optimize (standard some_hashes) (name_all ["f"] open_read) with Some x => x | None => [] end)) "f" [] 1 = Some [Some 2%Z].
Proof. split; [vm_compute; reflexivity|]. split; [vm_compute; reflexivity|]. split; [vm_compute; reflexivity|]. split; vm_compute; reflexivity. Qed.
