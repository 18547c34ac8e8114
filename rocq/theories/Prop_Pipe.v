(** Property C53: from source text meaning to machine behaviour. *)
From Coq Require Import ZArith Bool String List Permutation Arith Lia.
From Verif Require Import M31 Instr Isa Machine Vm Mir MirSem MirPhi MirLegalFacts Src SrcSem SrcCheck SrcFacts Lower LowerSpec LowerFun MirType
  Cg CgLink CgRun CgCheck CgVm CgWhole Prop_Source Prop_Lower Prop_Compile PipeLift Pipe PipeCheck PipeFacts PipeSource.
Import ListNotations.
Open Scope Z_scope.

(** ** C53: a compiled program does what its source says *)

(** [p] is what the compiler makes of the source module [fs]: [fs] passes the semantic checks
    and is lowered to [ms] (with any hash orders); [ms] goes through the pipeline [pl], which
    gives [ms']; code generation and linking make [p] of [ms'].

    The last five fields are the part that is missing from the full property.  They are
    decidable conditions on the compiler's intermediate results: no u32 is negated; used ids
    are defined after lowering (C51); the hypotheses of the pass theorems hold at each stage
    ([ready]); and in the generated code no value needed later is overwritten ([checked],
    C47). *)
Record built (h : hashes) (pl : func -> option func) (ready : list msig -> func -> bool)
    (fs : list sfun) (ms ms' : funcs) (p : program) (FS : Z) (lives : list (list (list nat))) : Prop := {
  b_accepted : module_ok fs = true;
  b_lowered : lowered fs ms;
  b_hashes : valid_hashes h;
  b_optimized : optimize pl ms = Some ms';
  b_compiled : compile ms' = COk p;
  b_no_neg : module_no_neg fs = true;
  b_clean : Forall (fun m => clean (snd m) = true) ms;
  b_ready : forallb (fun m => ready (sigs_of ms) (snd m)) ms = true;
  b_checked : checked ms' FS lives = true;
  b_frames : 0 < FS }.

Lemma types_of_omap : forall f vs, types_of f vs = omap (f_types f) vs.
Proof. intro f. induction vs as [|v vs IH]; cbn; [reflexivity|]. rewrite IH. reflexivity. Qed.
Lemma fits_typed : forall ts vs, forallb scalar ts = true -> Forall2 fits ts vs -> CgCheck.typed ts vs.
Proof.
  intros ts vs H F. induction F as [|t v ts vs X F IH]; [exact Logic.I|]. cbn [forallb] in H. apply andb_true_iff in H. destruct H as [H1 H2].
  cbn [CgCheck.typed]. split; [exact H1|]. split; [exact X | exact (IH H2)].
Qed.

(** What is common to both pipelines. *)
Lemma end_to_end : forall T h pl ready fs ms ms' p FS lives, built h pl ready fs ms ms' p FS lives ->
  (forall f g, ready (sigs_of ms) f = true -> pl f = Some g ->
     keeps T (sigs_of ms) f g /\ calls_fit (sigs_of ms) g = true /\ ids_below g /\ sig f = sig g /\ exists ps rs, sig f = (Some ps, Some rs)) ->
  forall F n k fn f args, nth_error fs k = Some f -> option_map fst (nth_error ms k) = Some fn ->
    forallb scalar (s_params f) = true -> Forall2 fits (s_params f) args ->
    fits_memory p FS n (sizes (s_params f) + sizes (ret_tys f)) ->
  match src_call fs F n k args with
  | ROk r => exists N, forall fuel sfuel seg, (N <= fuel)%nat -> (N <= sfuel)%nat -> 1 <= seg ->
      run_program fuel sfuel seg p fn (flat_map vcells args) (sizes (ret_tys f)) = Some (map Some (flat_map vcells (outs r)))
  | RTrap => T -> exists a N, find_entry fn (p_entries p) = Some a /\ forall fuel sfuel seg, (N <= fuel)%nat -> (N <= sfuel)%nat -> 1 <= seg ->
      exists v e, run_from_entrypoint fuel sfuel seg (Vm.load (image p)) a (sizes (s_params f) + sizes (ret_tys f) + 2) (flat_map vcells args) (sizes (ret_tys f)) = (v, LErr e)
  | _ => True
  end.
Proof.
  intros T h pl ready fs ms ms' p FS lives [B1 B2 B3 B4 B5 B6 B7 B8 B9 B10] PK F n k fn f args Kf Kn Sc Fa FM.
  destruct (lowered_sigs fs ms B1 B2 k f Kf) as ([fn0 m] & Km & Sm). cbn [snd] in Sm. rewrite Km in Kn. cbn in Kn. injection Kn as ->.
  rewrite forallb_forall in B8.
  pose proof (optimize_all pl (fun f g => keeps T (sigs_of ms) f g /\ calls_fit (sigs_of ms) g = true /\ ids_below g /\ sig f = sig g /\ exists ps rs, sig f = (Some ps, Some rs)) ms ms') as OA.
  assert (OA' : Forall2 (fun m m' => fst m = fst m' /\ keeps T (sigs_of ms) (snd m) (snd m') /\ calls_fit (sigs_of ms) (snd m') = true /\ ids_below (snd m') /\ sig (snd m) = sig (snd m') /\
                   exists ps rs, sig (snd m) = (Some ps, Some rs)) ms ms').
  { apply OA; [|exact B4]. intros f0 g0 Hf0 E0. apply in_map_iff in Hf0. destruct Hf0 as (m0 & <- & H0). exact (PK _ _ (B8 _ H0) E0). }
  clear OA PK B8.
  destruct (forall2_nth _ _ _ OA' k (fn, m) Km) as ([fn1 g] & Kg & Efn & _ & _ & _ & Sg & _). cbn [fst snd] in Efn, Sg. subst fn1.
  assert (MK : Forall2 (fun m m' => keeps T (sigs_of ms) (snd m) (snd m') /\ calls_fit (sigs_of ms) (snd m') = true) ms ms').
  { clear - OA'. revert OA'. generalize (sigs_of ms) as sg. intros sg OA'. induction OA' as [|a b l l' X OA IH]; constructor; [tauto | exact IH]. }
  assert (IB : forall fn f, In (fn, f) ms' -> ids_below f).
  { intros fn' f' Hin. clear - OA' Hin. revert OA'. generalize (sigs_of ms) as sg. intros sg OA'. induction OA' as [|a b l l' X OA IH]; [destruct Hin|]. destruct Hin as [->|Hin]; [|exact (IH Hin)]. apply X. }
  assert (SK : option_map fst (nth_error (sigs_of ms) k) = Some (Some (s_params f))).
  { unfold sigs_of. rewrite nth_error_map, Km. cbn [option_map snd]. rewrite Sm. reflexivity. }
  assert (TP : types_of g (f_params g) = Some (s_params f) /\ types_of g (f_rets g) = Some (ret_tys f)).
  { rewrite !types_of_omap. rewrite Sm in Sg. unfold sig in Sg. injection Sg as E1 E2. auto. }
  destruct TP as [TP TR].
  assert (CR : forall F' r, mir_call ms' F' n k args = r -> _) by
    (intros F' r Hr; exact (compiled_runs ms' p FS lives F' n k fn g (s_params f) (ret_tys f) args B5 IB B9 B10 Kg TP TR (fits_typed _ _ Sc Fa) FM)).
  pose proof (module_sim fs ms B1 B6 B2 B7 F n k (s_params f) (s_ret f) args) as MS.
  assert (SG : nth_error (map sig_of fs) k = Some (s_params f, s_ret f)) by (rewrite nth_error_map, Kf; reflexivity).
  specialize (MS SG Fa). destruct (src_call fs F n k args) as [r| | |]; try exact Logic.I.
  - destruct MS as (_ & M & HM). specialize (HM M (le_n M)).
    destruct (module_keeps T ms ms' MK M n k (s_params f) args (ROk (outs r, tt)) SK Fa Logic.I HM) as (M2 & HM2).
    destruct (CR M2 _ eq_refl) as (a & _ & R). rewrite (HM2 M2 (le_n M2)) in R. apply R.
  - intro HT. destruct MS as (M & HM). specialize (HM M (le_n M)).
    destruct (module_keeps T ms ms' MK M n k (s_params f) args RTrap SK Fa HT HM) as (M2 & HM2).
    destruct (CR M2 _ eq_refl) as (a & A & R). rewrite (HM2 M2 (le_n M2)) in R. destruct R as (N & R). exists a, N. auto.
Qed.

(** Without optimizations.  If the source function returns, running the program returns the
    cells of its result: for every segment length, given enough fuel. *)
Theorem C53_no_opt_results_partial : forall h fs ms ms' p FS lives,
  built h (no_opt h) (no_opt_ready h) fs ms ms' p FS lives ->
  forall F n k fn f args r, nth_error fs k = Some f -> option_map fst (nth_error ms k) = Some fn ->
    forallb scalar (s_params f) = true -> Forall2 fits (s_params f) args ->
    fits_memory p FS n (sizes (s_params f) + sizes (ret_tys f)) ->
    src_call fs F n k args = ROk r ->
  exists N, forall fuel sfuel seg, (N <= fuel)%nat -> (N <= sfuel)%nat -> 1 <= seg ->
    run_program fuel sfuel seg p fn (flat_map vcells args) (sizes (ret_tys f)) = Some (map Some (flat_map vcells (outs r))).
Proof.
  intros h fs ms ms' p FS lives B F n k fn f args r H1 H2 H3 H4 H5 H6.
  pose proof (end_to_end True h _ _ fs ms ms' p FS lives B) as K. specialize (K (fun f g => no_opt_keeps True h (sigs_of ms) f g (b_hashes _ _ _ _ _ _ _ _ _ B)) F n k fn f args H1 H2 H3 H4 H5).
  rewrite H6 in K. exact K.
Qed.
Print Assumptions C53_no_opt_results_partial.

(** If the source fails (an assertion, a division by zero, ...), the machine stops with an
    error. *)
Theorem C53_no_opt_failures_partial : forall h fs ms ms' p FS lives,
  built h (no_opt h) (no_opt_ready h) fs ms ms' p FS lives ->
  forall F n k fn f args, nth_error fs k = Some f -> option_map fst (nth_error ms k) = Some fn ->
    forallb scalar (s_params f) = true -> Forall2 fits (s_params f) args ->
    fits_memory p FS n (sizes (s_params f) + sizes (ret_tys f)) ->
    src_call fs F n k args = RTrap ->
  exists a N, find_entry fn (p_entries p) = Some a /\
    forall fuel sfuel seg, (N <= fuel)%nat -> (N <= sfuel)%nat -> 1 <= seg ->
    exists v e, run_from_entrypoint fuel sfuel seg (Vm.load (image p)) a (sizes (s_params f) + sizes (ret_tys f) + 2)
                  (flat_map vcells args) (sizes (ret_tys f)) = (v, LErr e).
Proof.
  intros h fs ms ms' p FS lives B F n k fn f args H1 H2 H3 H4 H5 H6.
  pose proof (end_to_end True h _ _ fs ms ms' p FS lives B) as K. specialize (K (fun f g => no_opt_keeps True h (sigs_of ms) f g (b_hashes _ _ _ _ _ _ _ _ _ B)) F n k fn f args H1 H2 H3 H4 H5).
  rewrite H6 in K. exact (K Logic.I).
Qed.
Print Assumptions C53_no_opt_failures_partial.

(** The default pipeline, with all optimizations.  Failures are left out: the pipeline removes
    them (C34). *)
Theorem C53_standard_results_partial : forall h fs ms ms' p FS lives,
  built h (standard h) (standard_ready h) fs ms ms' p FS lives ->
  forall F n k fn f args r, nth_error fs k = Some f -> option_map fst (nth_error ms k) = Some fn ->
    forallb scalar (s_params f) = true -> Forall2 fits (s_params f) args ->
    fits_memory p FS n (sizes (s_params f) + sizes (ret_tys f)) ->
    src_call fs F n k args = ROk r ->
  exists N, forall fuel sfuel seg, (N <= fuel)%nat -> (N <= sfuel)%nat -> 1 <= seg ->
    run_program fuel sfuel seg p fn (flat_map vcells args) (sizes (ret_tys f)) = Some (map Some (flat_map vcells (outs r))).
Proof.
  intros h fs ms ms' p FS lives B F n k fn f args r H1 H2 H3 H4 H5 H6.
  pose proof (end_to_end False h _ _ fs ms ms' p FS lives B) as K. specialize (K (fun f g => standard_keeps h (sigs_of ms) f g (b_hashes _ _ _ _ _ _ _ _ _ B)) F n k fn f args H1 H2 H3 H4 H5).
  rewrite H6 in K. exact K.
Qed.
Print Assumptions C53_standard_results_partial.

(** The hypotheses hold of a module with a recursive function and one with nested control
    flow, for both pipelines. *)
Definition name_all (ns : list string) (fs : list sfun) : funcs := combine ns (map snd (lower_all fs)).
Definition demo_src : list sfun := [fib; sum_to].
Definition demo_mir : funcs := name_all ["fib"; "sum_to"]%string demo_src.
Definition demo_no_opt : funcs := match optimize (no_opt some_hashes) demo_mir with Some m => m | None => [] end.
Definition demo_standard : funcs := match optimize (standard some_hashes) demo_mir with Some m => m | None => [] end.
Definition prog_of (ms : funcs) : program := match compile ms with COk p => p | _ => Prog [] [] [] end.
Lemma built_example : forall pl ready fs ns,
  module_ok fs && module_no_neg fs && forallb (fun m => clean (snd m)) (name_all ns fs) &&
  forallb (fun f => match lower_fun (fun l => l) (map sig_of fs) f with Some _ => true | None => false end) fs &&
  Nat.eqb (length ns) (length fs) && forallb (fun m => ready (sigs_of (name_all ns fs)) (snd m)) (name_all ns fs) = true ->
  match optimize pl (name_all ns fs) with
  | Some ms' => match compile ms' with COk _ => checked ms' 64 (find_lives ms') | _ => false end
  | None => false
  end = true ->
  exists ms', optimize pl (name_all ns fs) = Some ms' /\
    built some_hashes pl ready fs (name_all ns fs) ms' (prog_of ms') 64 (find_lives ms').
Proof.
  intros pl ready fs ns H C. rewrite !andb_true_iff in H. destruct H as (((((H1 & H2) & H3) & H4) & H5) & H6).
  destruct (optimize pl (name_all ns fs)) as [ms'|] eqn:E; [|discriminate]. exists ms'. split; [reflexivity|].
  destruct (compile ms') as [p| |] eqn:Ec; try discriminate.
  constructor; auto.
  - apply Nat.eqb_eq in H5. unfold lowered, name_all, lower_all. rewrite map_map. rewrite forallb_forall in H4. clear - H4 H5. revert ns H5.
    assert (K : forall f, In f fs -> exists g, lower_fun (fun l => l) (map sig_of fs) f = Some g).
    { intros f Hf. specialize (H4 f Hf). destruct (lower_fun _ _ f); [eauto | discriminate]. }
    clear H4. revert K. generalize (map sig_of fs) as sg. intros sg. induction fs as [|f fs IH]; intros K [|n ns] L; try discriminate; [constructor|].
    cbn [map combine]. constructor.
    + exists (fun l => l). split; [intro; apply Permutation_refl|]. destruct (K f (or_introl eq_refl)) as (g & Eg). rewrite Eg. reflexivity.
    + apply IH; [intros x Hx; apply K; now right | cbn in L; lia].
  - exact some_hashes_valid.
  - unfold prog_of. rewrite Ec. reflexivity.
  - apply Forall_forall. rewrite forallb_forall in H3. exact H3.
  - lia.
Qed.
Example C53_case_no_opt : exists ms', optimize (no_opt some_hashes) demo_mir = Some ms' /\
  built some_hashes (no_opt some_hashes) (no_opt_ready some_hashes) demo_src demo_mir ms' (prog_of ms') 64 (find_lives ms').
Proof. apply built_example; vm_compute; reflexivity. Qed.
Example C53_case_standard : exists ms', optimize (standard some_hashes) demo_mir = Some ms' /\
  built some_hashes (standard some_hashes) (standard_ready some_hashes) demo_src demo_mir ms' (prog_of ms') 64 (find_lives ms').
Proof. apply built_example; vm_compute; reflexivity. Qed.
(** Source and machine on some inputs: fib(6) = 8; sum_to(5) = 1+2+4+5; sum_to(4) fails. *)
Example C53_case_runs :
  src_call demo_src 50 10 0 [VU32 6] = ROk (Some (VU32 8)) /\
  src_call demo_src 50 10 1 [VFelt 5] = ROk (Some (VFelt 12)) /\ src_call demo_src 50 10 1 [VFelt 4] = RTrap /\
  run_program 3000 3000 100 (prog_of demo_no_opt) "fib" [6; 0] 2 = Some [Some 8; Some 0] /\
  run_program 3000 3000 100 (prog_of demo_standard) "fib" [6; 0] 2 = Some [Some 8; Some 0] /\
  run_program 3000 3000 100 (prog_of demo_standard) "sum_to" [5] 1 = Some [Some 12] /\
  run_program 3000 3000 100 (prog_of demo_standard) "sum_to" [4] 1 = None.
Proof. split; [vm_compute; reflexivity|]. split; [vm_compute; reflexivity|]. split; [vm_compute; reflexivity|].
  split; [vm_compute; reflexivity|]. split; [vm_compute; reflexivity|]. split; vm_compute; reflexivity. Qed.

(** ** Where the conditions fail, programs are miscompiled. *)

(** [fn is_zero(x: u32) -> felt { if x == 0 { return 1; } return 0; }] *)
Definition is_zero_src : sfun :=
  Sfun (fun _ => TU32) [TU32] (Some TFelt)
    (seqs [SIf1 (EBin SEq (EVar 0) (ELit 0 TU32)) (seqs [SReturn (Some (ELit 1 TFelt))]); SReturn (Some (ELit 0 TFelt))]).
(** With the default pipeline, [is_zero(65536)] is 1 (C32). *)
Theorem C53_standard_refuted : exists fs ms ms' f p, module_ok fs = true /\ lowered fs ms /\
  optimize (standard some_hashes) ms = Some ms' /\ compile ms' = COk p /\ nth_error fs 0 = Some f /\
  src_call fs 20 1 0 [VU32 65536] = ROk (Some (VFelt 0)) /\
  run_program 100 100 100 p "is_zero" (flat_map vcells [VU32 65536]) 1 = Some [Some 1].
Proof.
  exists [is_zero_src], (name_all ["is_zero"%string] [is_zero_src]),
    (match optimize (standard some_hashes) (name_all ["is_zero"%string] [is_zero_src]) with Some m => m | None => [] end), is_zero_src,
    (prog_of (match optimize (standard some_hashes) (name_all ["is_zero"%string] [is_zero_src]) with Some m => m | None => [] end)).
  split; [reflexivity|]. split.
  - repeat constructor. exists (fun l => l). split; [intros; apply Permutation_refl | vm_compute; reflexivity].
  - split; [vm_compute; reflexivity|]. split; [vm_compute; reflexivity|]. split; [reflexivity|]. split; vm_compute; reflexivity.
Qed.
Print Assumptions C53_standard_refuted.

(** A loop that computes Fibonacci numbers, with a [continue]:
    [fn f(n: felt) -> felt { let a = 0; let b = 1; let i = 0; let c = 0;
     while i != n { let t = b + a; a = b; b = t; i = i + 1; if i == 3 { continue; } c = c + 1; }
     return a + c; }] *)
Definition fib_loop : sfun :=
  Sfun (fun _ => TFelt) [TFelt] (Some TFelt)
    (seqs [SLet 1 (ELit 0 TFelt); SLet 2 (ELit 1 TFelt); SLet 3 (ELit 0 TFelt); SLet 4 (ELit 0 TFelt);
           SWhile (EBin SNeq (EVar 3) (EVar 0))
             (seqs [SLet 5 (EBin SAdd (EVar 2) (EVar 1)); SAssign 1 (EVar 2); SAssign 2 (EVar 5);
                    SAssign 3 (EBin SAdd (EVar 3) (ELit 1 TFelt));
                    SIf1 (EBin SEq (EVar 3) (ELit 3 TFelt)) (seqs [SContinue]);
                    SAssign 4 (EBin SAdd (EVar 4) (ELit 1 TFelt))]);
           SReturn (Some (EBin SAdd (EVar 1) (EVar 4)))]).
(** Both pipelines make 10 of [f(5) = 9]: on the [continue] edge [c] is copied to itself, and
    phi elimination leaves the copies in the given order, [b = t] before [a = b] (C38). *)
Theorem C53_no_opt_refuted : exists fs ms ms' f p, module_ok fs = true /\ lowered fs ms /\ Forall (fun m => clean (snd m) = true) ms /\
  optimize (no_opt some_hashes) ms = Some ms' /\ compile ms' = COk p /\ checked ms' 64 (find_lives ms') = true /\ nth_error fs 0 = Some f /\
  src_call fs 30 1 0 [VFelt 5] = ROk (Some (VFelt 9)) /\
  run_program 300 300 100 p "f" (flat_map vcells [VFelt 5]) 1 = Some [Some 10].
Proof.
  exists [fib_loop], (name_all ["f"%string] [fib_loop]),
    (match optimize (no_opt some_hashes) (name_all ["f"%string] [fib_loop]) with Some m => m | None => [] end), fib_loop,
    (prog_of (match optimize (no_opt some_hashes) (name_all ["f"%string] [fib_loop]) with Some m => m | None => [] end)).
  split; [reflexivity|]. split.
  { repeat constructor. exists (fun l => l). split; [intros; apply Permutation_refl | vm_compute; reflexivity]. }
  split; [repeat constructor; vm_compute; reflexivity|].
  split; [vm_compute; reflexivity|]. split; [vm_compute; reflexivity|]. split; [vm_compute; reflexivity|]. split; [reflexivity|]. split; vm_compute; reflexivity.
Qed.
Print Assumptions C53_no_opt_refuted.

(** A loop that swaps two variables is accepted, but does not compile: the cycle of copies
    is broken with an id that gets no type.
    [while i != n { let t = a; a = b; b = t; i = i + 1; }] *)
Definition swap_loop : sfun :=
  Sfun (fun _ => TFelt) [TFelt] (Some TFelt)
    (seqs [SLet 1 (ELit 0 TFelt); SLet 2 (ELit 1 TFelt); SLet 3 (ELit 0 TFelt);
           SWhile (EBin SNeq (EVar 3) (EVar 0))
             (seqs [SLet 4 (EVar 1); SAssign 1 (EVar 2); SAssign 2 (EVar 4); SAssign 3 (EBin SAdd (EVar 3) (ELit 1 TFelt))]);
           SReturn (Some (EVar 1))]).
Theorem C53_swap_refuted : exists fs ms ms', module_ok fs = true /\ lowered fs ms /\
  Forall (fun m => clean (snd m) = true) ms /\ optimize (no_opt some_hashes) ms = Some ms' /\ forall p, compile ms' <> COk p.
Proof.
  exists [swap_loop], (name_all ["f"%string] [swap_loop]),
    (match optimize (no_opt some_hashes) (name_all ["f"%string] [swap_loop]) with Some m => m | None => [] end).
  split; [reflexivity|]. split.
  { repeat constructor. exists (fun l => l). split; [intros; apply Permutation_refl | vm_compute; reflexivity]. }
  split; [repeat constructor; vm_compute; reflexivity|].
  split; [vm_compute; reflexivity|]. intros p H. vm_compute in H. discriminate H.
Qed.
Print Assumptions C53_swap_refuted.
