(** Property C68: a project of several files means what its files say. *)
From Coq Require Import ZArith NArith Bool String List Lia Arith Permutation.
From Verif Require Import M31 Isa Mir MirSem Lex Parse Src SrcSem SrcCheck SrcFacts Syn Sema Imports ImportsSpec ImportsCrate Prop_Imports
  Elab Named NamedCrate ElabFile ElabCrate ElabCrateFacts
  Cg CgLink CgRun CgCheck CgVm Vm Machine Lower LowerSpec Pipe PipeCheck PipeSource Prop_Pipe Prop_Elab.
Import ListNotations.
Open Scope list_scope.
Open Scope nat_scope.

(** ** The program that is lowered means what the project says *)

(** What the names of a project stand for can be known if no module imports itself through others. *)
Theorem C68_meanings : forall c, NoDup (map fst c) -> (forall a m, In (a, m) c -> names_once m) ->
  detect_import_cycle (import_graph c) = Done None -> exists means, knows c means.
Proof.
  intros c ND N1 D. destruct (C63_imports_first c c (Permutation_refl _) ND D) as (t & _ & _ & First & Ct).
  exists (follow c (length t)). exact (follow_knows c t ND N1 First Ct).
Qed.
Print Assumptions C68_meanings.

Lemma meant (c order : crate) a x b d : Permutation order c -> stands_for c a x b (IFn d) -> exists k, nth_error (all_functions order) k = Some (b, d).
Proof.
  intros P St. apply stands_written in St as (_ & m & Im & Id). apply In_nth_error, all_functions_in. exists m. split; [|exact Id].
  eapply Permutation_in; [apply Permutation_sym, P|exact Im].
Qed.

(** The compiler reads all the modules of a project, in the order [order] of a hash map, into one
    program [fs] of functions with numbers.  A call of [x] in module [a] runs the function that
    [x] stands for there, whichever module it is written in, and returns what the files say
    (NamedCrate.v): each function runs with the names of its own module, which may mean something
    else in other modules.  Missing, as for C61: structs, tuples, arrays, constants inside
    functions that mention variables; imported constants. *)
Theorem C68_reading_partial : forall c order fs means, Permutation order c -> NoDup (map fst c) -> knows c means ->
  elab_crate c order = Some fs -> module_ok fs = true ->
  forall a x b d, stands_for c a x b (IFn d) -> exists k, nth_error (Imports.lowered order) k = Some (Some (b, d)) /\
  forall F n ps args, types_named (f_params d) = Some ps -> Forall2 fits ps args ->
    project_call c means F n a x args = src_call fs F n k args.
Proof.
  intros c order fs means P ND Kn El Ok a x b d St. destruct (meant c order a x b d P St) as (k & Hk). exists k.
  destruct (crate_read c order fs P ND El) as (_ & _ & _ & _ & _ & Lo & _). rewrite Lo, nth_error_map, Hk. split; [reflexivity|].
  intros F n ps args Ht Hf. apply (crate_means c order fs means P ND El Kn Ok F n k b d ps args a x Hk Ht Hf). now apply Kn.
Qed.
Print Assumptions C68_reading_partial.
(** The result has the declared type. *)
Theorem C68_result_type_partial : forall c order fs means, Permutation order c -> NoDup (map fst c) -> knows c means ->
  elab_crate c order = Some fs -> module_ok fs = true ->
  forall a x b d F n ps args o, stands_for c a x b (IFn d) -> types_named (f_params d) = Some ps -> Forall2 fits ps args ->
    project_call c means F n a x args = ROk o -> fit_ret (type_named (f_ret d)) o.
Proof.
  intros c order fs means P ND Kn El Ok a x b d F n ps args o St Ht Hf H. destruct (meant c order a x b d P St) as (k & Hk).
  destruct (crate_means c order fs means P ND El Kn Ok F n k b d ps args a x Hk Ht Hf (proj2 (Kn _ _ _ _) St)) as (E & R). apply R. now rewrite <- E.
Qed.
Print Assumptions C68_result_type_partial.
(** The order of the hash map does not matter: a function of the project does the same in the programs
    that are lowered for two orders. *)
Theorem C68_order_independent_partial : forall c order order' fs fs', NoDup (map fst c) ->
  detect_import_cycle (import_graph c) = Done None -> Permutation order c -> Permutation order' c ->
  elab_crate c order = Some fs -> elab_crate c order' = Some fs' -> module_ok fs = true -> module_ok fs' = true ->
  forall k k' b d, nth_error (Imports.lowered order) k = Some (Some (b, d)) -> nth_error (Imports.lowered order') k' = Some (Some (b, d)) ->
  forall F n ps args, types_named (f_params d) = Some ps -> Forall2 fits ps args -> src_call fs F n k args = src_call fs' F n k' args.
Proof.
  intros c order order' fs fs' ND Cy P P' El El' Ok Ok' k k' b d Hk Hk' F n ps args Ht Hf.
  destruct (crate_read c order fs P ND El) as (_ & _ & _ & N1 & _ & Lo & _). destruct (crate_read c order' fs' P' ND El') as (_ & _ & _ & _ & _ & Lo' & _).
  destruct (C68_meanings c ND N1 Cy) as (means & Kn).
  rewrite Lo, nth_error_map in Hk. destruct (nth_error (all_functions order) k) as [q|] eqn:E; [|discriminate Hk]. injection Hk as ->.
  rewrite Lo', nth_error_map in Hk'. destruct (nth_error (all_functions order') k') as [q|] eqn:E'; [|discriminate Hk']. injection Hk' as ->.
  assert (M : means b (f_name d) = Some (b, d)).
  { apply Kn. pose proof (nth_error_In _ _ E) as I. apply all_functions_in in I as (m & Im & Id). eapply sf_item; [exact (Permutation_in _ P Im)|exact Id|discriminate|now left]. }
  rewrite <- (proj1 (crate_means c order fs means P ND El Kn Ok F n k b d ps args b (f_name d) E Ht Hf M)).
  exact (proj1 (crate_means c order' fs' means P' ND El' Kn Ok' F n k' b d ps args b (f_name d) E' Ht Hf M)).
Qed.
Print Assumptions C68_order_independent_partial.

(** ** From the texts to the machine *)

(** A project is given as the texts of its modules. *)
Definition parsed (ts : list (string * string)) (c : project) : Prop :=
  Forall2 (fun t p => fst t = fst p /\ parse_file (snd t) = Some (snd p)) ts c.

Lemma crate_function (c order : crate) fs k b d ps : Permutation order c -> NoDup (map fst c) -> elab_crate c order = Some fs ->
  nth_error (all_functions order) k = Some (b, d) -> types_named (f_params d) = Some ps ->
  exists f, nth_error fs k = Some f /\ s_params f = ps /\ ret_tys f = (match type_named (f_ret d) with Some t => [t] | None => [] end) /\
  nth_error (lowered_names order) k = Some (f_name d).
Proof.
  intros P ND El Hk Ht. destruct (crate_signature c order fs P ND El k b d Hk) as (f & Ef & Hs). exists f. split; [exact Ef|].
  destruct (types_signature _ _ _ Hs) as (T1 & T2). rewrite T1 in Ht. injection Ht as <-. split; [reflexivity|]. split; [unfold ret_tys; now rewrite T2|].
  destruct (crate_read c order fs P ND El) as (_ & _ & _ & _ & _ & _ & Ln & _). now rewrite Ln, nth_error_map, Hk.
Qed.

(** The texts are accepted and compiled without optimizations: a function of any module, called by its name
    on the machine, leaves exactly the result that the project assigns to the call.  Compiled projects have no
    two functions of one name ([C68_same_name_rejected]). *)
Theorem C68_texts_to_machine_partial : forall h ts c order fs means ms ms' p FS lives,
  parsed ts c -> NoDup (map fst ts) -> Permutation order c -> knows c means -> elab_crate c order = Some fs -> map fst ms = lowered_names order ->
  built h (no_opt h) (no_opt_ready h) fs ms ms' p FS lives ->
  forall F n a x b d ps args r, stands_for c a x b (IFn d) -> types_named (f_params d) = Some ps -> Forall2 fits ps args ->
    fits_memory p FS n (sizes ps + result_cells d)%Z ->
    project_call c means F n a x args = ROk r ->
  exists N, forall fuel sfuel seg, N <= fuel -> N <= sfuel -> (1 <= seg)%Z ->
    run_program fuel sfuel seg p x (flat_map vcells args) (result_cells d) = Some (map Some (flat_map vcells (outs r))).
Proof.
  intros h ts c order fs means ms ms' p FS lives Pa NDt P Kn El Nm B F n a x b d ps args r St Ht Hf Hm H.
  assert (ND : NoDup (map fst c)). { replace (map fst c) with (map fst ts); [exact NDt|]. clear - Pa. induction Pa as [|? ? ? ? (E & _) _ IH]; cbn; congruence. }
  destruct (meant c order a x b d P St) as (k & Hk). destruct (crate_function c order fs k b d ps P ND El Hk Ht) as (f & Ef & <- & Er & En). unfold result_cells in *. rewrite <- Er in *.
  rewrite (proj1 (crate_means c order fs means P ND El Kn (b_accepted _ _ _ _ _ _ _ _ _ B) F n k b d _ args a x Hk Ht Hf (proj2 (Kn _ _ _ _) St))) in H.
  rewrite (proj1 (stands_written _ _ _ _ _ St)).
  apply (C53_no_opt_results_partial h fs ms ms' p FS lives B F n k (f_name d) f args r); try assumption.
  - rewrite <- nth_error_map, Nm. exact En.
  - exact (types_named_scalar _ _ Ht).
Qed.
Print Assumptions C68_texts_to_machine_partial.
(** Where the project says that the call fails, the machine stops with an error. *)
Theorem C68_texts_failures_partial : forall h ts c order fs means ms ms' p FS lives,
  parsed ts c -> NoDup (map fst ts) -> Permutation order c -> knows c means -> elab_crate c order = Some fs -> map fst ms = lowered_names order ->
  built h (no_opt h) (no_opt_ready h) fs ms ms' p FS lives ->
  forall F n a x b d ps args, stands_for c a x b (IFn d) -> types_named (f_params d) = Some ps -> Forall2 fits ps args ->
    fits_memory p FS n (sizes ps + result_cells d)%Z ->
    project_call c means F n a x args = RTrap ->
  exists e N, find_entry x (p_entries p) = Some e /\
    forall fuel sfuel seg, N <= fuel -> N <= sfuel -> (1 <= seg)%Z ->
    exists v err, run_from_entrypoint fuel sfuel seg (Vm.load (image p)) e (sizes ps + result_cells d + 2)%Z
                  (flat_map vcells args) (result_cells d) = (v, LErr err).
Proof.
  intros h ts c order fs means ms ms' p FS lives Pa NDt P Kn El Nm B F n a x b d ps args St Ht Hf Hm H.
  assert (ND : NoDup (map fst c)). { replace (map fst c) with (map fst ts); [exact NDt|]. clear - Pa. induction Pa as [|? ? ? ? (E & _) _ IH]; cbn; congruence. }
  destruct (meant c order a x b d P St) as (k & Hk). destruct (crate_function c order fs k b d ps P ND El Hk Ht) as (f & Ef & <- & Er & En). unfold result_cells in *. rewrite <- Er in *.
  rewrite (proj1 (crate_means c order fs means P ND El Kn (b_accepted _ _ _ _ _ _ _ _ _ B) F n k b d _ args a x Hk Ht Hf (proj2 (Kn _ _ _ _) St))) in H.
  rewrite (proj1 (stands_written _ _ _ _ _ St)).
  apply (C53_no_opt_failures_partial h fs ms ms' p FS lives B F n k (f_name d) f args); try assumption.
  - rewrite <- nth_error_map, Nm. exact En.
  - exact (types_named_scalar _ _ Ht).
Qed.
Print Assumptions C68_texts_failures_partial.
(** The same with all optimizations, for calls that do not fail. *)
Theorem C68_texts_optimized_partial : forall h ts c order fs means ms ms' p FS lives,
  parsed ts c -> NoDup (map fst ts) -> Permutation order c -> knows c means -> elab_crate c order = Some fs -> map fst ms = lowered_names order ->
  built h (standard h) (standard_ready h) fs ms ms' p FS lives ->
  forall F n a x b d ps args r, stands_for c a x b (IFn d) -> types_named (f_params d) = Some ps -> Forall2 fits ps args ->
    fits_memory p FS n (sizes ps + result_cells d)%Z ->
    project_call c means F n a x args = ROk r ->
  exists N, forall fuel sfuel seg, N <= fuel -> N <= sfuel -> (1 <= seg)%Z ->
    run_program fuel sfuel seg p x (flat_map vcells args) (result_cells d) = Some (map Some (flat_map vcells (outs r))).
Proof.
  intros h ts c order fs means ms ms' p FS lives Pa NDt P Kn El Nm B F n a x b d ps args r St Ht Hf Hm H.
  assert (ND : NoDup (map fst c)). { replace (map fst c) with (map fst ts); [exact NDt|]. clear - Pa. induction Pa as [|? ? ? ? (E & _) _ IH]; cbn; congruence. }
  destruct (meant c order a x b d P St) as (k & Hk). destruct (crate_function c order fs k b d ps P ND El Hk Ht) as (f & Ef & <- & Er & En). unfold result_cells in *. rewrite <- Er in *.
  rewrite (proj1 (crate_means c order fs means P ND El Kn (b_accepted _ _ _ _ _ _ _ _ _ B) F n k b d _ args a x Hk Ht Hf (proj2 (Kn _ _ _ _) St))) in H.
  rewrite (proj1 (stands_written _ _ _ _ _ St)).
  apply (C53_standard_results_partial h fs ms ms' p FS lives B F n k (f_name d) f args r); try assumption.
  - rewrite <- nth_error_map, Nm. exact En.
  - exact (types_named_scalar _ _ Ht).
Qed.
Print Assumptions C68_texts_optimized_partial.

(** A project of three modules.  [SCALE] and [n] mean different things in different modules; [area] is
    written before the function it calls through an import; [geo] and [geo::math] are imported. *)
Open Scope string_scope.
Definition texts : list (string * string) :=
  [("main",
"use geo::area;
use geo::math::{power, unit};
const SCALE: u32 = 3;
fn main(n: u32) -> u32 {
  let scaled = area(n, SCALE);
  if scaled == 6 { return power(SCALE, 2); }
  return scaled + SCALE;
}");
   ("geo",
"use geo::math::mul;
const SCALE = 1;
fn area(w: u32, h: u32) -> u32 {
  let n = mul(w, h);
  const OTHER = SCALE + 1;
  assert(OTHER == 2);
  return n;
}");
   ("geo::math",
"fn mul(a: u32, b: u32) -> u32 { return a * b; }
const SCALE = 7 - 5;
fn unit() -> felt { return SCALE; }
fn power(a: u32, n: felt) -> u32 {
  if n == 0 { return 1; }
  let r = power(a, n - 1);
  return mul(r, a);
}")].
Definition demo_project : project := map (fun t => (fst t, match parse_file (snd t) with Some m => m | None => [] end)) texts.
Definition demo_order : project := rev demo_project.
Definition demo_crate : list sfun := match elab_crate demo_project demo_order with Some fs => fs | None => [] end.
Definition demo_fns : list string := ["mul"; "unit"; "power"; "area"; "main"].
Definition demo_means : meanings := follow demo_project 3.
Example C68_case : parsed texts demo_project /\ NoDup (map fst texts) /\ Permutation demo_order demo_project /\ knows demo_project demo_means /\
  detect_import_cycle (import_graph demo_project) = Done None /\
  elab_crate demo_project demo_order = Some demo_crate /\ (exists fs, elab_crate demo_project demo_project = Some fs /\ module_ok fs = true) /\
  lowered_names demo_order = demo_fns /\ map fst (name_all demo_fns demo_crate) = demo_fns /\ module_ok demo_crate = true /\
  (exists ms', built some_hashes (no_opt some_hashes) (no_opt_ready some_hashes) demo_crate (name_all demo_fns demo_crate) ms' (prog_of ms') 64 (find_lives ms')) /\
  (exists ms', built some_hashes (standard some_hashes) (standard_ready some_hashes) demo_crate (name_all demo_fns demo_crate) ms' (prog_of ms') 64 (find_lives ms')) /\
  exists d, stands_for demo_project "main" "power" "geo::math" (IFn d) /\ types_named (f_params d) = Some [TU32; TFelt].
Proof.
  assert (ND : NoDup (map fst texts)) by (repeat constructor; cbn; intuition discriminate).
  assert (NDp : NoDup (map fst demo_project)) by exact ND.
  assert (Pe : Permutation demo_order demo_project) by (apply Permutation_sym, Permutation_rev).
  assert (El : elab_crate demo_project demo_order = Some demo_crate) by (vm_compute; reflexivity).
  assert (Cy : detect_import_cycle (import_graph demo_project) = Done None) by (vm_compute; reflexivity).
  assert (Kn : knows demo_project demo_means).
  { destruct (C63_imports_first demo_project demo_project (Permutation_refl _) NDp Cy) as (t & T & _ & First & Ct).
    assert (Lt : topological_sort (import_graph demo_project) = Done ["geo::math"; "geo"; "main"]) by (vm_compute; reflexivity).
    rewrite Lt in T. injection T as <-. apply (follow_knows demo_project ["geo::math"; "geo"; "main"]); try assumption.
    destruct (crate_read demo_project demo_order demo_crate Pe NDp El) as (_ & _ & _ & N1 & _). exact N1. }
  split; [repeat constructor; vm_compute; reflexivity|]. split; [exact ND|]. split; [exact Pe|]. split; [exact Kn|]. split; [exact Cy|]. split; [exact El|].
  split; [eexists; split; [vm_compute; reflexivity|vm_compute; reflexivity]|]. split; [vm_compute; reflexivity|]. split; [vm_compute; reflexivity|]. split; [vm_compute; reflexivity|]. split; [|split].
  - destruct (built_example (no_opt some_hashes) (no_opt_ready some_hashes) demo_crate demo_fns) as (ms' & _ & B); [vm_compute; reflexivity..|]. exists ms'. exact B.
  - destruct (built_example (standard some_hashes) (standard_ready some_hashes) demo_crate demo_fns) as (ms' & _ & B); [vm_compute; reflexivity..|]. exists ms'. exact B.
  - assert (E : exists d, demo_means "main" "power" = Some ("geo::math", d) /\ types_named (f_params d) = Some [TU32; TFelt]) by (eexists; split; vm_compute; reflexivity).
    destruct E as (d & E & T). exists d. split; [now apply Kn|exact T].
Qed.
(** What the files say. *)
Example C68_case_runs :
  project_call demo_project demo_means 60 10 "main" "main" [VU32 2] = ROk (Some (VU32 9)) /\
  project_call demo_project demo_means 60 10 "main" "main" [VU32 4] = ROk (Some (VU32 15)) /\
  project_call demo_project demo_means 60 10 "main" "area" [VU32 4; VU32 5] = ROk (Some (VU32 20)) /\
  project_call demo_project demo_means 60 10 "geo" "power" [VU32 4; VFelt 5] = RStuck /\
  run_program 3000 3000 100 (prog_of (match optimize (standard some_hashes) (name_all demo_fns demo_crate) with Some x => x | None => [] end)) "main" [2%Z; 0%Z] 2 = Some [Some 9%Z; Some 0%Z].
Proof. split; [vm_compute; reflexivity|]. split; [vm_compute; reflexivity|]. split; [vm_compute; reflexivity|]. split; vm_compute; reflexivity. Qed.

(** ** Functions of one name in two modules *)

Lemma optimize_names pl : forall ms ms', optimize pl ms = Some ms' -> map fst ms' = map fst ms.
Proof.
  induction ms as [|(x & f) ms IH]; intros ms' H; cbn in H; [injection H as <-; reflexivity|].
  destruct (pl f); [|discriminate H]. destruct (optimize pl ms) as [r|]; [|discriminate H]. injection H as <-. cbn. f_equal. now apply IH.
Qed.
(** A project with two functions of the same name, in whatever modules, is never compiled. *)
Theorem C68_same_name_rejected : forall (c order : crate) fs pl ms ms' p, Permutation order c -> NoDup (map fst c) -> elab_crate c order = Some fs ->
  map fst ms = lowered_names order -> optimize pl ms = Some ms' -> compile ms' = COk p ->
  forall a m d b m' d', In (a, m) c -> In (IFn d) m -> In (b, m') c -> In (IFn d') m' -> f_name d = f_name d' -> (a, d) = (b, d').
Proof.
  intros c order fs pl ms ms' p P ND El Nm Op Co a m d b m' d' Ia Id Ib Id' E.
  unfold compile in Co. destruct (valid_module ms') eqn:V; [|discriminate Co]. unfold valid_module in V. apply andb_prop in V as (V & _).
  rewrite (optimize_names _ _ _ Op), Nm in V. destruct (crate_read c order fs P ND El) as (_ & _ & _ & _ & _ & _ & Ln & _). rewrite Ln in V.
  assert (Nd : NoDup (map (fun p => f_name (snd p)) (all_functions order))).
  { clear - V. induction (map _ _) as [|x l IH]; [constructor|]. cbn in V. apply andb_prop in V as (V1 & V2). constructor; [|auto].
    intro I. apply negb_true_iff in V1. assert (X : existsb (String.eqb x) l = true); [|congruence]. apply existsb_exists. exists x. split; [exact I|apply String.eqb_refl]. }
  assert (I1 : In (a, d) (all_functions order)) by (apply all_functions_in; exists m; split; [eapply Permutation_in; [apply Permutation_sym, P|exact Ia]|exact Id]).
  assert (I2 : In (b, d') (all_functions order)) by (apply all_functions_in; exists m'; split; [eapply Permutation_in; [apply Permutation_sym, P|exact Ib]|exact Id']).
  clear - Nd I1 I2 E. induction (all_functions order) as [|q l IH]; [destruct I1|]. cbn in Nd. inversion Nd as [|? ? N1 N2]; subst. destruct I1 as [->|I1], I2 as [I2|I2]; auto.
  - exfalso. apply N1. cbn. rewrite E. exact (in_map (fun p => f_name (snd p)) _ _ I2).
  - subst q. exfalso. apply N1. cbn. rewrite <- E. exact (in_map (fun p => f_name (snd p)) _ _ I1).
Qed.
Print Assumptions C68_same_name_rejected.

(** The full claim fails: a project that passes every check is compiled.  In each of two modules, [step] is
    a function of the module itself; nothing imports it.  The checks of names, imports and types accept
    the project and it is lowered, but there is no program. *)
Lemma lowered_example fs ns :
  forallb (fun f => match lower_fun (fun l => l) (map sig_of fs) f with Some _ => true | None => false end) fs = true -> length ns = length fs ->
  LowerSpec.lowered fs (name_all ns fs).
Proof.
  intros H4 H5. unfold LowerSpec.lowered, name_all, Prop_Lower.lower_all. rewrite map_map. rewrite forallb_forall in H4. revert ns H5.
  assert (K : forall f, In f fs -> exists g, lower_fun (fun l => l) (map sig_of fs) f = Some g).
  { intros f Hf. specialize (H4 f Hf). destruct (lower_fun _ _ f); [eauto | discriminate]. }
  clear H4. revert K. generalize (map sig_of fs) as sg. intros sg. induction fs as [|f fs IH]; intros K [|n ns] L; try discriminate; [constructor|].
  cbn [map combine]. constructor.
  - exists (fun l => l). split; [intro; apply Permutation_refl|]. destruct (K f (or_introl eq_refl)) as (g & Eg). rewrite Eg. reflexivity.
  - apply IH; [intros x Hx; apply K; now right | cbn in L; lia].
Qed.
Definition two_steps : project :=
  [("main", match parse_file "use lib::twice; fn step(n: felt) -> felt { return n + 1; } fn main(n: felt) -> felt { return twice(step(n)); }" with Some m => m | None => [] end);
   ("lib", match parse_file "fn step(n: felt) -> felt { return n + n; } fn twice(n: felt) -> felt { return step(n); }" with Some m => m | None => [] end)].
Theorem C68_projects_compile_refuted :
  ~ (forall h c order fs ms ms', Permutation order c -> NoDup (map fst c) -> (forall a m, In (a, m) c -> names_once m) ->
     detect_import_cycle (import_graph c) = Done None -> (forall a m, In (a, m) c -> check_imports c m = []) ->
     elab_crate c order = Some fs -> module_ok fs = true -> LowerSpec.lowered fs ms -> map fst ms = lowered_names order ->
     valid_hashes h -> optimize (no_opt h) ms = Some ms' -> exists p, compile ms' = COk p).
Proof.
  intro H.
  destruct (elab_crate two_steps two_steps) as [fs|] eqn:El; [|vm_compute in El; discriminate El].
  assert (Ne : fs = match elab_crate two_steps two_steps with Some fs => fs | None => [] end) by (rewrite El; reflexivity).
  set (ns := ["step"; "main"; "step"; "twice"]).
  destruct (optimize (no_opt some_hashes) (name_all ns fs)) as [ms'|] eqn:Op.
  2:{ subst fs. vm_compute in Op. discriminate Op. }
  assert (ND : NoDup (map fst two_steps)) by (repeat constructor; cbn; intuition discriminate).
  destruct (crate_read two_steps two_steps fs (Permutation_refl _) ND El) as (_ & _ & _ & N1 & _).
  assert (Ln : lowered_names two_steps = ns) by (vm_compute; reflexivity).
  destruct (H some_hashes two_steps two_steps fs (name_all ns fs) ms' (Permutation_refl _) ND N1) as (p & Co); try assumption.
  - vm_compute. reflexivity.
  - intros a m [E|[E|[]]]; injection E as <- <-; vm_compute; reflexivity.
  - rewrite Ne. vm_compute. reflexivity.
  - apply lowered_example; rewrite Ne; vm_compute; reflexivity.
  - rewrite Ln, Ne. vm_compute. reflexivity.
  - exact some_hashes_valid.
  - unfold compile in Co. destruct (valid_module ms') eqn:V; [|discriminate Co]. unfold valid_module in V. apply andb_prop in V as (V & _).
    rewrite (optimize_names _ _ _ Op), Ne in V. vm_compute in V. discriminate V.
Qed.
Print Assumptions C68_projects_compile_refuted.
