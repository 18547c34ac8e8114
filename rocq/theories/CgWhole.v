(** Compiling a module, from its MIR before legalisation to runs of the virtual machine. *)
From Coq Require Import ZArith Bool String List Lia.
From Verif Require VmMem.
From Verif Require Import M31 Instr Vm Mir MirSem MirLegal MirLegalFacts Cg CgLink CgSpec CgRun CgCheck CgVm.
Import ListNotations.
Open Scope Z_scope.

(** [r'] is [r], unless [r] is undefined. *)
Definition refines {A} (r r' : MirSem.res A) : Prop := r = RStuck \/ r' = r.
Lemma refines_refl : forall {A} (r : MirSem.res A), refines r r.
Proof. right. reflexivity. Qed.
Lemma refines_bind : forall {A B} (r r' : MirSem.res A) (k k' : A -> MirSem.res B), refines r r' -> (forall x, refines (k x) (k' x)) ->
  refines (rbind r k) (rbind r' k').
Proof. intros A B r r' k k' [->| ->] H; [left; reflexivity|]. destruct r; cbn [rbind]; auto using refines_refl. Qed.

(** Worlds that differ in what calls do. *)
Definition calls_refine {S} (W W' : world S) : Prop :=
  w_load W' = w_load W /\ w_store W' = w_store W /\ w_array W' = w_array W /\ w_alloc W' = w_alloc W /\
  forall c vs s, refines (w_call W c vs s) (w_call W' c vs s).
Lemma effect_refines : forall S (W W' : world S) tys e s i, calls_refine W W' -> refines (effect W tys e s i) (effect W' tys e s i).
Proof.
  intros S W W' tys e s i (A & B & C & D & E). destruct i; cbn [effect]; rewrite ?A, ?B, ?C, ?D; try apply refines_refl.
  apply refines_bind; [apply refines_refl|]. intros vs. apply E.
Qed.
Lemma exec_list_refines : forall S (W W' : world S) tys is e s, calls_refine W W' -> refines (exec_list W tys e s is) (exec_list W' tys e s is).
Proof.
  intros S W W' tys is. induction is as [|i is IH]; intros e s H; cbn [exec_list]; [apply refines_refl|].
  apply refines_bind; [|intros x; apply IH; exact H]. unfold MirSem.exec. apply refines_bind; [apply effect_refines; exact H|].
  intros x. apply refines_refl.
Qed.
Lemma run_refines : forall S (W W' : world S) f, calls_refine W W' -> forall fuel prev cur e s, refines (MirSem.run W f fuel prev cur e s) (MirSem.run W' f fuel prev cur e s).
Proof.
  intros S W W' f H. induction fuel as [|fuel IH]; intros prev cur e s; cbn [MirSem.run]; [apply refines_refl|].
  destruct (nth_error (f_blocks f) cur) as [b|]; [|apply refines_refl].
  apply refines_bind; [apply refines_refl|]. intros e1. apply refines_bind; [apply exec_list_refines; exact H|]. intros x.
  apply refines_bind; [apply refines_refl|]. intros [b'|vs]; [apply IH|apply refines_refl].
Qed.
Lemma call_refines : forall S (W W' : world S) f fuel args s, calls_refine W W' -> refines (call_fn W f fuel args s) (call_fn W' f fuel args s).
Proof.
  intros S W W' f fuel args s H. unfold call_fn. destruct (bind_all _ _ _); [apply run_refines; exact H|apply refines_refl].
Qed.

(** Replacing every function by one with the same behaviour. *)
Lemma module_refines : forall ms ms', Forall2 (fun x y => same_behaviour (snd x) (snd y)) ms ms' ->
  forall F n, calls_refine (module_world ms F n) (module_world ms' F n).
Proof.
  intros ms ms' H F. induction n as [|n IH]; (split; [reflexivity|]; split; [reflexivity|]; split; [reflexivity|]; split; [reflexivity|]);
    intros c vs s; cbn [module_world w_call]; [apply refines_refl|].
  assert (N : match nth_error ms c, nth_error ms' c with Some x, Some y => same_behaviour (snd x) (snd y) | None, None => True | _, _ => False end).
  { clear - H. revert c. induction H as [|x y ms ms' H1 H2 IH]; intros [|c]; cbn; auto. apply IH. }
  destruct (nth_error ms c) as [[fn f]|], (nth_error ms' c) as [[fn' f']|]; try contradiction; [|apply refines_refl].
  cbn [snd] in N. destruct (call_fn (module_world ms F n) f F vs s) as [r| | |] eqn:E; [| |left; reflexivity|];
    right; (assert (K : call_fn (module_world ms F n) f F vs s <> RStuck) by (rewrite E; discriminate));
    rewrite <- E, <- (N _ _ _ _ _ K); (destruct (call_refines _ _ _ f' F vs s IH) as [X|X]; [rewrite (N _ _ _ _ _ K) in X; congruence|exact X]).
Qed.
Lemma legal_module : forall fs, (forall fn f, In (fn, f) fs -> ids_below f) ->
  Forall2 (fun x y => same_behaviour (snd x) (snd y)) fs (legal_funcs fs).
Proof.
  induction fs as [|[fn f] fs IH]; intros H; cbn [legal_funcs map]; constructor.
  - cbn [snd]. apply legal_same. apply (H fn). left. reflexivity.
  - apply IH. intros fn' f' I. apply (H fn'). right. exact I.
Qed.
Lemma legal_call : forall fs F n c args, (forall fn f, In (fn, f) fs -> ids_below f) ->
  mir_call fs F n c args <> RStuck -> mir_call (legal_funcs fs) F n c args = mir_call fs F n c args.
Proof.
  intros fs F n c args H Ns. unfold mir_call in *. destruct (module_refines _ _ (legal_module fs H) F n) as (_ & _ & _ & _ & R).
  destruct (R c args tt) as [K|K]; [contradiction|exact K].
Qed.
Lemma legal_types : forall f vs, (forall v, In v vs -> (v < f_next f)%nat) -> types_of (legalize f) vs = types_of f vs.
Proof.
  intros f. induction vs as [|v vs IH]; intros H; [reflexivity|]. cbn [types_of]. rewrite IH by (intros x Hx; apply H; right; exact Hx).
  cbn [legalize f_types]. assert (v < f_next f)%nat by (apply H; left; reflexivity).
  destruct (Nat.leb_spec (f_next f) v); [lia|reflexivity].
Qed.

Theorem compiled_runs : forall fs p FS lives F d c fn f ps rs args,
  compile fs = COk p -> (forall fn f, In (fn, f) fs -> ids_below f) -> checked fs FS lives = true -> 0 < FS ->
  nth_error fs c = Some (fn, f) -> types_of f (f_params f) = Some ps -> types_of f (f_rets f) = Some rs ->
  typed ps args -> fits_memory p FS d (sizes ps + sizes rs) ->
  exists a, find_entry fn (p_entries p) = Some a /\
  match mir_call fs F d c args with
  | ROk (rets, _) => typed rs rets /\ exists N, forall fuel sfuel k, (N <= fuel)%nat -> (N <= sfuel)%nat -> 1 <= k ->
      run_program fuel sfuel k p fn (flat_map vcells args) (sizes rs) = Some (map Some (flat_map vcells rets))
  | RTrap => exists N, forall fuel sfuel k, (N <= fuel)%nat -> (N <= sfuel)%nat -> 1 <= k ->
      exists v e, run_from_entrypoint fuel sfuel k (Vm.load (image p)) a (sizes ps + sizes rs + 2) (flat_map vcells args) (sizes rs) = (v, LErr e)
  | _ => True
  end.
Proof.
  intros fs p FS lives F d c fn f ps rs args Hc Hb Hk FS0 Ng Tp Tr Ta Rm.
  assert (Ng' : nth_error (legal_funcs fs) c = Some (fn, legalize f)) by (unfold legal_funcs; rewrite nth_error_map, Ng; reflexivity).
  assert (Bf : ids_below f) by (apply (Hb fn); eapply nth_error_In; exact Ng). destruct Bf as (_ & Bf).
  destruct (compiled_legal fs p FS lives F d c fn (legalize f) ps rs args Hc Hk FS0 Ng') as (a & Fe & R); auto.
  { cbn [legalize f_params]. rewrite legal_types; auto. }
  { cbn [legalize f_rets]. rewrite legal_types; auto. }
  exists a. split; [exact Fe|].
  destruct (mir_call fs F d c args) as [r| | |] eqn:E; auto; (rewrite (legal_call fs F d c args Hb) in R by congruence); rewrite E in R; exact R.
Qed.
