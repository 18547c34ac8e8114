(** The semantic index follows lexical scoping. *)
From Coq Require Import NArith Bool String List Arith Lia.
From Verif Require Import Syn ParseFacts ParseStmt FmtFacts Sema SemaSpec.
Import ListNotations.
Open Scope list_scope.

(** ** The scope stack *)
Fixpoint res_stack (names : nat -> string -> list nat) (st : list nat) (x : string) : option nat :=
  match st with
  | [] => None
  | s :: st' => match last_opt (names s x) with Some d => Some d | None => res_stack names st' x end
  end.
(** Every scope on the stack has the next one as its parent, and a larger number. *)
Fixpoint linked (ps : list (option nat)) (st : list nat) : Prop :=
  match st with
  | [] => True
  | s :: st' => nth_error ps s = Some (hd_error st') /\ (match st' with t :: _ => t < s | [] => True end) /\ linked ps st'
  end.
Record rel (ix : index) (r : env) (n : nat) : Prop := Rel {
  rl_ne : ix_stack ix <> [];
  rl_linked : linked (ix_parents ix) (ix_stack ix);
  rl_fresh : forall j x, length (ix_parents ix) <= j -> ix_names ix j x = [];
  rl_n : length (ix_defs ix) = n;
  rl_env : forall x, res_stack (ix_names ix) (ix_stack ix) x = refers r x }.

Definition warns (d : defn) : bool := negb (match d_kind d with DFun | DStruct => true | _ => false end).
Record step (ix ix' : index) (f : found) : Prop := Step {
  st_stack : ix_stack ix' = ix_stack ix;
  st_parents : exists more, ix_parents ix' = ix_parents ix ++ more;
  st_outer : forall s x, In s (tl (ix_stack ix)) -> ix_names ix' s x = ix_names ix s x;
  st_uses : ix_uses ix' = ix_uses ix ++ in_exprs f;
  st_tys : ix_tys ix' = ix_tys ix ++ in_types f;
  st_lits : map fst (ix_lits ix') = map fst (ix_lits ix) ++ map fst (in_lits f);
  st_used : forall d, In d (ix_used ix') <-> In d (ix_used ix) \/ exists x, In (x, Some d) (in_exprs f ++ in_types f);
  st_defs : map (fun d => (d_name d, warns d)) (ix_defs ix') = map (fun d => (d_name d, warns d)) (ix_defs ix) ++ declared f }.
Definition run (f : index -> index) (w : env -> nat -> walk) : Prop :=
  forall ix r n, rel ix r n -> let '(fd, r', n') := w r n in step ix (f ix) fd /\ rel (f ix) r' n'.

Lemma step_refl ix : step ix ix nothing.
Proof.
  constructor; cbn; rewrite ?app_nil_r; auto.
  - exists []. now rewrite app_nil_r.
  - intro d. split; [auto|]. intros [?|(x & [])]; auto.
Qed.
Lemma step_trans a b c f g : step a b f -> step b c g -> step a c (both f g).
Proof.
  intros H K. constructor; cbn.
  - rewrite (st_stack _ _ _ K). apply (st_stack _ _ _ H).
  - destruct (st_parents _ _ _ H) as (m1 & E1), (st_parents _ _ _ K) as (m2 & E2).
    exists (m1 ++ m2). rewrite E2, E1. now rewrite app_assoc.
  - intros s x I. rewrite (st_outer _ _ _ K), (st_outer _ _ _ H); auto. rewrite (st_stack _ _ _ H). exact I.
  - rewrite (st_uses _ _ _ K), (st_uses _ _ _ H). now rewrite app_assoc.
  - rewrite (st_tys _ _ _ K), (st_tys _ _ _ H). now rewrite app_assoc.
  - rewrite (st_lits _ _ _ K), (st_lits _ _ _ H). now rewrite map_app, app_assoc.
  - intro d. rewrite (st_used _ _ _ K), (st_used _ _ _ H). split.
    + intros [[?|(x & I)]|(x & I)]; auto; right; exists x; rewrite !in_app_iff in *; tauto.
    + intros [?|(x & I)]; auto. rewrite !in_app_iff in I.
      destruct I as [[I|I]|[I|I]]; [left; right|right|left; right|right]; exists x; rewrite in_app_iff; auto.
  - rewrite (st_defs _ _ _ K), (st_defs _ _ _ H). now rewrite app_assoc.
Qed.

Lemma run_ext f g w w' : (forall ix, g ix = f ix) -> (forall r n, w' r n = w r n) -> run f w -> run g w'.
Proof. intros E E' H ix r n R. rewrite E, E'. apply H, R. Qed.
Lemma run_nothing : run (fun ix => ix) (fun r n => plain nothing r n).
Proof. intros ix r n R. cbn. split; [apply step_refl|exact R]. Qed.
Lemma run_next f g w1 w2 : run f w1 -> run g w2 -> run (fun ix => g (f ix)) (fun r n => next (w1 r n) w2).
Proof.
  intros H K ix r n R. specialize (H ix r n R). unfold next. destruct (w1 r n) as ((fd & r1) & n1).
  destruct H as (S1 & R1). specialize (K _ _ _ R1). destruct (w2 r1 n1) as ((gd & r2) & n2).
  destruct K as (S2 & R2). split; [eapply step_trans; eauto|exact R2].
Qed.
Lemma run_all {A} (f : A -> index -> index) (w : A -> env -> nat -> walk) l :
  Forall (fun a => run (f a) (w a)) l -> run (fold_left (fun ix a => f a ix) l) (all w l).
Proof.
  induction 1 as [|a l H _ IH]; [exact run_nothing|].
  exact (run_next (f a) (fold_left (fun ix a => f a ix) l) (w a) (all w l) H IH).
Qed.

(** ** Scopes *)
Lemma linked_app ps more st : linked ps st -> linked (ps ++ more) st.
Proof.
  induction st as [|s st IH]; [auto|]. cbn. intros (E & L & H). split; [|auto].
  rewrite nth_error_app1; [exact E|]. apply nth_error_Some. now rewrite E.
Qed.
Lemma linked_bound ps st : linked ps st -> forall s, In s st -> s < length ps.
Proof.
  induction st as [|s st IH]; [intros _ ? []|]. cbn. intros (E & _ & H) t [<-|I]; [|auto].
  apply nth_error_Some. now rewrite E.
Qed.
Lemma linked_desc ps s st : linked ps (s :: st) -> forall t, In t st -> t < s.
Proof.
  revert s. induction st as [|u st IH]; intros s H t I; [destruct I|].
  destruct H as (_ & L & H). destruct I as [<-|I]; [exact L|]. specialize (IH u H t I). lia.
Qed.
Lemma res_stack_ext f g st x : (forall s, In s st -> f s x = g s x) -> res_stack f st x = res_stack g st x.
Proof.
  induction st as [|s st IH]; intro H; [reflexivity|]. cbn. rewrite (H s (or_introl eq_refl)).
  rewrite IH; [reflexivity|]. intros t I. apply H. now right.
Qed.
Lemma rel_push ix r n : rel ix r n -> rel (push_scope ix) r n.
Proof.
  intro R. constructor; cbn.
  - discriminate.
  - split; [|split].
    + rewrite nth_error_app2, Nat.sub_diag; reflexivity.
    + destruct (ix_stack ix) as [|t st] eqn:E; [exact I|]. apply (linked_bound _ _ (rl_linked _ _ _ R)).
      rewrite E. now left.
    + apply linked_app, R.
  - intros j x L. rewrite app_length in L. cbn in L. apply (rl_fresh _ _ _ R). lia.
  - apply R.
  - intro x. rewrite (rl_fresh _ _ _ R) by lia. cbn. apply R.
Qed.
Lemma run_scoped f w : run f w -> run (fun ix => pop_scope (f (push_scope ix))) (fun r n => scoped r (w r n)).
Proof.
  intros H ix r n R. specialize (H _ _ _ (rel_push _ _ _ R)). unfold scoped. destruct (w r n) as ((fd & r1) & n1).
  destruct H as (St & R1). set (ix' := f (push_scope ix)) in *. split.
  - constructor; cbn.
    + rewrite (st_stack _ _ _ St). reflexivity.
    + destruct (st_parents _ _ _ St) as (more & E). cbn in E. rewrite E. rewrite <- app_assoc. eauto.
    + intros s x I. rewrite (st_outer _ _ _ St); [reflexivity|]. cbn. destruct (ix_stack ix); [destruct I|now right].
    + rewrite (st_uses _ _ _ St). reflexivity.
    + rewrite (st_tys _ _ _ St). reflexivity.
    + rewrite (st_lits _ _ _ St). reflexivity.
    + intro d. apply (st_used _ _ _ St).
    + rewrite (st_defs _ _ _ St). reflexivity.
  - pose proof (rl_linked _ _ _ R1) as L. pose proof (st_stack _ _ _ St) as E. cbn in E.
    constructor; cbn; rewrite ?E; cbn.
    + apply R.
    + rewrite E in L. apply L.
    + apply (rl_fresh _ _ _ R1).
    + apply (rl_n _ _ _ R1).
    + intro x. rewrite <- (rl_env _ _ _ R). apply res_stack_ext. intros s I.
      rewrite (st_outer _ _ _ St); [reflexivity|exact I].
Qed.

(** ** Definitions *)
Lemma last_opt_app {A} (l : list A) a : last_opt (l ++ [a]) = Some a.
Proof. induction l as [|b l IH]; [reflexivity|]. cbn. destruct l; [reflexivity|exact IH]. Qed.
Lemma run_define x k w : w = warns (Defn x k 0) -> run (define x k) (declares w x).
Proof.
  intros -> ix r n R. cbn [declares]. split.
  - constructor; cbn; rewrite ?app_nil_r; auto.
    + exists []. now rewrite app_nil_r.
    + intros s y I. unfold put. destruct (Nat.eqb_spec s (current ix)) as [->|]; [|reflexivity].
      exfalso. unfold current in I. pose proof (rl_linked _ _ _ R) as L.
      destruct (ix_stack ix) as [|t st]; [destruct I|]. cbn in I. pose proof (linked_desc _ _ _ L t I). lia.
    + intro d. split; [auto|]. intros [?|(y & [])]; auto.
    + rewrite map_app. reflexivity.
  - constructor; cbn.
    + apply R.
    + apply R.
    + intros j y L. unfold put. destruct (Nat.eqb_spec j (current ix)) as [->|]; cbn; [|apply (rl_fresh _ _ _ R); exact L].
      exfalso. pose proof (rl_linked _ _ _ R) as K. pose proof (rl_ne _ _ _ R) as Ne. unfold current in L.
      destruct (ix_stack ix) as [|t st] eqn:E; [now destruct Ne|]. pose proof (linked_bound _ _ K t (or_introl eq_refl)). cbn in L. lia.
    + rewrite app_length, (rl_n _ _ _ R). cbn. lia.
    + intro y. pose proof (rl_linked _ _ _ R) as K. pose proof (rl_ne _ _ _ R) as Ne. pose proof (rl_env _ _ _ R y) as En.
      unfold put, current. destruct (ix_stack ix) as [|t st] eqn:E; [now destruct Ne|]. cbn [hd res_stack].
      rewrite Nat.eqb_refl. cbn [andb]. rewrite (String.eqb_sym x y).
      destruct (String.eqb_spec y x) as [->|N].
      * rewrite last_opt_app, (rl_n _ _ _ R). reflexivity.
      * cbn [res_stack] in En. rewrite <- En. destruct (last_opt (ix_names ix t y)); [reflexivity|].
        apply res_stack_ext. intros s I. destruct (Nat.eqb_spec s t) as [->|]; [|reflexivity]. cbn.
        destruct (String.eqb_spec y x); [contradiction|reflexivity].
Qed.

(** ** Uses *)
Lemma in_chain_stack ix st s : forall n, linked (ix_parents ix) (s :: st) -> s < n ->
  forall x, in_chain n ix s x = res_stack (ix_names ix) (s :: st) x.
Proof.
  revert s. induction st as [|t st IH]; intros s n L B x; (destruct n as [|n]; [lia|]); cbn [in_chain res_stack]; unfold latest.
  - destruct (last_opt (ix_names ix s x)); [reflexivity|]. destruct L as (E & _). rewrite E. reflexivity.
  - destruct (last_opt (ix_names ix s x)); [reflexivity|]. destruct L as (E & Lt & L). rewrite E. cbn [hd_error].
    rewrite (IH t n L) by lia. reflexivity.
Qed.
Lemma resolve_refers ix r n x : rel ix r n -> resolve ix x = refers r x.
Proof.
  intro R. rewrite <- (rl_env _ _ _ R). unfold resolve, current. pose proof (rl_linked _ _ _ R) as K.
  pose proof (rl_ne _ _ _ R) as Ne. destruct (ix_stack ix) as [|t st]; [now destruct Ne|]. cbn [hd].
  apply in_chain_stack; [exact K|]. apply (linked_bound _ _ K). now left.
Qed.
Lemma used_iff o (l : list nat) (x : string) d :
  In d (match o with Some i => i :: l | None => l end) <-> In d l \/ exists y, In (y, Some d) [(x, o)].
Proof.
  destruct o as [i|]; cbn; split.
  - intros [->|?]; eauto.
  - intros [?|(y & [E|[]])]; auto. injection E as _ ->. auto.
  - auto.
  - intros [?|(y & [E|[]])]; auto. discriminate E.
Qed.
Lemma run_name x : run (use_name x) (fun r n => plain (Found (look r [x]) [] [] []) r n).
Proof.
  intros ix r n R. cbn. split.
  - constructor; cbn; rewrite ?app_nil_r; auto.
    + exists []. now rewrite app_nil_r.
    + now rewrite (resolve_refers _ _ _ x R).
    + intro d. rewrite (resolve_refers _ _ _ x R). apply used_iff.
  - destruct R. constructor; cbn; auto.
Qed.
Lemma run_type x : run (use_type x) (fun r n => plain (Found [] (look r [x]) [] []) r n).
Proof.
  intros ix r n R. cbn. split.
  - constructor; cbn; rewrite ?app_nil_r; auto.
    + exists []. now rewrite app_nil_r.
    + now rewrite (resolve_refers _ _ _ x R).
    + intro d. rewrite (resolve_refers _ _ _ x R). apply used_iff.
  - destruct R. constructor; cbn; auto.
Qed.
Lemma run_struct x : run (use_struct x) (fun r n => plain (Found [] [] (look r [x]) []) r n).
Proof.
  intros ix r n R. cbn. split.
  - constructor; cbn; rewrite ?app_nil_r; auto.
    + exists []. now rewrite app_nil_r.
    + rewrite map_app. reflexivity.
    + intro d. split; [auto|]. intros [?|(y & [])]; auto.
  - destruct R. constructor; cbn; auto.
Qed.

(** ** Traversals that declare nothing *)
Notation runp f p := (run f (fun r n => plain (p r) r n)).
Lemma runp_next f g p q : runp f p -> runp g q -> runp (fun ix => g (f ix)) (fun r => both (p r) (q r)).
Proof. intros H K. exact (run_next _ _ _ _ H K). Qed.
Lemma runp_nothing : runp (fun ix => ix) (fun _ => nothing).
Proof. exact run_nothing. Qed.
Lemma runp_ext f p q : (forall r, q r = p r) -> runp f p -> runp f q.
Proof. intros E H. eapply run_ext; [reflexivity| |exact H]. intros r n. cbn. now rewrite E. Qed.
Fixpoint bothall (l : list found) : found := match l with [] => nothing | f :: l' => both f (bothall l') end.
Lemma runp_all {A} (f : A -> index -> index) (p : A -> env -> found) l :
  Forall (fun a => runp (f a) (p a)) l ->
  runp (fold_left (fun ix a => f a ix) l) (fun r => bothall (map (fun a => p a r) l)).
Proof.
  induction 1 as [|a l H _ IH]; [exact runp_nothing|].
  exact (runp_next (f a) (fold_left (fun ix a => f a ix) l) _ _ H IH).
Qed.
Lemma bothall_look {A} (f g h : A -> list string) r (l : list A) :
  bothall (map (fun a => Found (look r (f a)) (look r (g a)) (look r (h a)) []) l)
  = Found (look r (flat_map f l)) (look r (flat_map g l)) (look r (flat_map h l)) [].
Proof.
  induction l as [|a l IH]; [reflexivity|]. cbn [map bothall flat_map]. rewrite IH. unfold both, look. cbn.
  rewrite !map_app. reflexivity.
Qed.
Lemma both_look r a b c a' b' c' :
  both (Found (look r a) (look r b) (look r c) []) (Found (look r a') (look r b') (look r c') [])
  = Found (look r (a ++ a')) (look r (b ++ b')) (look r (c ++ c')) [].
Proof. unfold both, look. cbn. now rewrite !map_app. Qed.

Definition found_ty (r : env) (t : ty) : found := Found [] (look r (names_t t)) [] [].
Lemma run_ty t : runp (visit_ty t) (fun r => found_ty r t).
Proof.
  induction t as [n|t IH|ts IH|t n IH] using ty_ind2; cbn [visit_ty].
  - destruct n; try exact runp_nothing. apply run_type.
  - exact IH.
  - eapply runp_ext; [|exact (runp_all visit_ty (fun t r => found_ty r t) ts IH)].
    intro r. unfold found_ty. cbn [names_t]. induction ts as [|t ts IHl]; [reflexivity|].
    inversion IH as [|? ? ? IH']; subst. specialize (IHl IH'). cbn [map bothall flat_map]. rewrite <- IHl.
    unfold both, look. cbn. now rewrite map_app.
  - exact IH.
Qed.
Lemma run_expr e : runp (visit_expr e) (fun r => found_e r e).
Proof.
  induction e as [v s|b|x|o a IH|o l r IHl IHr|f es IHf IHes|a m IH|l r IHl IHr|n fs IHfs|es IH|a i IH|es IH|a n IH|a t IH|t n IH|a IH]
    using expr_ind2; cbn [visit_expr]; try exact IH; try exact runp_nothing.
  - apply run_name.
  - eapply runp_ext; [|exact (runp_next _ _ _ _ IHl IHr)]. intro r0. symmetry. apply both_look.
  - eapply runp_ext; [|exact (runp_next _ _ _ _ IHf (runp_all visit_expr (fun e r => found_e r e) es IHes))].
    intro r0. cbv beta. unfold found_e. rewrite bothall_look, both_look. reflexivity.
  - eapply runp_ext; [|exact (runp_next _ _ _ _ IHl IHr)]. intro r0. symmetry. apply both_look.
  - eapply runp_ext; [|exact (runp_next _ _ _ _ (run_struct n) (runp_all (fun f => visit_expr (snd f)) (fun f r => found_e r (snd f)) fs IHfs))].
    intro r0. cbv beta. unfold found_e.
    rewrite (bothall_look (fun f => names_e (snd f)) (fun f => types_e (snd f)) (fun f => built_e (snd f))).
    exact (eq_sym (both_look r0 [] [] [n] _ _ _)).
  - eapply runp_ext; [|exact (runp_all visit_expr (fun e r => found_e r e) es IH)].
    intro r0. unfold found_e. rewrite bothall_look. reflexivity.
  - eapply runp_ext; [|exact (runp_all visit_expr (fun e r => found_e r e) es IH)].
    intro r0. unfold found_e. rewrite bothall_look. reflexivity.
  - eapply runp_ext; [|exact (runp_next _ _ _ _ (run_ty t) IH)]. intro r0.
    exact (eq_sym (both_look r0 [] (names_t t) [] _ _ _)).
Qed.

(** ** Statements and items *)
Lemma pnames_eq : forall p, pat_names p = pnames p.
Proof.
  fix F 1. intros [x|ps]; [reflexivity|]. cbn. induction ps as [|p ps IH]; [reflexivity|]. cbn. now rewrite F, IH.
Qed.
Lemma run_declares k w xs : w = warns (Defn ""%string k 0) -> run (each (fun x => define x k) xs) (all (declares w) xs).
Proof. intros ->. apply run_all. apply Forall_forall. intros x _. now apply run_define. Qed.
Lemma run_stmt s : run (visit_stmt s) (walk_s s).
Proof.
  induction s as [p t e|c|l r|o|c a b IHa IHb|e|l IH|b IH|c b IH|i c st b IHi IHst IHb| |] using stmt_ind3;
    cbn [visit_stmt].
  - rewrite pnames_eq.
    assert (T : runp (fun ix => match t with Some t => visit_ty t ix | None => ix end) (fun r => found_t r t)).
    { destruct t as [t|]; [exact (run_ty t)|exact runp_nothing]. }
    exact (run_next _ _ _ _ (runp_next _ _ _ _ (run_expr e) T) (run_declares DLet true (pnames p) eq_refl)).
  - exact (run_next _ _ _ _ (run_expr (c_val c)) (run_define (c_name c) DConst true eq_refl)).
  - exact (runp_next _ _ _ _ (run_expr l) (run_expr r)).
  - destruct o as [e|]; [exact (run_expr e)|exact run_nothing].
  - destruct b as [b|].
    + exact (run_next _ _ _ _ (run_expr c) (run_next _ _ _ _ (run_scoped _ _ IHa) (run_scoped _ _ (IHb b eq_refl)))).
    + exact (run_next _ _ _ _ (run_expr c) (run_next _ _ _ _ (run_scoped _ _ IHa) run_nothing)).
  - exact (run_expr e).
  - exact (run_scoped _ _ (run_all visit_stmt walk_s l IH)).
  - exact (run_scoped _ _ IH).
  - exact (run_next _ _ _ _ (run_expr c) (run_scoped _ _ IH)).
  - exact (run_scoped _ _ (run_next _ _ _ _ IHi (run_next _ _ _ _ (run_expr c) (run_next _ _ _ _ IHb IHst)))).
  - exact run_nothing.
  - exact run_nothing.
Qed.
Lemma run_item i : run (visit_item i) (walk_item i).
Proof.
  destruct i as [f|s|c|u]; cbn [visit_item].
  - unfold visit_fn.
    assert (Ps : run (each visit_param (f_params f)) (all walk_param (f_params f))).
    { apply run_all. apply Forall_forall. intros p _.
      exact (run_next _ _ _ _ (run_ty (snd p)) (run_define (fst p) DParam true eq_refl)). }
    assert (B : run (each visit_stmt (f_body f)) (all walk_s (f_body f))).
    { apply run_all. apply Forall_forall. intros s _. apply run_stmt. }
    exact (run_scoped _ _ (run_next _ _ _ _ (run_ty (f_ret f)) (run_next _ _ _ _ Ps B))).
  - apply run_all. apply Forall_forall. intros p _. exact (run_ty (snd p)).
  - exact (run_next _ _ _ _ (run_expr (c_val c)) (run_define (c_name c) DConst true eq_refl)).
  - exact run_nothing.
Qed.
Lemma run_globals i : run (declare i) (globals i).
Proof.
  destruct i as [f|s|c|u]; cbn [declare globals].
  - now apply run_define.
  - now apply run_define.
  - exact run_nothing.
  - unfold declare, globals. destruct (u_path u); [exact run_nothing|]. exact (run_declares DUse true (use_names u) eq_refl).
Qed.
Lemma rel_empty : rel empty_index [] 0.
Proof. constructor; cbn; auto. discriminate. Qed.
Theorem build_walk m : step empty_index (build m) (names_in_file m).
Proof.
  assert (G : run (each declare m) (all globals m)). { apply run_all, Forall_forall. intros i _. apply run_globals. }
  assert (V : run (each visit_item m) (all walk_item m)). { apply run_all, Forall_forall. intros i _. apply run_item. }
  pose proof (run_next _ _ _ _ G V _ _ _ rel_empty) as H. unfold names_in_file, walk_file.
  destruct (next (all globals m [] 0) (all walk_item m)) as ((f & r) & n). apply H.
Qed.
