(** Property C83: conditions are booleans and functions return what they declare, at any depth. *)
From Coq Require Import NArith String List Bool Lia.
From Verif Require Import Syn ParseFacts ParseStmt FmtFacts Compat StmtCheck.
Import ListNotations.
Open Scope string_scope.
Open Scope list_scope.

(** ** C83: statements *)
(** [s] is [t] or a statement within it. *)
Inductive within (s : stmt) : stmt -> Prop :=
| w_self : within s s
| w_then c a b : within s a -> within s (SIf c a b)
| w_else c a b : within s b -> within s (SIf c a (Some b))
| w_block l x : In x l -> within s x -> within s (SBlock l)
| w_loop b : within s b -> within s (SLoop b)
| w_while c b : within s b -> within s (SWhile c b)
| w_init i c st b : within s i -> within s (SFor i c st b)
| w_step i c st b : within s st -> within s (SFor i c st b)
| w_body i c st b : within s b -> within s (SFor i c st b).
(** The statements that branch on [c]. *)
Inductive branches (c : expr) : stmt -> Prop :=
| b_if a b : branches c (SIf c a b)
| b_while b : branches c (SWhile c b)
| b_for i st b : branches c (SFor i c st b).
(** A statement that is as its own types say, leaving aside the statements within it. *)
Definition well (g : types) (ret : stype) (s : stmt) : Prop :=
  (forall c, branches c s -> compatible (typed g (Some Bool) c) Bool = true) /\
  (s = SReturn None -> ret = Tuple []) /\
  (forall e, s = SReturn (Some e) -> compatible (typed g None e) ret = true) /\
  (forall x t e, s = SLet (PId x) (Some t) e -> compatible (typed g None e) (resolved g t) = true) /\
  (forall p t e, s = SLet p (Some t) e -> nested_arrays t = []) /\
  (forall x t e, s = SConst (Cdef x (Some t) e) -> compatible (typed g (Some (resolved g t)) e) (resolved g t) = true).

Lemma flat_map_nil : forall (A B : Type) (f : A -> list B) l, flat_map f l = [] <-> forall x, In x l -> f x = [].
Proof.
  intros A B f l. induction l as [|a l IH]; cbn [flat_map].
  - split; [intros _ x []|reflexivity].
  - split.
    + intros H x [<-|I]; apply app_eq_nil in H; [apply H|apply IH; [apply H|exact I]].
    + intros H. rewrite (H a (or_introl eq_refl)). apply IH. intros x I. apply H. right. exact I.
Qed.
Lemma app_nil : forall (A : Type) (a b : list A), a ++ b = [] <-> a = [] /\ b = [].
Proof. intros A a b. split; [apply app_eq_nil|]. intros [-> ->]. reflexivity. Qed.
Lemma condition_spec : forall g c, condition g c = [] <-> compatible (typed g (Some Bool) c) Bool = true.
Proof. intros g c. unfold condition. destruct (compatible _ _); split; intros H; try reflexivity; discriminate H. Qed.
Ltac wl := unfold well; split; [intros ? B; inversion B; subst|split; [|split; [|split; [|split]]]]; try (intros; discriminate).
(** Exactly the statements are accepted in which everything, at any depth, is as its types say. *)
Theorem C83_everywhere : forall g ret t, check_stmt g ret t = [] <-> forall s, within s t -> well g ret s.
Proof.
  intros g ret t. split.
  - induction t as [p t e|c|l r|o|c a b IHa IHb|e|l IH|b IH|c b IH|i c st b IHi IHs IHb| |] using stmt_ind3;
      cbn [check_stmt]; intros H s W.
    + inversion W; subst. wl.
      * intros x u e' [= -> -> ->]. apply app_nil in H. destruct H as [_ H]. destruct (compatible _ _); [reflexivity|discriminate H].
      * intros q u e' [= -> -> ->]. apply app_nil in H. apply H.
    + inversion W; subst. wl.
      intros x u e' [= ->]. unfold check_const in H. cbn [c_ty c_val] in H. destruct (compatible _ _); [reflexivity|discriminate H].
    + inversion W; subst. wl.
    + inversion W; subst. wl.
      * intros [= ->]. destruct ret as [| | | |[|]| | | | |]; try discriminate H. reflexivity.
      * intros e [= ->]. destruct (compatible _ _); [reflexivity|discriminate H].
    + apply app_nil in H. destruct H as [H1 H]. apply app_nil in H. destruct H as [H2 H3]. inversion W; subst.
      * wl. apply condition_spec. exact H1.
      * apply IHa; assumption.
      * eapply IHb; [reflexivity|exact H3|assumption].
    + inversion W; subst. wl.
    + rewrite flat_map_nil in H. inversion W; subst.
      * wl.
      * rewrite Forall_forall in IH. eapply IH; [eassumption|apply H; assumption|assumption].
    + inversion W; subst; [|apply IH; assumption].
      wl.
    + apply app_nil in H. destruct H as [H1 H]. inversion W; subst; [|apply IH; assumption].
      wl. apply condition_spec. exact H1.
    + apply app_nil in H. destruct H as [H1 H]. apply app_nil in H. destruct H as [H2 H]. apply app_nil in H. destruct H as [H3 H4].
      inversion W; subst; [|apply IHi; assumption|apply IHs; assumption|apply IHb; assumption].
      wl. apply condition_spec. exact H2.
    + inversion W; subst. wl.
    + inversion W; subst. wl.
  - induction t as [p t e|c|l r|o|c a b IHa IHb|e|l IH|b IH|c b IH|i c st b IHi IHs IHb| |] using stmt_ind3;
      cbn [check_stmt]; intros H; try reflexivity; pose proof (H _ (w_self _)) as (K1 & K2 & K3 & K4 & K5 & K6).
    + destruct t as [t|]; [|reflexivity]. rewrite (K5 _ _ _ eq_refl). destruct p as [x|]; [|reflexivity].
      rewrite (K4 _ _ _ eq_refl). reflexivity.
    + unfold check_const. destruct c as [x [t|] e]; cbn [c_ty c_val]; [|reflexivity]. rewrite (K6 _ _ _ eq_refl). reflexivity.
    + destruct o as [e|]; [rewrite (K3 _ eq_refl); reflexivity|]. rewrite (K2 eq_refl). reflexivity.
    + apply app_nil. split; [apply condition_spec, K1; constructor|]. apply app_nil. split.
      * apply IHa. intros s W. apply H. constructor. exact W.
      * destruct b as [b|]; [|reflexivity]. apply (IHb b eq_refl). intros s W. apply H. apply w_else. exact W.
    + apply flat_map_nil. intros x I. rewrite Forall_forall in IH. apply (IH x I). intros s W. apply H. apply w_block with x; assumption.
    + apply IH. intros s W. apply H. constructor. exact W.
    + apply app_nil. split; [apply condition_spec, K1; constructor|]. apply IH. intros s W. apply H. constructor. exact W.
    + apply app_nil. split; [apply IHi; intros s W; apply H; apply w_init; exact W|].
      apply app_nil. split; [apply condition_spec, K1; constructor|].
      apply app_nil. split; [apply IHb; intros s W; apply H; apply w_body; exact W|apply IHs; intros s W; apply H; apply w_step; exact W].
Qed.
Print Assumptions C83_everywhere.

(** ** C83: modules *)
Definition function_names (m : module) : list string := flat_map (fun i => match i with IFn f => [f_name f] | _ => [] end) m.
Lemma find_function_in : forall m f, NoDup (function_names m) -> In (IFn f) m -> find_function m (f_name f) = Some f.
Proof.
  intros m f. induction m as [|i m IH]; intros N I; [contradiction I|]. destruct I as [->|I].
  - cbn [find_function]. rewrite String.eqb_refl. reflexivity.
  - destruct i as [h|s|c|u]; cbn [find_function]; try (apply IH; assumption).
    unfold function_names in N. cbn [flat_map app] in N. inversion N as [|x l X N']; subst.
    destruct (String.eqb_spec (f_name h) (f_name f)) as [E|_]; [|apply IH; assumption].
    exfalso. apply X. rewrite E. apply in_flat_map. exists (IFn f). split; [exact I|left; reflexivity].
Qed.
(** In an accepted module, whose function names are different (C75), every statement of every function is
    as its types say, and no function has nested arrays in its signature. *)
Theorem C83_functions : forall g m f, NoDup (function_names m) -> check_module g m = [] -> In (IFn f) m ->
  (forall t s, In t (f_body f) -> within s t -> well g (resolved g (f_ret f)) s) /\
  nested_arrays (f_ret f) = [] /\ forall x t, In (x, t) (f_params f) -> nested_arrays t = [].
Proof.
  intros g m f N H I. unfold check_module in H. apply app_nil in H. destruct H as [A B].
  rewrite flat_map_nil in A, B. specialize (A _ I). specialize (B _ I). cbn beta iota in A, B.
  unfold check_body in B. rewrite (find_function_in m f N I) in B. rewrite flat_map_nil in B.
  apply app_nil in A. destruct A as [A1 A2]. rewrite flat_map_nil in A2. split; [|split; [exact A1|]].
  - intros t s T. apply C83_everywhere. apply B. exact T.
  - intros x t P. apply (A2 (x, t) P).
Qed.
Print Assumptions C83_functions.

(** ** C83: nested arrays *)
Inductive part_of (t : ty) : ty -> Prop :=
| p_self : part_of t t
| p_tuple ts x : In x ts -> part_of t x -> part_of t (TyTuple ts)
| p_ptr x : part_of t x -> part_of t (TyPtr x)
| p_arr x n : part_of t x -> part_of t (TyArr x n).
Definition flat (allowed : ty -> Prop) : Prop := forall t, allowed t -> nested_arrays t = [] ->
  forall e m n, ~ part_of (TyArr (TyArr e m) n) t.
(** Types in which the elements of arrays are names and pointers are pointers to names. *)
Inductive simple : ty -> Prop :=
| s_name n : simple (TyName n)
| s_ptr n : simple (TyPtr (TyName n))
| s_tuple ts : (forall t, In t ts -> simple t) -> simple (TyTuple ts)
| s_arr n k : simple (TyArr (TyName n) k)
| s_nested e m n : simple (TyArr (TyArr e m) n).
Theorem C83_nested_partial : flat simple.
Proof.
  intros t S. induction S as [n|n|ts _ IH|n k|e m n]; intros H e' m' n' P.
  - inversion P.
  - inversion P; subst. match goal with X : part_of _ (TyName _) |- _ => inversion X end.
  - inversion P; subst. cbn [nested_arrays] in H. rewrite flat_map_nil in H.
    match goal with I : In ?x ts, Q : part_of _ ?x |- _ => exact (IH x I (H x I) e' m' n' Q) end.
  - inversion P; subst. match goal with X : part_of _ (TyName _) |- _ => inversion X end.
  - discriminate H.
Qed.
Print Assumptions C83_nested_partial.
(** Nested arrays behind a pointer or in a tuple in an array are not found. *)
Theorem C83_nested_refuted : ~ flat (fun _ => True).
Proof.
  intros F. apply (F (TyPtr (TyArr (TyArr (TyName NFelt) 2) 2)) I eq_refl (TyName NFelt) 2%N 2%N). constructor. constructor.
Qed.
Print Assumptions C83_nested_refuted.

(** ** C83: examples and the refutation for constants *)
Definition plain (t : ty) : stype :=
  match t with TyName NFelt => Felt | TyName NBool => Compat.Bool | TyName NU32 => U32 | TyTuple [] => Tuple [] | _ => Error end.
Definition texts : types :=
  Types (fun hint e => match e with
                       | EBool _ => Compat.Bool
                       | ELit _ (Some _) => U32
                       | ELit _ None => match hint with Some U32 => U32 | _ => Felt end
                       | _ => Error end) plain.
(** fn f() -> felt { loop { if true { return last; } } } *)
Definition body (last : expr) : fdef := Fdef "f" [] (TyName NFelt) [SLoop (SBlock [SIf (EBool true) (SBlock [SReturn (Some last)]) None])].
Example C83_sample : NoDup (function_names [IFn (body (ELit 1 None))]) /\
  check_module texts [IFn (body (ELit 1 None))] = [] /\ check_module texts [IFn (body (EBool true))] = [ReturnMismatch] /\
  check_stmt texts (Tuple []) (SWhile (ELit 1 None) (SBlock [SReturn None])) = [ConditionNotBool] /\
  check_stmt texts Felt (SReturn None) = [MissingReturnValue].
Proof. split; [constructor; [intros []|constructor]|]. repeat split. Qed.
(** Constants of a file are not compared with their annotation: const C: felt = 5u32 is accepted there,
    and reported within a function.  The type of C is the annotation (type_resolution.rs 220-231). *)
Theorem C83_constants_refuted : let c := Cdef "C" (Some (TyName NFelt)) (ELit 5 (Some "u32")) in
  check_stmt texts (Tuple []) (SConst c) = [ConstMismatch "C"] /\ check_module texts [IConst c] = [] /\
  ~ (forall g m x t e, check_module g m = [] -> In (IConst (Cdef x (Some t) e)) m ->
       compatible (typed g (Some (resolved g t)) e) (resolved g t) = true).
Proof.
  cbv zeta. split; [reflexivity|]. split; [reflexivity|]. intros H.
  discriminate (H texts [IConst (Cdef "C" (Some (TyName NFelt)) (ELit 5 (Some "u32")))] "C" (TyName NFelt) (ELit 5 (Some "u32")) eq_refl (or_introl eq_refl)).
Qed.
Print Assumptions C83_constants_refuted.
